(** Proofs about library completeness. *)
From Coq Require Import Reals Lra Lia ZifyBool ZifyNat.
From Flocq Require Import Core.
From Verif Require Import Base BaseFacts Loops LoopsFacts StatsModel StatsSpec StatsProofs AggProofs CsoProofs ChunkProofs BapCor LibModel LibSpec.
#[local] Open Scope R_scope.

Lemma get_entry row c : (0 <= c < zlen row)%Z -> get_at row c = Some (entry row c).
Proof.
  intros H. destruct (get_at_some row c H) as (x & G). rewrite G. f_equal. unfold entry. unfold get_at in G. replace (c <? 0)%Z with false in G by lia. symmetry. now apply nth_error_nth.
Qed.
Lemma column_eq nf t c : (forall row, In row t -> zlen row = nf) -> (0 <= c < nf)%Z -> column t c = map (fun row => entry row c) t.
Proof. intros W C. unfold column. apply map_ext_in. intros row I. rewrite get_entry by (rewrite (W row I); auto). auto. Qed.
Lemma two_rows t (f : list R -> R) r1 r2 : In r1 t -> In r2 t -> f r1 <> f r2 -> (2 <= length t)%nat.
Proof. destruct t as [|a [|b t]]; cbn; intros; try lia; intuition (subst; congruence). Qed.
Lemma col_sd_spec nf t c : well_formed true nf t -> (0 <= c < nf)%Z -> col_sd t c = Some (spread t c) /\ 0 < spread t c.
Proof.
  intros (W & V) C. destruct (V eq_refl c C) as (r1 & r2 & I1 & I2 & N). pose proof (two_rows t (fun r => entry r c) r1 r2 I1 I2 N) as L2.
  set (l := map (fun row => entry row c) t). assert (length l = length t) as Ll by apply map_length.
  assert (0 < dev 2 l) as D.
  { pose proof (dev2_nonneg l) as D0. destruct (Rle_lt_or_eq_dec _ _ D0) as [|E]; auto. exfalso. apply N. apply (dev2_zero_const l); auto; unfold l; apply in_map_iff; eauto. }
  assert (l <> []) as NE by (destruct l; cbn in *; [lia|congruence]).
  assert (1 < size l) as S by (unfold size; change 1 with (INR 1); apply lt_INR; lia).
  assert (0 < spread t c) as P. { unfold spread. fold l. cbv zeta. apply sqrt_lt_R0. apply Rdiv_lt_0_compat; lra. }
  split; auto. unfold col_sd. replace (zlen t <? 2)%Z with false by (unfold zlen; lia).
  rewrite (column_eq nf) by auto. fold l. destruct (run_var_spec l NE) as (_ & ->). unfold standdev, variance.
  replace (IZR (zlen t)) with (size l) by (unfold size, zlen; rewrite Ll, INR_IZR_INZ; auto). change (sqrt (dev 2 l / (size l - 1))) with (spread t c).
  rewrite Req_bool_false; auto. lra.
Qed.
Lemma unit_pos rescale nf t c : well_formed rescale nf t -> (0 <= c < nf)%Z -> 0 < unit_of rescale t c.
Proof. intros W C. unfold unit_of. destruct rescale; [|lra]. now apply (col_sd_spec nf). Qed.
Lemma scaled_diff rescale nf t c x v : well_formed rescale nf t -> (0 <= c < nf)%Z -> exists y z, scaled rescale t c x = Some y /\ scaled rescale t c v = Some z /\
  Rabs (y - z) = Rabs (x - v) / unit_of rescale t c.
Proof.
  intros W C. pose proof (unit_pos _ _ _ _ W C) as U. unfold scaled, unit_of in *. destruct rescale.
  - destruct (col_sd_spec nf t c W C) as (-> & P). do 2 eexists. split; [reflexivity|]. split; [reflexivity|].
    replace ((x - col_mean t c) / spread t c - (v - col_mean t c) / spread t c) with ((x - v) / spread t c) by (field; lra).
    unfold Rdiv. rewrite Rabs_mult, (Rabs_pos_eq (/ spread t c)); auto. left. now apply Rinv_0_lt_compat.
  - do 2 eexists. split; [reflexivity|]. split; [reflexivity|]. unfold Rdiv. now rewrite Rinv_1, Rmult_1_r.
Qed.

Section Row.
Context (rescale : bool) (nf : Z) (t : library) (feats : list (Z * bool)) (row : list R).
Context (W : well_formed rescale nf t) (NF : zlen feats = nf) (L : zlen row = nf).
Let term c := Rabs (entry row c - feature feats c) / unit_of rescale t c.
Lemma row_fold : forall l a k, Forall (fun cf => get_at feats (fst cf) = Some (snd cf)) l ->
  ofold (fun (acc : option R * Z) (cf : Z * (Z * bool)) =>
    let '(c, (v, m)) := cf in
    if negb m then Ret acc
    else
      x <- of_option (get_at row c) ;;
      Ret (match fst acc, scaled rescale t c x, scaled rescale t c (IZR v) with
           | Some a, Some y, Some z => Some (a + Rabs (y - z))
           | _, _, _ => None
           end, (snd acc + 1)%Z)) l (Some a, k) =
  Ret (Some (a + sum term (filter (usable feats) (map fst l))), (k + zlen (filter (usable feats) (map fst l)))%Z).
Proof.
  induction l as [|(c & v & m) l IH]; intros a k F; cbn [ofold map filter fst].
  - cbn. now rewrite Rplus_0_r, Z.add_0_r.
  - apply Forall_cons_iff in F; destruct F as (G & F'). cbn [fst snd] in G. assert (usable feats c = m) as -> by (unfold usable; now rewrite G; destruct m). destruct m; cbn [negb].
    + pose proof (get_at_inv _ _ _ G) as R. rewrite NF in R. rewrite get_entry by lia. cbn [of_option bind fst snd].
      destruct (scaled_diff rescale nf t c (entry row c) (IZR v) W R) as (y & z & -> & -> & E). rewrite IH by auto. cbn [sum].
      assert (Rabs (y - z) = term c) as -> by (unfold term, feature; rewrite G; auto).
      replace (a + (term c + sum term (filter (usable feats) (map fst l)))) with (a + term c + sum term (filter (usable feats) (map fst l))) by ring. set (X := filter _ _). replace (k + 1 + zlen X)%Z with (k + zlen (c :: X))%Z by (unfold zlen; cbn [length]; lia).  reflexivity.
    + cbn [bind]. now apply IH.
Qed.
Lemma combine_zupto_get {A} (l : list A) : Forall (fun cf => get_at l (fst cf) = Some (snd cf)) (combine (zupto (zlen l)) l).
Proof.
  apply Forall_forall. intros (c & f) I. cbn [fst snd]. apply In_get_at in I. destruct I as (n & _ & E). rewrite get_combine in E.
  destruct (get_at (zupto (zlen l)) n) eqn:Gz; [|discriminate]. destruct (get_at l n) eqn:G; [|discriminate]. injection E as -> ->.
  pose proof (get_at_inv _ _ _ G) as R. rewrite get_zupto in Gz by lia. injection Gz as <-. auto.
Qed.
Lemma map_fst_combine {A B} : forall (a : list A) (b : list B), length a = length b -> map fst (combine a b) = a.
Proof. induction a as [|x a IH]; intros [|y b] E; cbn in *; try discriminate; auto. f_equal. apply IH. congruence. Qed.

Lemma row_error_spec : existsb snd feats = true -> row_error rescale t feats row = Ret (Some (distance rescale t feats row)).
Proof.
  intros U. unfold row_error. rewrite row_fold by apply combine_zupto_get. cbn [bind fst snd].
  rewrite map_fst_combine by (rewrite zupto_zrange, zrange_length; unfold zlen; lia).
  set (us := filter (usable feats) (zupto (zlen feats))).
  assert (us <> []) as NE.
  { apply existsb_exists in U. destruct U as ((v & m) & I & M). cbn in M. subst m. apply In_get_at in I. destruct I as (i & R & G).
    assert (In i us) as I. { unfold us. apply filter_In. rewrite zupto_In. split; [lia|]. unfold usable. now rewrite G. } intros Z. now rewrite Z in I. }
  assert (0 < zlen us)%Z as P by (destruct us; [congruence|unfold zlen; cbn; lia]).
  replace (0 + zlen us =? 0)%Z with false by lia. do 2 f_equal. unfold distance. fold us. unfold mean. rewrite sum_map, size_map. unfold size, zlen. rewrite INR_IZR_INZ. f_equal. apply Rplus_0_l.
Qed.
Lemma row_error_none : existsb snd feats = false -> row_error rescale t feats row = Ret None.
Proof.
  intros U. unfold row_error. rewrite row_fold by apply combine_zupto_get. cbn [bind fst snd].
  rewrite map_fst_combine by (rewrite zupto_zrange, zrange_length; unfold zlen; lia).
  replace (filter (usable feats) (zupto (zlen feats))) with (@nil Z); [reflexivity|]. symmetry. clear -U.
  induction (zupto (zlen feats)) as [|c l IH]; cbn [filter]; auto. destruct (usable feats c) eqn:E; auto. exfalso.
  unfold usable in E. destruct (get_at feats c) as [(v & [|])|] eqn:G; try discriminate. apply get_at_In in G.
  assert (existsb snd feats = true) by (apply existsb_exists; exists (v, true); auto). congruence.
Qed.
Lemma distance_nonneg : 0 <= distance rescale t feats row.
Proof.
  unfold distance. set (us := filter (usable feats) (zupto (zlen feats))).
  unfold mean. destruct us as [|u us'] eqn:E; [cbn; unfold Rdiv; lra|].
  apply Rmult_le_pos; [|left; apply Rinv_0_lt_compat, size_pos; cbn; congruence].
  rewrite sum_map, <- E.
  assert (forall l, incl l us -> 0 <= sum (fun c => Rabs (entry row c - feature feats c) / unit_of rescale t c) l) as H.
  { induction l as [|c l IH]; intros I; cbn [sum]; [lra|]. assert (In c us) as Ic by (apply I; left; auto). unfold us in Ic. apply filter_In in Ic. destruct Ic as (Ic & _). rewrite zupto_In in Ic.
    assert (0 < unit_of rescale t c) by (apply (unit_pos rescale nf); auto; lia). pose proof (Rabs_pos (entry row c - feature feats c)).
    assert (0 <= Rabs (entry row c - feature feats c) / unit_of rescale t c) by (apply Rmult_le_pos; auto; left; now apply Rinv_0_lt_compat).
    assert (0 <= sum (fun c => Rabs (entry row c - feature feats c) / unit_of rescale t c) l) by (apply IH; intros q Q; apply I; right; auto). lra. }
  apply H. intros q Q. auto.
Qed.
End Row.

(** Smallest of a list, capped. *)
Lemma smaller_fold (g : list R -> R) : forall l m, exists r, ofold (fun m row => e <- Ret (Some (g row)) ;; Ret (smaller m e)) l m = Ret r /\
  r <= m /\ (forall x, In x l -> r <= g x) /\ (r = m \/ exists x, In x l /\ r = g x).
Proof.
  induction l as [|x l IH]; intros m; cbn [ofold bind].
  - exists m. repeat split; auto; [lra|intros ? []].
  - destruct (IH (smaller m (Some (g x)))) as (r & E & B & A & C). exists r. split; [exact E|]. cbn [smaller] in *. destruct (Rlt_bool_spec (g x) m) as [H|H].
    + split; [lra|]. split; [intros y [<-|I]; auto|]. destruct C as [->|(y & I & ->)]; right; [exists x|exists y]; cbn; auto.
    + split; [lra|]. split; [intros y [<-|I]; auto; lra|]. destruct C as [->|(y & I & ->)]; [left; auto|right; exists y; cbn; auto].
Qed.
Lemma ofold_ext {A S} (f g : S -> A -> outcome S) : forall l s, (forall s a, In a l -> f s a = g s a) -> ofold f l s = ofold g l s.
Proof.
  induction l as [|a l IH]; intros s H; cbn [ofold]; auto. rewrite H by (left; auto). destruct (g s a); cbn; auto. apply IH. intros; apply H; right; auto.
Qed.
Lemma library_error_spec rescale nf feats t : well_formed rescale nf t -> zlen feats = nf -> existsb snd feats = true ->
  exists r, library_error rescale feats t = Ret r /\ r <= SHRT_MAX /\ (forall x, In x t -> r <= distance rescale t feats x) /\
  (r = SHRT_MAX \/ exists x, In x t /\ r = distance rescale t feats x).
Proof.
  intros W NF U. unfold library_error. destruct (smaller_fold (distance rescale t feats) t SHRT_MAX) as (r & E & P). exists r. split; auto.
  rewrite <- E. apply ofold_ext. intros s a I. rewrite (row_error_spec rescale nf); auto. now apply W.
Qed.
Lemma library_error_none rescale nf feats t : well_formed rescale nf t -> zlen feats = nf -> existsb snd feats = false ->
  library_error rescale feats t = Ret SHRT_MAX.
Proof.
  intros W NF U. unfold library_error. rewrite (ofold_ext _ (fun m _ => Ret m)).
  - generalize SHRT_MAX. clear. induction t as [|r t IH]; cbn; auto.
  - intros s a I. rewrite (row_error_none rescale nf); auto. now apply W.
Qed.
(** What is stored for a smallest value [r], where [ds] are the distances. *)
Lemma store_spec rescale nodata (ds : R -> Prop) r : (forall d, ds d -> 0 <= d) -> r <= SHRT_MAX -> (forall d, ds d -> r <= d) -> (r = SHRT_MAX \/ ds r) ->
  written rescale nodata ds (store_error rescale nodata r).
Proof.
  intros N B A C. unfold written, store_error, SHRT_MAX, factor in *. split.
  - intros d D M F. assert (d < 32767) as Dm by (specialize (N d D); destruct rescale; cbv iota in F; lra).
    assert (r = d) as -> by (destruct C as [->|C]; [specialize (A d D); lra|apply Rle_antisym; auto]).
    rewrite (Rlt_bool_true d) by auto. cbn [andb]. specialize (N d D).
    assert (forall x, 0 <= x -> IZR (Ztrunc x) <= x < IZR (Ztrunc x) + 1) as T.
    { intros x X. rewrite Ztrunc_floor by auto. split; [apply Zfloor_lb|apply Zfloor_ub]. }
    destruct rescale; cbv iota in *.
    + rewrite Rlt_bool_true by lra. replace (1000 * d) with (d * 1000) by ring. apply T. lra.
    + rewrite Rlt_bool_true by lra. replace (1 * d) with d by ring. now apply T.
  - intros F. destruct C as [->|C].
    + rewrite (Rlt_bool_false 32767 32767) by lra. cbn [andb]. now rewrite (Rlt_bool_false 32767 32767) by lra.
    + specialize (F r C). specialize (N r C). destruct rescale; cbv iota in *.
      * destruct (Rlt_bool_spec r 32767) as [H|H]; cbn [andb]; rewrite Rlt_bool_false; auto; lra.
      * destruct (Rlt_bool_spec r 32767) as [H|H]; cbn [andb]; rewrite Rlt_bool_false; auto; lra.
Qed.
(** Smallest over the libraries. *)
Lemma summary_fold : forall es m, let r := fold_left (fun a m => if Rlt_bool m a then m else a) es m in
  r <= m /\ (forall e, In e es -> r <= e) /\ (r = m \/ In r es).
Proof.
  induction es as [|e es IH]; intros m; cbn [fold_left].
  - cbv zeta. repeat split; [lra|intros ? []|auto].
  - destruct (Rlt_bool_spec e m) as [H|H]; [destruct (IH e) as (B & A & C)|destruct (IH m) as (B & A & C)]; cbv zeta in *; (split; [lra|]).
    + split; [intros x [<-|I]; auto|]. right. destruct C as [C|C]; [left; auto|right; auto].
    + split; [intros x [<-|I]; auto; lra|]. destruct C as [C|C]; [left; auto|right; right; auto].
Qed.
Lemma Forall2_in_l {A B} (P : A -> B -> Prop) l m : Forall2 P l m -> forall a, In a l -> exists b, In b m /\ P a b.
Proof. induction 1 as [|x y l m H F IH]; intros a []; [subst; exists y; cbn; auto|]. destruct (IH a H0) as (b & I & Q). exists b. cbn. auto. Qed.
Lemma Forall2_in_r {A B} (P : A -> B -> Prop) l m : Forall2 P l m -> forall b, In b m -> exists a, In a l /\ P a b.
Proof. induction 1 as [|x y l m H F IH]; intros b []; [subst; exists x; cbn; auto|]. destruct (IH b H0) as (a & I & Q). exists a. cbn. auto. Qed.
