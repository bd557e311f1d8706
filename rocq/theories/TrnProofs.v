(** Proofs about the split of samples and class weights. *)
From Coq Require Import Reals Lra.
From Flocq Require Import Core IEEE754.BinarySingleNaN.
From Verif Require Import Base Float FloatFacts FloatInt ModeModel ModeSpec ModeProofs TrnModel TrnSpec.
Open Scope Z_scope.

Definition ct (b : bool) (m : list bool) : nat := length (filter (Bool.eqb b) m).
Lemma ct_app b m m' : ct b (m ++ m') = (ct b m + ct b m')%nat.
Proof. unfold ct. now rewrite filter_app, app_length. Qed.
Lemma ct_both m : (ct true m + ct false m)%nat = length m.
Proof. unfold ct. induction m as [|[] m IH]; cbn in *; lia. Qed.
Lemma ct_repeat b n : ct b (repeat b n) = n.
Proof. unfold ct. induction n; destruct b; cbn in *; lia. Qed.
Lemma ct_repeat_other b n : ct (negb b) (repeat b n) = 0%nat.
Proof. unfold ct. induction n; destruct b; cbn in *; lia. Qed.
Lemma list_set_app {A} (l1 : list A) x l2 v : list_set (l1 ++ x :: l2) (length l1) v = l1 ++ v :: l2.
Proof. induction l1; cbn; [reflexivity | now f_equal]. Qed.
Lemma set_at_app {A} (l1 : list A) x l2 v : set_at (l1 ++ x :: l2) (zlen l1) v = Some (l1 ++ v :: l2).
Proof.
  unfold set_at, zlen. rewrite app_length. cbn [length]. replace (Z.of_nat (length l1) <? 0) with false by lia.
  replace (Z.of_nat (length l1 + S (length l2)) <=? Z.of_nat (length l1)) with false by lia. cbn. now rewrite Nat2Z.id, list_set_app.
Qed.
Lemma get_at_split {A} (l : list A) i x : get_at l i = Some x -> exists l1 l2, l = l1 ++ x :: l2 /\ zlen l1 = i.
Proof.
  unfold get_at. destruct (i <? 0) eqn:E; [discriminate|]. intros H. apply nth_error_split in H as (l1 & l2 & -> & L). exists l1, l2. split; auto. unfold zlen. lia.
Qed.
Lemma get_at_in {A} (l : list A) i : 0 <= i < zlen l -> exists x, get_at l i = Some x.
Proof.
  intros H. unfold get_at. replace (i <? 0) with false by lia. unfold zlen in H. destruct (nth_error l (Z.to_nat i)) eqn:E; eauto.
  apply nth_error_None in E. lia.
Qed.
Lemma set_mark m s : get_at m s = Some false -> exists m', set_at m s true = Some m' /\ length m' = length m /\ ct true m' = S (ct true m).
Proof.
  intros H. apply get_at_split in H as (l1 & l2 & -> & <-). rewrite set_at_app. exists (l1 ++ true :: l2). rewrite !app_length, !ct_app. cbn. repeat split; auto.
Qed.
Lemma rem_in r n : 0 <= r -> 0 < n -> 0 <= Z.rem r n < n.
Proof. intros. apply Z.rem_bound_pos; lia. Qed.

Lemma draw_cases m : 0 < zlen m -> forall rs, Forall (Z.le 0) rs -> draw (zlen m) m rs = Ret None \/ exists s t, draw (zlen m) m rs = Ret (Some (s, t)) /\ get_at m s = Some false /\ Forall (Z.le 0) t.
Proof.
  intros P. induction rs as [|r rs IH]; intros F; cbn [draw]; auto. inversion F; subst. destruct (get_at_in m (Z.rem r (zlen m))) as (b & E); [now apply rem_in|].
  rewrite E. cbn [of_option bind]. destruct b; [apply IH; auto|]. right. eauto.
Qed.
Lemma mark_random n : forall k m rs, 0 < zlen m -> Forall (Z.le 0) rs ->
  mark true (zlen m) n k m rs = Ret None \/ exists m', mark true (zlen m) n k m rs = Ret (Some m') /\ length m' = length m /\ ct true m' = (ct true m + n)%nat.
Proof.
  induction n as [|n IH]; intros k m rs P F; cbn [mark].
  - right. exists m. repeat split; auto.
  - destruct (draw_cases m P rs F) as [E|(s & t & E & G & F')]; rewrite E; cbn [bind]; auto. destruct (set_mark m s G) as (m' & S1 & L & C). rewrite S1. cbn [of_option bind].
    assert (Z1 : zlen m = zlen m') by (unfold zlen; congruence). rewrite Z1. destruct (IH (k + 1) m' t) as [E'|(m'' & E' & L' & C')]; auto; [lia|]. right. exists m''. rewrite E'. repeat split; [congruence | lia].
Qed.
Lemma mark_ordered nrow rs n : forall k r, mark false nrow n (Z.of_nat k) (repeat true k ++ repeat false (n + r)) rs = Ret (Some (repeat true (k + n) ++ repeat false r)).
Proof.
  induction n as [|n IH]; intros k r; cbn [mark].
  - now rewrite Nat.add_0_r.
  - cbn [Nat.add repeat]. replace (Z.of_nat k) with (zlen (repeat true k)) at 1 by (unfold zlen; now rewrite repeat_length).
    rewrite set_at_app. cbn [of_option bind]. specialize (IH (S k) r). replace (Z.of_nat k + 1) with (Z.of_nat (S k)) by lia.
    replace (repeat true k ++ true :: repeat false (n + r)) with (repeat true (S k) ++ repeat false (n + r)); [rewrite IH; do 4 f_equal; lia|].
    cbn [repeat]. rewrite repeat_cons. now rewrite <- app_assoc.
Qed.
Lemma draw_covered m rest : 0 < zlen m -> forall l, Forall (Z.le 0) l -> (exists r, In r l /\ get_at m (Z.rem r (zlen m)) = Some false) ->
  exists s t, draw (zlen m) m (l ++ rest) = Ret (Some (s, t ++ rest)) /\ get_at m s = Some false /\ Forall (Z.le 0) t.
Proof.
  intros P. induction l as [|r l IH]; intros F (q & I & G); [easy|]. inversion F; subst. cbn [app draw].
  destruct (get_at_in m (Z.rem r (zlen m))) as (b & E); [now apply rem_in|]. rewrite E. cbn [of_option bind]. destruct b; eauto.
  apply IH; auto. exists q. split; auto. destruct I as [->|I]; auto. congruence.
Qed.
Lemma unmarked m : (ct true m < length m)%nat -> exists s, 0 <= s < zlen m /\ get_at m s = Some false.
Proof.
  intros H. assert (I : In false m).
  { pose proof (ct_both m) as B. unfold ct in *. destruct (filter (Bool.eqb false) m) as [|x t] eqn:E; [cbn in B; lia|]. assert (I : In x (filter (Bool.eqb false) m)) by (rewrite E; now left).
    apply filter_In in I as (I & Q). destruct x; [discriminate | auto]. }
  apply in_split in I as (l1 & l2 & ->). exists (zlen l1). unfold get_at, zlen. rewrite app_length. cbn [length]. split; [lia|]. replace (Z.of_nat (length l1) <? 0) with false by lia.
  rewrite Nat2Z.id, nth_error_app2, Nat.sub_diag by lia. reflexivity.
Qed.
Lemma mark_ends segs : forall k m junk, 0 < zlen m -> Forall (Z.le 0) junk -> Forall (Forall (Z.le 0)) segs -> Forall (covers (zlen m)) segs -> (ct true m + length segs <= length m)%nat ->
  mark true (zlen m) (length segs) k m (junk ++ concat segs) <> Ret None.
Proof.
  induction segs as [|g segs IH]; intros k m junk P J F C L; cbn [length mark]; [discriminate|]. cbn [concat length] in *. rewrite app_assoc. inversion F; inversion C; subst.
  destruct (unmarked m) as (s & Bs & Gs); [lia|]. destruct (H5 s Bs) as (r & Ir & Er).
  destruct (draw_covered m (concat segs) P (junk ++ g)) as (s' & t & E & G & Ft); [apply Forall_app; auto| |].
  { exists r. split; [apply in_or_app; auto|]. rewrite Forall_forall in H1. specialize (H1 r Ir). rewrite Z.rem_mod_nonneg, Er by lia. exact Gs. }
  rewrite E. cbn [bind]. destruct (set_mark m s' G) as (m' & S1 & L1 & C1). rewrite S1. cbn [of_option bind]. assert (Z1 : zlen m = zlen m') by (unfold zlen; congruence). rewrite Z1 in *.
  apply IH; auto. lia.
Qed.

Fixpoint sel {A} (b : bool) (samples : list A) (marks : list bool) : list A :=
  match samples, marks with x :: s, c :: m => if Bool.eqb b c then x :: sel b s m else sel b s m | _, _ => [] end.
Lemma sel_length {A} b (samples : list A) : forall m, length m = length samples -> length (sel b samples m) = ct b m.
Proof. induction samples as [|x s IH]; intros [|c m] L; try discriminate; auto. unfold ct in *. cbn in *. destruct (Bool.eqb b c); cbn; rewrite IH; auto. Qed.
Lemma sel_interleaved {A} (samples : list A) : forall m, length m = length samples -> interleaved (sel true samples m) (sel false samples m) samples.
Proof. induction samples as [|x s IH]; intros [|[] m] L; try discriminate; cbn; constructor; auto. Qed.
Lemma fill_ok {A} (samples : list A) : forall m tp vp, length m = length samples ->
  fill samples m (zlen tp) (zlen vp) (tp ++ repeat None (ct true m)) (vp ++ repeat None (ct false m)) = Ret (tp ++ map Some (sel true samples m), vp ++ map Some (sel false samples m)).
Proof.
  assert (Z1 : forall (l : list (option A)) x, zlen l + 1 = zlen (l ++ [x])) by (intros; unfold zlen; rewrite app_length; cbn; lia).
  induction samples as [|x s IH]; intros [|[] m] tp vp L; try discriminate; cbn [fill sel Bool.eqb map].
  - reflexivity.
  - unfold ct in *. cbn [filter Bool.eqb length repeat]. rewrite set_at_app. cbn [of_option bind]. rewrite (Z1 tp (Some x)). specialize (IH m (tp ++ [Some x]) vp). rewrite <- !app_assoc in IH. cbn [app] in IH. apply IH. cbn in L. lia.
  - unfold ct in *. cbn [filter Bool.eqb length repeat]. rewrite set_at_app. cbn [of_option bind]. rewrite (Z1 vp (Some x)). specialize (IH m tp (vp ++ [Some x])). rewrite <- !app_assoc in IH. cbn [app] in IH. apply IH. cbn in L. lia.
Qed.
Lemma fill_marks {A} (samples : list A) m n : length m = length samples -> ct true m = Z.to_nat n -> 0 < n <= zlen samples ->
  (r <- fill samples m 0 0 (repeat None (Z.to_nat n)) (repeat None (Z.to_nat (zlen samples - n))) ;; _ <- of_option (get_at (fst r) 0) ;; Ret (Some r))
  = Ret (Some (map Some (sel true samples m), map Some (sel false samples m))) /\ zlen (sel true samples m) = n.
Proof.
  intros L C B. pose proof (fill_ok samples m [] [] L) as H. cbn [app] in H. replace (zlen (@nil (option A))) with 0 in H by reflexivity. rewrite C in H.
  replace (ct false m) with (Z.to_nat (zlen samples - n)) in H by (pose proof (ct_both m); unfold zlen in *; lia). rewrite H. cbn [bind fst].
  assert (Ln : zlen (sel true samples m) = n) by (unfold zlen; rewrite sel_length, C by auto; lia). split; auto.
  destruct (sel true samples m) eqn:E; [unfold zlen in Ln; cbn in Ln; lia|]. reflexivity.
Qed.

(** ** Number of training samples *)
Lemma n_train_percent nrow per p : isZ per p -> 0 <= p <= 100 -> 0 <= nrow <= 167772 -> n_train nrow per = Ret (nrow * p / 100).
Proof.
  intros Ip Bp Bn. assert (0 <= nrow * p <= 16777200) by nia. unfold n_train, int_of. rewrite (f32_div_trunc _ _ (nrow * p) 100).
  - cbn [of_option bind]. rewrite Z.quot_div_nonneg by lia. unfold chk_int, in_intb. assert (0 <= nrow * p / 100 <= 167772) by (split; [apply Z.div_pos; lia | apply Z.div_le_upper_bound; lia]).
    replace ((-2147483648 <=? nrow * p / 100) && (nrow * p / 100 <=? 2147483647)) with true by lia. reflexivity.
  - apply isZ32_mul; auto; [apply isZ32|]; change (2 ^ 24) with 16777216; lia.
  - apply isZ32. change (2 ^ 24) with 16777216. lia.
  - change (2 ^ 24) with 16777216. lia.
  - change (2 ^ 24) with 16777216. lia.
Qed.
Notation rnd := (round radix2 (SpecFloat.fexp 24 128) (round_mode mode_NE)).
Lemma rnd_between x a b : Z.abs a <= 2 ^ 24 -> Z.abs b <= 2 ^ 24 -> (IZR a <= x <= IZR b)%R -> (IZR a <= rnd x <= IZR b)%R.
Proof.
  intros Ha Hb (L & U). pose proof (fexp_correct 24 128 prec24) as V. rewrite <- (round_int 24 128 prec24 emax24 eq_refl a Ha), <- (round_int 24 128 prec24 emax24 eq_refl b Hb).
  split; apply round_le; auto; apply valid_rnd_N.
Qed.
Lemma no_overflow x : (0 <= x <= IZR 16777216)%R -> Rlt_bool (Rabs x) (bpow radix2 128) = true.
Proof.
  intros H. apply Rlt_bool_true. rewrite Rabs_pos_eq by lra. apply Rle_lt_trans with (bpow radix2 24); [cbn; lra | apply bpow_lt; lia].
Qed.
Lemma n_train_bounds nrow per : is_finite per = true -> (0 <= B2R per <= 100)%R -> 0 <= nrow <= 167772 -> exists n, n_train nrow per = Ret n /\ 0 <= n <= nrow.
Proof.
  intros F B Bn. assert (N24 : 2 ^ 24 = 16777216) by reflexivity. assert (Rn : (0 <= IZR nrow <= 167772)%R) by (split; apply IZR_le; lia).
  destruct (isZ32 nrow) as (F1 & R1); [lia|]. destruct (isZ32 100) as (F2 & R2); [lia|].
  pose proof (Bmult_correct 24 128 prec24 emax24 mode_NE (f32_of_Z nrow) per) as M. rewrite R1 in M.
  assert (X : (0 <= rnd (IZR nrow * B2R per) <= IZR (nrow * 100))%R).
  { apply (rnd_between _ 0 (nrow * 100)); try lia. rewrite mult_IZR. split; [apply Rmult_le_pos; lra | apply Rmult_le_compat_l; lra]. }
  assert (U : (IZR (nrow * 100) <= IZR 16777216)%R) by (apply IZR_le; lia).
  rewrite no_overflow in M by lra. destruct M as (M1 & M2 & _). rewrite F1, F in M2. fold (f32_mul (f32_of_Z nrow) per) in M1, M2.
  pose proof (Bdiv_correct 24 128 prec24 emax24 mode_NE (f32_mul (f32_of_Z nrow) per) (f32_of_Z 100)) as D. rewrite R2 in D. specialize (D ltac:(lra)).
  rewrite M1 in D. rewrite mult_IZR in X.
  assert (Y : (0 <= rnd (rnd (IZR nrow * B2R per) / 100) <= IZR nrow)%R).
  { apply (rnd_between _ 0 nrow); try lia. lra. }
  rewrite no_overflow in D by lra. destruct D as (D1 & D2 & _). rewrite M2 in D2. fold (f32_div (f32_mul (f32_of_Z nrow) per) (f32_of_Z 100)) in D1, D2.
  exists (Ztrunc (rnd (rnd (IZR nrow * B2R per) / 100))). assert (T : 0 <= Ztrunc (rnd (rnd (IZR nrow * B2R per) / 100)) <= nrow).
  { split; [rewrite <- (Ztrunc_IZR 0) | rewrite <- (Ztrunc_IZR nrow) at 2]; apply Ztrunc_le; lra. }
  split; auto. unfold n_train, int_of. rewrite trunc_of_spec by (rewrite D2; auto). rewrite D1. cbn [of_option bind]. unfold chk_int, in_intb.
  match goal with |- (if ?c then _ else _) = _ => replace c with true by lia end. reflexivity.
Qed.

(** ** Class weights *)
Lemma rsum_total l : rsum l = total l.
Proof. unfold rsum, total. apply fold_symmetric; intros; lra. Qed.
Lemma total_map_div {A} (f : A -> R) d l : total (map (fun v => (f v / d)%R) l) = (total (map f l) / d)%R.
Proof. induction l as [|a l IH]; cbn; [|fold (total (map (fun v => (f v / d)%R) l)); fold (total (map f l)); rewrite IH]; unfold Rdiv; ring. Qed.
Lemma total_counts (vs x : list Z) : total (map (fun v => often v x) vs) = IZR (zsum (map (fun v => Z.of_nat (count v x)) vs)).
Proof. induction vs as [|v vs IH]; cbn; auto. unfold total, zsum in *. rewrite IH, plus_IZR. reflexivity. Qed.
Lemma often_pos v x : In v x -> (0 < often v x)%R.
Proof. intros I. unfold often. apply IZR_lt. apply (count_occ_In Z.eq_dec) in I. lia. Qed.
Lemma total_pos {A} (f : A -> R) l : l <> [] -> (forall v, In v l -> (0 < f v)%R) -> (0 < total (map f l))%R.
Proof.
  intros N H. destruct l as [|a l]; [easy|]. cbn. assert (0 <= fold_right Rplus 0%R (map f l))%R.
  { assert (G : forall v, In v l -> (0 < f v)%R) by (intros; apply H; now right). clear -G. induction l as [|b l IH]; cbn; [lra|]. pose proof (G b (or_introl eq_refl)). assert (0 <= fold_right Rplus 0%R (map f l))%R by (apply IH; intros; apply G; now right). lra. }
  pose proof (H a (or_introl eq_refl)). lra.
Qed.
