(** Properties of the spectral adjustment. *)
From Coq Require Import Reals Lra Lia ZifyBool.
From Flocq Require Import Core.
From Verif Require Import Base Loops BaseFacts LoopsFacts ParamProofs CStr RoundModel RoundFacts L1Model L1Cal AdjTable AdjModel AdjSpec AdjAngle AdjChoose AdjProofs AdjNum TsaProofs.
#[local] Open Scope R_scope.

(** ** C134: values *)
(** The angle is defined for all spectra: rounding never makes the cosine larger than 1. *)
Theorem C134_angle x y : spectrum x -> spectrum y -> (0 < sum_prod x x)%Z -> (0 < sum_prod y y)%Z ->
  exists q, -1 <= q <= 1 /\ Rabs (q - cosine x y) <= / 1000000000000 /\ angle x y = Some (rnd64 (acos q)).
Proof.
  intros SX SY X Y. exists (quotient x y). split; [apply quotient_unit; auto|]. split.
  - unfold cosine. rewrite <- sqrt_mult by (apply IZR_le; lia). rewrite <- mult_IZR. apply quotient_close; auto.
  - rewrite angle_def by auto. replace ((0 <? sum_prod x x) && (0 <? sum_prod y y))%Z with true by lia. reflexivity.
Qed.

Lemma used_bounds table x : table6 table -> spectrum x -> let u := used (all_weights table x) in
  u <> [] /\ (length u <= 10)%nat /\ Forall (fun p => (fst p <= 50)%nat /\ 0 <= snd p) u.
Proof.
  intros T X u. destruct (choose_bounds N_SIM (all_weights table x) (first_best (all_weights table x)) (all_length _ _) (all_nonneg _ _) (first_bound _ (all_length _ _))) as (A & B & C).
  split; [apply B; unfold N_SIM; lia|]. split; auto.
Qed.
Lemma total_pos u : Forall (fun p : nat * R => 0 <= snd p) u -> forall p, In p u -> 0 < snd p -> 0 < wsum u (fun _ => 1).
Proof.
  induction 1 as [|(s, w) u W F IH]; intros p I P; [contradiction|]. cbn [wsum fst snd] in *.
  assert (0 <= wsum u (fun _ => 1)) as N by (clear - F; induction F as [|(s, w) u W F IH]; cbn [wsum snd] in *; lra). destruct I as [<-|I]; [cbn in P; lra|]. specialize (IH p I P). lra.
Qed.
(** The weights sum up to zero at most if the angle to the global centre is the limit of 15 degrees. *)
Lemma total_zero table x : table6 table -> spectrum x -> wsum (used (all_weights table x)) (fun _ => 1) = 0 -> Rabs (angle_of table x 50 - POOR) <= / 10000000000.
Proof.
  intros T X H. set (w := all_weights table x) in *. assert (L : length w = 51%nat) by apply all_length. assert (P : Forall (Rle 0) w) by apply all_nonneg.
  destruct (used_bounds table x T X) as (_ & _ & B). fold w in B.
  assert (BB : Forall (fun p : nat * R => 0 <= snd p) (used w)) by (eapply Forall_impl; [|apply B]; cbn; tauto).
  unfold used, N_SIM in *. cbn [choose] in H, BB. destruct (_ || _) eqn:E.
  - exfalso. apply enough_iff in E. apply (enough_pos ltac:(pose proof med_pos; lra) med_min) in E. 
    pose proof (total_pos _ BB (snd (first_best w), fst (first_best w)) (or_introl eq_refl) E). lra.
  - cbn [wsum] in H. assert (nth GLOBAL w 0 = 0) as Z by lra. change (nth GLOBAL w 0) with (nth_weight w 50) in Z. unfold w in Z. rewrite all_nth in Z by lia. unfold weight in Z.
    pose proof poor_val as PV. destruct (Rlt_bool_spec POOR (angle_of table x 50)) as [G|G].
    + exfalso. pose proof (lit_close (1 / 100000) ltac:(lra)) as C. rewrite Z in C. apply Rabs_le_inv in C. lra.
    + pose proof (angle_pos table x 50 T X) as A. pose proof (weight_at_close (angle_of table x 50) ltac:(lra)) as C. rewrite Z in C. apply Rabs_le_inv in C. set (a := angle_of table x 50) in *.
      assert (a = POOR * (a / POOR)) as Q by (field; lra). set (r := a / POOR) in *. apply Rabs_le. rewrite Q. clearbody r. split; nra.
Qed.

Lemma omap_seq {B} (f : nat -> outcome B) n vals : omap f (seq 0 n) = Ret vals -> forall i, (i < n)%nat -> exists v, nth_error vals i = Some v /\ f i = Ret v.
Proof. intros E i I. apply (omap_nth _ _ _ E). rewrite nth_error_nth' with (d := 0%nat) by (rewrite seq_length; auto). rewrite seq_nth by auto. reflexivity. Qed.
(** An adjusted pixel: every band is the weighted mean of the linear predictions of at most ten
    clusters, the same for all bands, cut to a whole number; other bands are not changed.
    Undefined only if a mean does not fit or if the pixel is exactly 15 degrees from the global centre. *)
Theorem C134_value_partial table x : table6 table -> spectrum x ->
  exists u : list (nat * R), u <> [] /\ (length u <= 10)%nat /\ Forall (fun p => (fst p <= 50)%nat /\ 0 <= snd p) u /\
    (total (map (fun p => (snd p, 1)) u) = 0 -> Rabs (angle_of table x 50 - POOR) <= / 10000000000) /\
    forall coef src dst bands out, Forall2 (fun b v => get_at bands b = Some v) src x -> NoDup dst -> dst <> [] -> Forall (fun d => 0 <= d < zlen bands)%Z dst ->
      adjust_pixel table coef src dst true bands = Ret out <->
      total (map (fun p => (snd p, 1)) u) <> 0 /\ zlen out = zlen bands /\
      (forall i d, nth_error dst i = Some d -> exists v, get_at out d = Some v /\ cut16 (mean (votes coef x i u)) v) /\
      (forall j, ~ In j dst -> get_at out j = get_at bands j).
Proof.
  intros T X. set (u := used (all_weights table x)). exists u. destruct (used_bounds table x T X) as (A & B & C). fold u in A, B, C. split; auto. split; auto. split; auto.
  assert (W : total (map (fun p : nat * R => (snd p, 1)) u) = wsum u (fun _ => 1)) by (rewrite wsum_total; reflexivity). rewrite W. split; [apply total_zero; auto|].
  intros coef src dst bands out S ND NE F. unfold adjust_pixel. cbn [negb].
  assert (omap (fun b => of_option (get_at bands b)) src = Ret x) as ->.
  { clear - S. induction S as [|b v src x E S IH]; cbn [omap]; auto. rewrite E. cbn [of_option bind]. rewrite IH. reflexivity. }
  cbn [bind]. rewrite weights_ok by auto. fold (all_weights table x). cbn [bind]. fold u.
  assert (TV : forall i, total (map (fun p => (fst p, 1)) (votes coef x i u)) = wsum u (fun _ => 1)) by (intros; apply total_votes). split.
  - intros H. destruct (omap (blended coef x u) (seq 0 (length dst))) as [vals| |] eqn:E; try discriminate. cbn [bind] in H.
    pose proof (omap_length _ _ _ E) as LV. rewrite seq_length in LV. apply write_ok in H; auto. destruct H as (Z & V & O).
    assert (forall i v, nth_error vals i = Some v -> blended coef x u i = Ret v) as BV.
    { intros i v N. assert (i < length dst)%nat as I by (rewrite <- LV; apply nth_error_Some; congruence). destruct (omap_seq _ _ _ E i I) as (v' & N1 & N2). congruence. }
    split.
    { destruct dst as [|d0 dst]; [contradiction|]. destruct (V 0%nat d0 eq_refl) as (v & V1 & _). apply BV in V1. apply blended_ok in V1. rewrite TV in V1. tauto. }
    split; auto. split; auto. intros i d N. destruct (V i d N) as (v & V1 & V2). exists v. split; auto. apply BV in V1. apply blended_ok in V1. tauto.
  - intros (NZ & Z & V & O).
    assert (exists vals, omap (blended coef x u) (seq 0 (length dst)) = Ret vals) as (vals & E).
    { apply omap_ok. intros i I. apply in_seq in I. destruct (nth_error dst i) as [d|] eqn:N; [|apply nth_error_None in N; lia]. destruct (V i d N) as (v & _ & V2). exists v. apply blended_ok. rewrite TV. auto. }
    rewrite E. cbn [bind]. pose proof (omap_length _ _ _ E) as LV. rewrite seq_length in LV. apply write_ok; auto. split; auto. split; auto.
    intros i d N. destruct (V i d N) as (v & V1 & V2). exists v. split; auto.
    assert (blended coef x u i = Ret v) as BV by (apply blended_ok; rewrite TV; auto). assert (i < length dst)%nat as I by (apply nth_error_Some; congruence).
    destruct (omap_seq _ _ _ E i I) as (v' & N1 & N2). congruence.
Qed.

(** A value lies between the smallest and the largest prediction. *)
Theorem C134_between coef x b u v lo hi : Forall (fun p : nat * R => 0 <= snd p) u -> total (map (fun p => (snd p, 1)) u) <> 0 ->
  (forall s, In s (map fst u) -> lo <= linear (fun k => coef b k s) x <= hi) -> cut16 (mean (votes coef x b u)) v -> (Ztrunc lo <= v <= Ztrunc hi)%Z.
Proof.
  intros P N B (-> & _). assert (lo <= mean (votes coef x b u) <= hi) as (L & H).
  { apply mean_between; [|rewrite total_votes, wsum_total; auto]. unfold votes. apply Forall_forall. intros q Q. apply in_map_iff in Q. destruct Q as ((s, w) & <- & I). cbn [fst snd]. rewrite Forall_forall in P. split; [apply (P _ I)|apply B; apply (in_map fst _ _ I)]. }
  split; apply Ztrunc_le; auto.
Qed.

Lemma write_frame : forall dst bands vals out, write_bands bands dst vals = Ret out -> forall j, ~ In j dst -> get_at out j = get_at bands j.
Proof.
  induction dst as [|d dst IH]; intros bands vals out H j J; cbn [write_bands] in H; [congruence|]. destruct vals as [|v vals]; [congruence|].
  destruct (set_at bands d v) as [bands'|] eqn:E; [|discriminate]. cbn [of_option bind] in H. rewrite (IH _ _ _ H j) by (intros I; apply J; right; auto). eapply get_set_other; [exact E|]. intros ->. apply J. left; auto.
Qed.
Lemma first_In domains ds l : Forall2 (first_band domains) ds l -> forall j, In j l -> exists d, In d ds /\ get_at domains j = Some d.
Proof.
  induction 1 as [|d b ds l C D IH]; intros j J; [contradiction|]. destruct J as [->|J]; [exists d; split; [left; auto|apply C]|]. destruct (IH j J) as (e & E1 & E2). exists e. split; [right|]; auto.
Qed.
(** Images: masked pixels, images of other sensors and bands of other domains are left as they are. *)
Theorem C134_untouched tables coefs im im' : adjust_image tables coefs im = Ret im' ->
  hi_sensor im' = hi_sensor im /\ hi_domains im' = hi_domains im /\
  Forall2 (fun p q => fst q = fst p /\ (fst p = false -> snd q = snd p) /\ (~ In (hi_sensor im) SENSORS -> snd q = snd p) /\
    (forall j, (forall d, In d DST -> get_at (hi_domains im) j <> Some d) -> get_at (snd q) j = get_at (snd p) j)) (hi_pixels im) (hi_pixels im').
Proof.
  unfold adjust_image. destruct (find_domain SENSORS (hi_sensor im) 0) as [sid|] eqn:S.
  - destruct (find_all (hi_domains im) SRC) as [src|] eqn:FS; [|discriminate]. destruct (find_all (hi_domains im) DST) as [dst|] eqn:FD; [|discriminate].
    destruct (get_at tables sid) as [table|]; [|discriminate]. destruct (get_at coefs sid) as [coef|]; [|discriminate]. cbn [of_option bind].
    destruct (omap _ (hi_pixels im)) as [ps| |] eqn:E; try discriminate. cbn [bind]. intros H. injection H as <-. cbn [hi_sensor hi_domains hi_pixels]. split; auto. split; auto.
    apply omap_F2 in E. induction E as [|p q l r A B IH]; constructor; auto. clear IH B.
    destruct (adjust_pixel table coef src dst (fst p) (snd p)) as [b| |] eqn:P; try discriminate. cbn [bind] in A. injection A as <-. cbn [fst snd]. split; auto. split; [|split].
    + intros F. unfold adjust_pixel in P. rewrite F in P. cbn [negb] in P. congruence.
    + intros N. exfalso. apply N. apply find_first in S. destruct S as (_ & S & _). apply get_at_In in S. auto.
    + intros j J. unfold adjust_pixel in P. destruct (fst p); cbn [negb] in P; [|congruence].
      destruct (omap _ src) as [x| |]; try discriminate. cbn [bind] in P. destruct (weights table x) as [w| |]; try discriminate. cbn [bind] in P.
      destruct (omap _ (seq 0 (length dst))) as [vals| |]; try discriminate. cbn [bind] in P. apply (write_frame _ _ _ _ P). intros I.
      apply find_all_ok in FD. destruct (first_In _ _ _ FD j I) as (d & D1 & D2). apply (J d); auto.
  - destruct (negb _); [discriminate|]. destruct (find_all _ _); [|discriminate]. intros H. assert (im = im') by congruence. subst im'. split; auto. split; auto.
    clear. induction (hi_pixels im) as [|p l IH]; constructor; auto.
Qed.

Lemma F2_impl {A B} (P Q : A -> B -> Prop) l r : (forall a b, P a b -> Q a b) -> Forall2 P l r -> Forall2 Q l r.
Proof. intros H. induction 1; constructor; auto. Qed.
(** In the images of the seven sensors every valid pixel is adjusted, with the centres and coefficients
    of that sensor and with the bands found by their domains; the written bands are distinct. *)
Theorem C134_image tables coefs im sid table coef : get_at SENSORS sid = Some (hi_sensor im) -> get_at tables sid = Some table -> get_at coefs sid = Some coef -> forall im',
  adjust_image tables coefs im = Ret im' <->
  exists src dst, Forall2 (first_band (hi_domains im)) SRC src /\ Forall2 (first_band (hi_domains im)) DST dst /\ NoDup dst /\
    hi_sensor im' = hi_sensor im /\ hi_domains im' = hi_domains im /\
    Forall2 (fun p q => fst q = fst p /\ adjust_pixel table coef src dst (fst p) (snd p) = Ret (snd q)) (hi_pixels im) (hi_pixels im').
Proof.
  intros S T C im'. assert (find_domain SENSORS (hi_sensor im) 0 = Some sid) as FS.
  { apply find_first. pose proof (get_at_inv _ _ _ S) as R. split; [lia|]. split; auto. intros j J E. 
    assert (NoDup SENSORS) as ND by (repeat constructor; cbv; intuition congruence). rewrite NoDup_nth_error in ND.
    assert (Z.to_nat j = Z.to_nat sid); [|lia]. apply ND; [unfold zlen in R; lia|]. unfold get_at in S, E. destruct (Z.ltb_spec j 0), (Z.ltb_spec sid 0); try lia. congruence. }
  unfold adjust_image. rewrite FS, T, C. cbn [of_option bind].
  assert (ND : NoDup DST) by (repeat constructor; cbv; intuition congruence). split.
  - destruct (find_all (hi_domains im) SRC) as [src|] eqn:A; [|discriminate]. destruct (find_all (hi_domains im) DST) as [dst|] eqn:B; [|discriminate].
    apply find_all_ok in A, B. destruct (omap _ (hi_pixels im)) as [ps| |] eqn:E; try discriminate. cbn [bind]. intros H. injection H as <-. cbn [hi_sensor hi_domains hi_pixels].
    exists src, dst. split; auto. split; auto. split; [eapply first_nodup; eauto|]. split; auto. split; auto. apply omap_F2 in E. eapply F2_impl; [|apply E]. cbn. intros p q H.
    destruct (adjust_pixel table coef src dst (fst p) (snd p)) as [b| |]; try discriminate. cbn [bind] in H. injection H as <-. auto.
  - intros (src & dst & A & B & _ & H1 & H2 & F). apply find_all_ok in A, B. rewrite A, B. 
    assert (omap (fun p => b <- adjust_pixel table coef src dst (fst p) (snd p) ;; Ret (fst p, b)) (hi_pixels im) = Ret (hi_pixels im')) as ->.
    { apply omap_F2. eapply F2_impl; [|apply F]. cbn. intros p (q1, q2) (Q & ->). cbn [fst snd] in *. subst. reflexivity. }
    cbn [bind]. destruct im' as [s' d' p']. cbn [hi_sensor hi_domains hi_pixels] in *. subst. reflexivity.
Qed.

(** ** C135: choice of the clusters *)
(** If the nearest cluster is neither the tenth nor the global one: at most ten clusters are used,
    those with the largest weights among the similar ones, followed by the global one if there are
    fewer; all of them are similar. *)
Theorem C135_clusters_partial table x s0 : table6 table -> spectrum x -> (s0 < 50)%nat -> s0 <> 9%nat ->
  angle_of table x s0 <= / 4 -> angle_of table x s0 <= angle_of table x 50 -> angle_of table x s0 + / 1000 <= angle_of table x 9 ->
  let u := used (all_weights table x) in
  chosen 10 (all_weights table x) (fun s => weight_at deg4 < weight (angle_of table x s) \/ (weight_at deg12 < weight (angle_of table x s) /\ weight (angle_of table x 50) < weight (angle_of table x s))) u /\
  (forall s, In s (map fst u) -> s <> 50%nat -> similar (angle_of table x s) (angle_of table x 50)).
Proof.
  intros T X S S9 A4 AG A9 u. pose proof poor_val as PV. set (w := all_weights table x) in *. assert (L : length w = 51%nat) by apply all_length. assert (P : Forall (Rle 0) w) by apply all_nonneg.
  assert (NW : forall s, (s < 51)%nat -> nth_weight w s = weight (angle_of table x s)) by (intros; apply all_nth; auto).
  assert (W0 : forall a, angle_of table x s0 <= a -> weight a <= weight (angle_of table x s0)).
  { intros a H. unfold weight. rewrite (Rlt_bool_false POOR (angle_of table x s0)) by lra. destruct (Rlt_bool_spec POOR a); [|apply weight_at_anti; auto].
    pose proof (lit_close (1 / 100000) ltac:(lra)) as C. apply Rabs_le_inv in C. pose proof (angle_pos table x s0 T X). pose proof (weight_at_close (angle_of table x s0) ltac:(lra)) as D. apply Rabs_le_inv in D.
    assert (angle_of table x s0 / POOR <= 0.96); [|lra]. apply Rmult_le_reg_r with POOR; [lra|]. unfold Rdiv. rewrite Rmult_assoc, Rinv_l by lra. lra. }
  assert (W9 : weight (angle_of table x 9) < weight (angle_of table x s0)).
  { eapply Rle_lt_trans with (weight_at (angle_of table x s0 + / 1000)); [|].
    - unfold weight. destruct (Rlt_bool_spec POOR (angle_of table x 9)); [|apply weight_at_anti; auto].
      pose proof (lit_close (1 / 100000) ltac:(lra)) as C. apply Rabs_le_inv in C. pose proof (angle_pos table x s0 T X). pose proof (weight_at_close (angle_of table x s0 + / 1000) ltac:(lra)) as D. apply Rabs_le_inv in D.
      assert ((angle_of table x s0 + / 1000) / POOR <= 0.96); [|lra]. apply Rmult_le_reg_r with POOR; [lra|]. unfold Rdiv. rewrite Rmult_assoc, Rinv_l by lra. lra.
    - unfold weight. rewrite (Rlt_bool_false POOR (angle_of table x s0)) by lra. pose proof (angle_pos table x s0 T X). apply weight_at_apart; lra. }
  assert (F : first_best w = next_best w 0).
  { apply (first_next w s0 L P S S9). - rewrite !NW by lia. apply W0. auto. - rewrite !NW by lia. auto. }
  assert (CH : chosen 10 w (fun s => enough (nth_weight w 50) (nth_weight w s)) u).
  { unfold u, used. rewrite F. apply (choose_chosen ltac:(pose proof med_pos; lra) med_min); auto. }
  assert (OK : forall s, (s < 50)%nat -> enough (nth_weight w 50) (nth_weight w s) <-> weight_at deg4 < weight (angle_of table x s) \/ (weight_at deg12 < weight (angle_of table x s) /\ weight (angle_of table x 50) < weight (angle_of table x s))).
  { intros s H. unfold enough. rewrite !NW by lia. unfold MIN_WEIGHT, MED_WEIGHT. reflexivity. }
  split.
  - destruct CH as [C1 C2 C3 C4 C5 C6]. split; auto.
    + intros s I J. apply OK; auto.
    + intros s I J. apply OK in J; auto.
    + rewrite C6. split; intros (l & L1 & L2 & L3); exists l; (split; [auto|split; [|auto]]); intros s; rewrite L2; split; intros (Q1 & Q2); (split; [auto|apply OK; auto]).
  - intros s I N. destruct CH as [C1 C2 C3 C4 C5 C6]. assert (s < 50)%nat as SB. { apply in_map_iff in I. destruct I as ((s', v) & E & I). cbn in E. subst s'. apply C3 in I. lia. }
    specialize (C4 s I SB). rewrite !NW in C4 by lia. apply enough_similar. auto.
Qed.

Lemma first_weight w : (length w = 51)%nat -> Forall (Rle 0) w -> let m := first_best w in (snd m < 51)%nat /\ snd m <> 9%nat /\ nth_weight w (snd m) = fst m /\ forall j, (j < 51)%nat -> j <> 9%nat -> nth_weight w j <= fst m.
Proof.
  intros L P m. assert (NN : forall j, (j < 51)%nat -> nth_error w j = Some (nth_weight w j)) by (intros j J; apply nth_error_nth'; lia).
  assert (PP : 0 <= nth_weight w 0). { rewrite Forall_forall in P. apply P. apply nth_In. lia. }
  destruct (best_max (fun s => negb (Nat.eqb s (N_SIM - 1))) w 0 0 _ (NN 0%nat ltac:(lia)) eq_refl PP) as (A & B & C & _). fold (first_best w) in A, B, C. fold m in A, B, C.
  assert (snd m < 51)%nat as M by (rewrite <- L; apply nth_error_Some; congruence). split; auto. split; [intros E; rewrite E in B; discriminate|]. split; [rewrite NN in A by auto; congruence|].
  intros j J J9. apply (C j); auto. apply not9. auto.
Qed.
(** If no cluster but possibly the tenth is similar, the global one alone is used. *)
Lemma far table x : table6 table -> spectrum x -> (forall s, (s <= 50)%nat -> s <> 9%nat -> ~ similar (angle_of table x s) (angle_of table x 50)) ->
  used (all_weights table x) = [(50%nat, weight (angle_of table x 50))].
Proof.
  intros T X H. set (w := all_weights table x) in *. assert (L : length w = 51%nat) by apply all_length. assert (P : Forall (Rle 0) w) by apply all_nonneg.
  assert (NW : forall s, (s < 51)%nat -> nth_weight w s = weight (angle_of table x s)) by (intros; apply all_nth; auto).
  destruct (first_weight w L P) as (M1 & M2 & M3 & _). unfold used. change N_SIM with 10%nat. cbn [choose]. destruct (_ || _) eqn:E.
  - exfalso. apply enough_iff in E. change (nth GLOBAL w 0) with (nth_weight w 50) in E. rewrite <- M3, !NW in E by lia. apply enough_similar in E. apply (H (snd (first_best w))); auto. lia.
  - change (nth GLOBAL w 0) with (nth_weight w 50). rewrite NW by lia. reflexivity.
Qed.
Theorem C135_far_partial table x : table6 table -> spectrum x -> (forall s, (s <= 50)%nat -> ~ similar (angle_of table x s) (angle_of table x 50)) ->
  used (all_weights table x) = [(50%nat, weight (angle_of table x 50))].
Proof. intros T X H. apply far; auto. Qed.

Definition table_of (sid : nat) : list (list Z) := nth sid centers [].
Definition short_row (r : list Z) : bool := forallb (fun v => (-32768 <=? v) && (v <=? 32767))%Z r.
Lemma table_ok t : (length t <=? 6)%nat && forallb short_row t = true -> table6 t.
Proof.
  intros H. apply andb_true_iff in H. destruct H as (A & B). apply Nat.leb_le in A. split; auto. apply Forall_forall. intros r R. rewrite forallb_forall in B. specialize (B r R). apply Forall_forall. intros v V. unfold short_row in B. rewrite forallb_forall in B. specialize (B v V). lia.
Qed.

(** The tenth cluster is left out: a pixel of Landsat 8 for which it is the only similar one, and
    nearer than the global one, is adjusted with the global one alone. *)
Definition pixel_nine : list Z := [1384; 1256; 966; 3113; 1604; 1922]%Z.
Theorem C135_nine_refuted :
  similar (angle_of (table_of 3) pixel_nine 9) (angle_of (table_of 3) pixel_nine 50) /\
  (forall s, (s <= 50)%nat -> s <> 9%nat -> angle_of (table_of 3) pixel_nine 9 < angle_of (table_of 3) pixel_nine s) /\
  used (all_weights (table_of 3) pixel_nine) = [(50%nat, weight (angle_of (table_of 3) pixel_nine 50))].
Proof.
  assert (T : table6 (table_of 3)) by (apply table_ok; vm_compute; reflexivity). assert (X : spectrum pixel_nine) by (split; [cbn; lia|repeat constructor; lia]).
  assert (B : forall s, (s < 51)%nat -> s <> 9%nat -> deg12 < angle_of (table_of 3) pixel_nine s).
  { intros s S N. pose proof (all_below (table_of 3) pixel_nine 97806 100000 [9%nat] ltac:(vm_compute; reflexivity) s S ltac:(cbn [In]; intros [E|[]]; congruence)) as C.
    pose proof (angle_ge _ _ _ _ _ (20944 / 100000) T X C ltac:(lra) ltac:(lra)) as D. pose proof medi_val as M. change deg12 with MEDI. lra. }
  assert (A : angle_of (table_of 3) pixel_nine 9 < 0.2001).
  { pose proof (angle_le (table_of 3) pixel_nine 9 985 1000 (2 / 10) T X ltac:(vm_compute; reflexivity) ltac:(lra) ltac:(lra)). lra. }
  pose proof medi_val as M. pose proof good_val as G. assert (deg12 = MEDI) as D12 by reflexivity. assert (deg4 = GOOD) as D4 by reflexivity. split.
  - right. specialize (B 50%nat ltac:(lia) ltac:(lia)). lra.
  - split.
    + intros s S N. specialize (B s ltac:(lia) N). lra.
    + apply far; auto. intros s S N. specialize (B s ltac:(lia) N). unfold similar. intros [H|(H & _)]; lra.
Qed.

(** If the global centre is the nearest one, dissimilar clusters are used: those farther away than
    the global one and by more than four degrees.  The pixel is the global centre of Landsat 4. *)
Definition pixel_global : list Z := [749; 1036; 1099; 2393; 2255; 1633]%Z.
Theorem C135_global_refuted :
  exists s v, In (s, v) (used (all_weights (table_of 0) pixel_global)) /\ (s < 50)%nat /\ 0 < v /\ ~ similar (angle_of (table_of 0) pixel_global s) (angle_of (table_of 0) pixel_global 50).
Proof.
  set (x := pixel_global). set (t := table_of 0).
  assert (T : table6 t) by (apply table_ok; vm_compute; reflexivity). assert (X : spectrum x) by (split; [cbn; lia|repeat constructor; lia]).
  assert (B : forall s, (s < 51)%nat -> s <> 46%nat -> s <> 50%nat -> deg4 + / 1000000 < angle_of t x s).
  { intros s S N N'. pose proof (all_below t x 9975 10000 [46%nat; 50%nat] ltac:(vm_compute; reflexivity) s S ltac:(cbn [In]; intros [E|[E|[]]]; congruence)) as C.
    pose proof (angle_ge _ _ _ _ _ (69815 / 1000000) T X C ltac:(lra) ltac:(lra)) as D. pose proof good_val as M. change deg4 with GOOD. lra. }
  assert (B5 : forall s, (s < 50)%nat -> 0.0499 < angle_of t x s).
  { intros s S. pose proof (all_below t x 9985 10000 [50%nat] ltac:(vm_compute; reflexivity) s ltac:(lia) ltac:(cbn [In]; intros [E|[]]; lia)) as C.
    pose proof (angle_ge _ _ _ _ _ (5 / 100) T X C ltac:(lra) ltac:(lra)) as D. lra. }
  assert (AG : angle_of t x 50 < 0.0101).
  { pose proof (angle_le t x 50 1 1 (1 / 100) T X ltac:(vm_compute; reflexivity) ltac:(lra) ltac:(lra)). lra. }
  assert (A40 : angle_of t x 40 < 0.2001).
  { pose proof (angle_le t x 40 985 1000 (2 / 10) T X ltac:(vm_compute; reflexivity) ltac:(lra) ltac:(lra)). lra. }
  pose proof (angle_pos t x) as AP. pose proof medi_val as MV. pose proof good_val as GV. pose proof poor_val as PV. assert (deg12 = MEDI) as D12 by reflexivity. assert (deg4 = GOOD) as D4 by reflexivity.
  set (w := all_weights t x) in *. assert (L : length w = 51%nat) by apply all_length. assert (P : Forall (Rle 0) w) by apply all_nonneg.
  assert (NW : forall s, (s < 51)%nat -> nth_weight w s = weight (angle_of t x s)) by (intros; apply all_nth; auto).
  assert (WG : weight (angle_of t x 50) = weight_at (angle_of t x 50)) by (unfold weight; rewrite Rlt_bool_false by lra; auto).
  assert (GM : MIN_WEIGHT < weight (angle_of t x 50)) by (rewrite WG; apply weight_at_apart; try lra; apply AP; auto).
  pose proof med_pos as MP. pose proof med_min as MM.
  assert (LW : forall s, (s < 50)%nat -> weight (angle_of t x s) < weight (angle_of t x 50)).
  { intros s S. specialize (B5 s S). unfold weight at 1. destruct (Rlt_bool_spec POOR (angle_of t x s)).
    - pose proof (lit_close (1 / 100000) ltac:(lra)) as C. apply Rabs_le_inv in C. lra.
    - rewrite WG. apply weight_at_apart; try lra. apply AP; auto. }
  destruct (first_weight w L P) as (M1 & M2 & M3 & M4). assert (snd (first_best w) = 50%nat) as M50.
  { destruct (Nat.eq_dec (snd (first_best w)) 50) as [E|E]; auto. exfalso. specialize (M4 50%nat ltac:(lia) ltac:(lia)). rewrite <- M3, !NW in M4 by lia. specialize (LW (snd (first_best w)) ltac:(lia)). lra. }
  unfold used. change N_SIM with (S 9). cbn [choose]. 
  assert (Rlt_bool MIN_WEIGHT (fst (first_best w)) || (Rlt_bool MED_WEIGHT (fst (first_best w)) && Rlt_bool (nth GLOBAL w 0) (fst (first_best w))) = true) as ->.
  { apply enough_iff. left. rewrite <- M3, M50, NW by lia. auto. }
  rewrite M50. set (w' := list_set w 50 0). assert (L' : length w' = 51%nat) by (unfold w'; rewrite list_set_length; auto). assert (P' : Forall (Rle 0) w') by (apply list_set_nonneg; auto).
  assert (NW' : forall s, (s < 50)%nat -> nth_weight w' s = weight (angle_of t x s)).
  { intros s S. unfold nth_weight, w'. rewrite nth_list_set by lia. replace (Nat.eqb s 50) with false by lia. rewrite <- NW by lia. reflexivity. }
  assert (N50 : nth_weight w' 50 = 0) by (unfold nth_weight, w'; rewrite nth_list_set by lia; reflexivity).
  pose proof (choose_chosen ltac:(lra) med_min 9 w' 50 L' P') as CH. cbn zeta in CH. set (u := choose 9 w' (next_best w' 50)) in *. destruct CH as [C1 C2 C3 C4 C5 C6].
  assert (W40 : enough (nth_weight w' 50) (nth_weight w' 40)).
  { right. rewrite N50, NW' by lia. unfold weight. rewrite Rlt_bool_false by lra. assert (MED_WEIGHT < weight_at (angle_of t x 40)); [|lra]. apply weight_at_apart; try lra. apply AP; auto. }
  assert (FIN : forall s, (s < 50)%nat -> s <> 46%nat -> In s (map fst u) -> exists s v, In (s, v) ((50%nat, fst (first_best w)) :: u) /\ (s < 50)%nat /\ 0 < v /\ ~ similar (angle_of t x s) (angle_of t x 50)).
  { intros s S S46 I. pose proof (C4 s I S) as EN. apply in_map_iff in I. destruct I as ((s', v) & E & I). cbn in E. subst s'. exists s, v. split; [right; auto|]. split; auto. split.
    - apply C3 in I. destruct I as (_ & ->). apply (enough_pos ltac:(lra) med_min) in EN. auto.
    - specialize (B s ltac:(lia) S46 ltac:(lia)). specialize (B5 s S). unfold similar. intros [H|(_ & H)]; lra. }
  destruct (C5 40%nat ltac:(lia) W40) as [I|(C7 & C8 & _)]; [apply (FIN 40%nat); auto; lia|].
  assert (exists s, In s (map fst u) /\ s <> 46%nat) as (s & I & N).
  { destruct u as [|(s1, v1) u0]; [discriminate|]. destruct u0 as [|(s2, v2) u0]; [discriminate|]. cbn [map fst] in C1 |- *. inversion C1 as [|? ? D1 D2]; subst.
    destruct (Nat.eq_dec s1 46) as [->|Q]; [exists s2|exists s1]; (split; [cbn [In]; auto|]); auto. intros ->. apply D1. left; auto. }
  apply (FIN s); auto. apply in_map_iff in I. destruct I as ((s', v) & E & I). cbn in E. subst s'. pose proof (C3 s v I) as (Q & _). assert (s <> 50)%nat; [|lia]. intros ->. apply C8. apply (in_map fst _ _ I).
Qed.

(** ** Concrete cases *)
Example C134_angle_case : spectrum pixel_nine /\ spectrum pixel_global /\ (0 < sum_prod pixel_nine pixel_nine)%Z /\ (0 < sum_prod pixel_global pixel_global)%Z.
Proof. split; [split; [cbn; lia|repeat constructor; lia]|]. split; [split; [cbn; lia|repeat constructor; lia]|]. split; vm_compute; reflexivity. Qed.
(** Coefficients that predict 5 everywhere: the ten bands become 5, the eleventh stays. *)
Definition five : nat -> nat -> nat -> R := fun _ k _ => if Nat.eqb k 6 then 5 else 0.
Example C134_value_case : adjust_pixel (table_of 0) five [0; 1; 2; 7; 8; 9]%Z [0; 1; 2; 3; 4; 5; 6; 7; 8; 9]%Z true [749; 1036; 1099; 0; 0; 0; 0; 2393; 2255; 1633; 77]%Z
  = Ret [5; 5; 5; 5; 5; 5; 5; 5; 5; 5; 77]%Z.
Proof.
  assert (T : table6 (table_of 0)) by (apply table_ok; vm_compute; reflexivity). assert (X : spectrum pixel_global) by (split; [cbn; lia|repeat constructor; lia]).
  destruct (C134_value_partial (table_of 0) pixel_global T X) as (u & NE & _ & B & Z & H).
  assert (total (map (fun p => (snd p, 1)) u) <> 0) as NZ.
  { intros E. apply Z in E. apply Rabs_le_inv in E. pose proof (angle_le (table_of 0) pixel_global 50 1 1 (1 / 100) T X ltac:(vm_compute; reflexivity) ltac:(lra) ltac:(lra)). pose proof poor_val. lra. }
  assert (FV : forall i, cut16 (mean (votes five pixel_global i u)) 5).
  { intros i. assert (5 <= mean (votes five pixel_global i u) <= 5) as M.
    { apply mean_between; [|rewrite total_votes, wsum_total; exact NZ]. unfold votes. apply Forall_forall. intros q Q. apply in_map_iff in Q. destruct Q as ((s, v) & <- & I). cbn [fst snd]. rewrite Forall_forall in B. split; [apply (B _ I)|]. unfold linear, five. cbn. lra. }
    replace (mean (votes five pixel_global i u)) with 5 by lra. split; [rewrite Ztrunc_IZR; auto|lia]. }
  apply H.
  - repeat (constructor; [reflexivity|]). constructor.
  - repeat (constructor; [cbn; lia|]). constructor.
  - discriminate.
  - repeat (constructor; [cbn; lia|]). constructor.
  - split; [exact NZ|]. split; [reflexivity|]. split.
    + intros i d N. exists 5%Z. split; [|auto]. do 10 (destruct i as [|i]; [injection N as <-; reflexivity|]). destruct i; discriminate.
    + intros j J. unfold get_at. destruct (Z.ltb_spec j 0); auto. assert (9 < j)%Z as K. { cbn [In] in J. lia. } 
      destruct (Z.eq_dec j 10) as [->|Q]; auto. assert (11 <= Z.to_nat j)%nat as R by lia. rewrite !(proj2 (nth_error_None _ _)); auto.
Qed.
Example C134_between_case : Forall (fun p : nat * R => 0 <= snd p) [(3%nat, / 2); (50%nat, / 4)] /\ total (map (fun p => (snd p, 1)) [(3%nat, / 2); (50%nat, / 4)]) <> 0.
Proof. split; [repeat (constructor; [cbn; lra|]); constructor|cbn; lra]. Qed.
Definition domains10 : list (list Z) := DST.
Example C134_untouched_case : adjust_image centers [] (mkHimage (` "SEN2A") domains10 [(true, [1; 2; 3; 4; 5; 6; 7; 8; 9; 10]%Z)]) = Ret (mkHimage (` "SEN2A") domains10 [(true, [1; 2; 3; 4; 5; 6; 7; 8; 9; 10]%Z)]).
Proof. reflexivity. Qed.
Example C134_image_case : exists im', adjust_image centers [five] (mkHimage (` "LND04") (domains10 ++ [` "TEMP"]) [(true, [749; 1036; 1099; 0; 0; 0; 0; 2393; 2255; 1633; 77]%Z); (false, [1; 1; 1; 1; 1; 1; 1; 1; 1; 1; 1]%Z)]) = Ret im' /\
  hi_pixels im' = [(true, [5; 5; 5; 5; 5; 5; 5; 5; 5; 5; 77]%Z); (false, [1; 1; 1; 1; 1; 1; 1; 1; 1; 1; 1]%Z)].
Proof.
  eexists (mkHimage _ _ _). split; [|cbn [hi_pixels]; reflexivity]. apply (C134_image centers [five] _ 0%Z (table_of 0) five); try reflexivity.
  exists [0; 1; 2; 7; 8; 9]%Z, [0; 1; 2; 3; 4; 5; 6; 7; 8; 9]%Z. split; [apply find_all_ok; vm_compute; reflexivity|]. split; [apply find_all_ok; vm_compute; reflexivity|].
  split; [repeat (constructor; [cbn; lia|]); constructor|]. split; [reflexivity|]. split; [reflexivity|]. cbn [hi_pixels]. constructor; [split; [reflexivity|apply C134_value_case]|]. constructor; [split; reflexivity|constructor].
Qed.
(** The centre of the first cluster. *)
Definition pixel_first : list Z := center (table_of 0) 0.
Example C135_clusters_case : table6 (table_of 0) /\ spectrum pixel_first /\ angle_of (table_of 0) pixel_first 0 <= / 4 /\
  angle_of (table_of 0) pixel_first 0 <= angle_of (table_of 0) pixel_first 50 /\ angle_of (table_of 0) pixel_first 0 + / 1000 <= angle_of (table_of 0) pixel_first 9.
Proof.
  assert (T : table6 (table_of 0)) by (apply table_ok; vm_compute; reflexivity). assert (X : spectrum pixel_first) by (apply center_spectrum; auto). split; auto. split; auto.
  pose proof (angle_le (table_of 0) pixel_first 0 1 1 (1 / 100) T X ltac:(vm_compute; reflexivity) ltac:(lra) ltac:(lra)).
  pose proof (angle_ge (table_of 0) pixel_first 9 99 100 (1 / 10) T X ltac:(vm_compute; reflexivity) ltac:(lra) ltac:(lra)).
  pose proof (angle_ge (table_of 0) pixel_first 50 99 100 (1 / 10) T X ltac:(vm_compute; reflexivity) ltac:(lra) ltac:(lra)). lra.
Qed.
(** A pixel that is blue only. *)
Example C135_far_case : table6 (table_of 0) /\ spectrum [1000; 0; 0; 0; 0; 0]%Z /\
  forall s, (s <= 50)%nat -> ~ similar (angle_of (table_of 0) [1000; 0; 0; 0; 0; 0]%Z s) (angle_of (table_of 0) [1000; 0; 0; 0; 0; 0]%Z 50).
Proof.
  assert (T : table6 (table_of 0)) by (apply table_ok; vm_compute; reflexivity). assert (X : spectrum [1000; 0; 0; 0; 0; 0]%Z) by (split; [cbn; lia|repeat constructor; lia]). split; auto. split; auto.
  intros s S. pose proof (all_below (table_of 0) [1000; 0; 0; 0; 0; 0]%Z 97806 100000 [] ltac:(vm_compute; reflexivity) s ltac:(lia) ltac:(cbn [In]; tauto)) as C.
  pose proof (angle_ge _ _ _ _ _ (20944 / 100000) T X C ltac:(lra) ltac:(lra)) as D. pose proof medi_val. pose proof good_val. change similar with (fun a g => a < GOOD \/ a < MEDI /\ a < g). cbv beta. lra.
Qed.

Print Assumptions C134_angle.
Print Assumptions C134_value_partial.
Print Assumptions C134_between.
Print Assumptions C134_untouched.
Print Assumptions C134_image.
Print Assumptions C135_clusters_partial.
Print Assumptions C135_far_partial.
Print Assumptions C135_nine_refuted.
Print Assumptions C135_global_refuted.
