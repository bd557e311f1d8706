From Coq Require Import Reals Lra.
From Flocq Require Import Core.
From Verif Require Import Base BaseFacts Loops LoopsFacts StatsModel StatsSpec StatsProofs InterpProofs AggSpec AggProofs
  StdzModel StdzSpec.
#[local] Open Scope Z_scope.

Lemma std_fold nodata l :
  fold_left (std_step nodata) l (mkVar 0 0, 0) = (run_var (reals (valid nodata l)), zlen (valid nodata l)).
Proof.
  induction l as [|v l IH] using rev_ind; [reflexivity|].
  rewrite fold_left_app, IH, valid_app. cbn [fold_left]. unfold std_step. change (valid nodata [v]) with (if negb (v =? nodata) then [v] else []).
  destruct (Z.eqb_spec v nodata) as [->|N]; cbn [negb]; [now rewrite app_nil_r|].
  rewrite zlen_app, reals_app. change (zlen [v]) with 1. change (reals [v]) with [IZR v].
  unfold run_var. rewrite feed_snoc. rewrite Nat.add_0_l, INR_IZR_INZ. replace (length (reals (valid nodata l))) with (length (valid nodata l)) by (unfold reals; now rewrite map_length).
  fold (zlen (valid nodata l)).
  rewrite <- plus_IZR.
  destruct (Z.eqb_spec (zlen (valid nodata l) + 1) 1) as [E|E]; [|reflexivity].
  destruct (valid nodata l) as [|w ws].
  - cbn. unfold var_recurrence. cbn. f_equal. f_equal; field.
  - rewrite zlen_cons in E. pose proof (zlen_nonneg ws). lia.
Qed.

Lemma valid_In nodata l v : In v l -> v <> nodata -> In v (valid nodata l).
Proof. intros I N. apply filter_In. split; auto. lia. Qed.

Lemma clip_eq x : (let t := if Rlt_dec 32767 x then 32767%R else x in if Rlt_dec t (-32768) then (-32768)%R else t) = clip x.
Proof. cbv zeta. unfold clip, Rmax, Rmin. repeat (destruct (Rlt_dec _ _) || destruct (Rle_dec _ _)); lra. Qed.

Lemma std_value_ok nodata avg std v : std <> 0%R -> v <> nodata ->
  std_value nodata avg std v = Ret (Ztrunc (clip ((IZR v - avg) / std))).
Proof.
  intros S N. unfold std_value. replace (v =? nodata) with false by lia. destruct (Req_EM_T _ _); [contradiction|].
  rewrite <- clip_eq. reflexivity.
Qed.

Lemma omap_map {A B} (f : A -> outcome B) (g : A -> B) l : (forall a, In a l -> f a = Ret (g a)) -> omap f l = Ret (map g l).
Proof.
  intros H. induction l as [|a l IH]; cbn [omap map]; auto. rewrite H by (left; auto). cbn [bind].
  rewrite IH; auto. intros b I. apply H. right; auto.
Qed.

Lemma std_nonzero vs : 2 <= zlen vs -> (exists a b, In a vs /\ In b vs /\ a <> b) -> (0 < sample_sd (reals vs))%R.
Proof.
  intros L (a & b & A & B & N). unfold sample_sd. apply sqrt_lt_R0. rewrite size_reals.
  assert (2 <= IZR (zlen vs))%R by (apply IZR_le; auto).
  assert (dev 2 (reals vs) <> 0)%R as D.
  { intros D. apply N. apply eq_IZR. apply (dev2_zero_const _ _ _ D); apply in_map; auto. }
  pose proof (dev2_nonneg (reals vs)). unfold Rdiv. apply Rmult_lt_0_compat; [lra|]. apply Rinv_0_lt_compat. lra.
Qed.

Lemma run_var_moments vs : 1 <= zlen vs ->
  r_mx (run_var (reals vs)) = mean (reals vs) /\ r_vx (run_var (reals vs)) = dev 2 (reals vs).
Proof.
  intros L. apply run_var_spec, reals_nil. intros ->. cbn in L. lia.
Qed.

Lemma standardize_spec nodata m l : let vs := valid nodata l in
  2 <= zlen vs -> (m = STD_NORMAL -> exists a b, In a vs /\ In b vs /\ a <> b) ->
  standardize nodata m false l = Ret (map (fun v => if v =? nodata then v else standardized m vs v) l).
Proof.
  intros vs L X. assert (forall f : Z -> Z, (forall v, v <> nodata -> f v = v) ->
      map (fun v => if v =? nodata then v else f v) l = l) as ID.
  { intros f H. clear - H. induction l as [|v l IH]; cbn [map]; auto. rewrite IH. f_equal.
    destruct (Z.eqb_spec v nodata); auto. }
  destruct (run_var_moments vs ltac:(lia)) as [E1 E2]. unfold standardize. destruct m.
  - rewrite ID; auto.
  - rewrite std_fold. fold vs. replace (zlen vs <? 2) with false by lia. rewrite E1, E2.
    pose proof (std_nonzero vs L (X eq_refl)) as SP.
    assert (standdev (dev 2 (reals vs)) (IZR (zlen vs)) = sample_sd (reals vs)) as ES
      by (unfold standdev, variance, sample_sd; now rewrite size_reals).
    rewrite ES. apply omap_map. intros v _. destruct (Z.eqb_spec v nodata) as [->|N].
    + unfold std_value. now rewrite Z.eqb_refl.
    + rewrite std_value_ok by (auto; lra). cbn [standardized]. do 3 f_equal. field. lra.
  - rewrite std_fold. fold vs. replace (zlen vs <? 2) with false by lia. rewrite E1.
    apply omap_map. intros v _. destruct (Z.eqb_spec v nodata) as [->|N].
    + unfold std_value. now rewrite Z.eqb_refl.
    + rewrite std_value_ok by (auto; lra). cbn [standardized]. do 3 f_equal. field.
Qed.

Lemma clip_range x : in_short (Ztrunc (clip x)).
Proof.
  assert (IZR (-32768) <= clip x <= IZR 32767)%R as [A B]
    by (unfold clip, Rmax, Rmin; repeat destruct (Rle_dec _ _); lra).
  apply Ztrunc_le in A, B. rewrite !Ztrunc_IZR in *. unfold in_short. lia.
Qed.
