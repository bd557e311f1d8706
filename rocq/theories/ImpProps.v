(** C90 - C93: ImproPhe. *)
From Coq Require Import Reals Lra Lia ZifyBool ZifyNat Psatz Sorting.Sorted.
From Flocq Require Import Core.
From Verif Require Import Base BaseFacts Loops LoopsFacts RoundModel RoundFacts StatsModel StatsSpec StatsProofs CsoProofs ChunkProofs LsmProofs BapCor BapComposite ImpModel ImpSpec ImpPredict ImpSeason.
#[local] Open Scope R_scope.

(** The set of pixels a prediction may use, and the difference to the pixel. *)
Definition near (sc : scene) (h i j q : Z) : Prop := usable_at (s_nx sc) (s_ny sc) (s_hr sc) (s_nohr sc) (s_mr sc) (s_nomr sc) h i j q.
Definition unlike (sc : scene) (i j q : Z) : R := difference (s_hr sc) (i * s_nx sc + j) q.
Definition inside_scene (sc : scene) (i j : Z) : Prop := (0 <= i < s_ny sc)%Z /\ (0 <= j < s_nx sc)%Z.
(** The pixel itself has values. *)
Definition complete (sc : scene) (i j : Z) : Prop := has_fine (s_hr sc) (s_nohr sc) (i * s_nx sc + j) /\ has_coarse (s_mr sc) (s_nomr sc) (i * s_nx sc + j).

Lemma coarse_test sc q : scene_ok sc -> (0 <= q < s_nx sc * s_ny sc)%Z -> row_at (s_mr sc) q = Ret (map (fun b => zval b q) (s_mr sc)) /\
  (any_nodata (s_nomr sc) (map (fun b => zval b q) (s_mr sc)) = false <-> has_coarse (s_mr sc) (s_nomr sc) q).
Proof.
  intros OK R. pose proof OK as (_ & _ & _ & _ & Fm & _). split; [apply (row_zval _ _ _ Fm R)|]. unfold any_nodata, has_coarse. split.
  - intros E b Ib Eb. assert (existsb (fun v => (v =? s_nomr sc)%Z) (map (fun b => zval b q) (s_mr sc)) = true); [|congruence]. apply existsb_exists. exists (zval b q). split; [apply in_map_iff; eauto|lia].
  - intros C. destruct (existsb _ _) eqn:E; auto. apply existsb_exists in E. destruct E as (v & Iv & Ev). apply in_map_iff in Iv. destruct Iv as (b & <- & Ib). exfalso. apply (C b Ib). lia.
Qed.

(** Only pixels in the circle that have values and are similar enough are used, each once; the most similar ones if there are enough of
    them; the prediction is the weighted mean, as a short. *)
Theorem C90_prediction : forall sc h mink i j, scene_ok sc -> (0 <= h <= 2047)%Z -> inside_scene sc i j -> complete sc i j ->
  exists vs lim qs, improphe sc h (kernel_cells h) mink i j = Ret (Some vs) /\ zlen vs = zlen (s_mr sc) /\
    chosen (unlike sc i j) (near sc h i j) mink lim /\ NoDup qs /\ (forall q, In q qs <-> near sc h i j q /\ unlike sc i j q < lim) /\ In (i * s_nx sc + j)%Z qs /\
    forall b band tex, get_at (s_mr sc) b = Some band -> get_at (s_mrtex sc) b = Some tex -> exists w v, get_at vs b = Some v /\
      weights (unlike sc i j) (rval (s_hrtex sc)) (rval tex) qs w /\ v = Ztrunc (rnd32 (weighted_mean w (fun q => IZR (zval band q)) qs)).
Proof.
  intros sc h mink i j OK H (I & J) (Fp & Cp). pose proof OK as (NX & NY & _ & Fh & Fm & _ & _ & Lu & _). set (p := (i * s_nx sc + j)%Z) in *.
  assert (0 <= p < s_nx sc * s_ny sc)%Z as Rp by (unfold p; apply pos_range; auto).
  unfold improphe. fold p. destruct (coarse_test sc p OK Rp) as (-> & T). cbn [bind]. rewrite (proj2 T) by auto. rewrite (row_rval _ _ _ Fh Rp). cbn [bind].
  unfold p. rewrite (gather_spec sc h i j OK H (kernel_cells h)) by lia. cbn [bind]. fold p.
  assert (map (fun d => nb sc i j (s_nx sc * (i + fst d) + (j + snd d))%Z) (filter (cand sc h i j) (LsmModel.kernel h)) = map (nb sc i j) (found sc h i j)) as -> by (unfold found; now rewrite map_map).
  destruct (cutoff_spec sc h i j OK H J mink) as (C & Ch). cbv zeta in C, Ch. set (c := cutoff mink (map (nb sc i j) (found sc h i j))) in *.
  assert (In p (used sc h i j c)) as Ip.
  { apply used_spec; auto. split.
    - split; [|split; auto]. split; auto. unfold p. rewrite at_row, at_col by auto. nia.
    - unfold p. rewrite difference_self. assert (c = 0 \/ c = 1 \/ c = 2 \/ c = 3 \/ c = 4)%Z as Hc by lia. clear -Hc. destruct Hc as [-> |[-> |[-> |[-> | ->]]]]; [change (lim 0) with 0.025|change (lim 1) with 0.05|change (lim 2) with 0.1|change (lim 3) with 0.2|change (lim 4) with 0.4]; lra. }
  assert (used sc h i j c <> []) as NE by (intros E; rewrite E in Ip; destruct Ip).
  assert (exists n l, map (nb sc i j) (found sc h i j) = n :: l) as (n & l & El).
  { destruct (found sc h i j) as [|q l] eqn:E; [|cbn; eauto]. exfalso. unfold used in Ip. rewrite E in Ip. destruct Ip. }
  destruct (omap_get (predict_band c (map (nb sc i j) (found sc h i j))) (fun b v => forall band tex, get_at (s_mr sc) b = Some band -> get_at (s_mrtex sc) b = Some tex ->
    v = Ztrunc (rnd32 (weighted_mean (wt sc h i j c b tex) (fun q => IZR (zval band q)) (used sc h i j c)))) (zupto (zlen (s_mr sc)))) as (vs & E & L & G).
  { intros k b Gb. pose proof (get_at_inv _ _ _ Gb) as Rb. rewrite zlen_zupto in Rb by (unfold zlen; lia). rewrite get_zupto in Gb by lia. injection Gb as <-.
    destruct (get_at_some (s_mr sc) k Rb) as (band & Gm). destruct (get_at_some (s_mrtex sc) k) as (tex & Gt); [lia|].
    rewrite (predict_spec sc h i j OK H c k band tex NE Gm Gt). eexists. split; [reflexivity|]. intros band' tex' Gm' Gt'. rewrite Gm in Gm'. rewrite Gt in Gt'. injection Gm' as <-. injection Gt' as <-. reflexivity. }
  exists vs, (lim c), (used sc h i j c). rewrite El in *. rewrite E. cbn [bind]. split; auto. split; [rewrite L; apply zlen_zupto; unfold zlen; lia|]. split; [exact Ch|]. split; [apply used_NoDup; auto|].
  split; [intros q; now apply used_spec|]. split; auto.
  intros b band tex Gm Gt. pose proof (get_at_inv _ _ _ Gm) as Rb. destruct (G b b) as (v & Gv & Ev); [apply get_zupto; auto|]. exists (wt sc h i j c b tex), v. split; auto.
  split; [now apply (wt_weights sc h i j OK)|auto].
Qed.

(** The prediction stays within the range of the coarse values of the pixels it may use. *)
Theorem C90_within_neighbours : forall sc h mink i j vs b band v lo hi, scene_ok sc -> (0 <= h <= 2047)%Z -> inside_scene sc i j -> complete sc i j ->
  improphe sc h (kernel_cells h) mink i j = Ret (Some vs) -> get_at (s_mr sc) b = Some band -> get_at vs b = Some v ->
  (forall q, near sc h i j q -> unlike sc i j q < 0.4 -> (lo <= zval band q <= hi)%Z) -> (lo <= v <= hi)%Z.
Proof.
  intros sc h mink i j vs b band v lo hi OK H IJ Cp E Gm Gv B.
  destruct (C90_prediction sc h mink i j OK H IJ Cp) as (vs' & li & qs & E' & L & Ch & N & S & Ip & G). rewrite E in E'. injection E' as <-.
  pose proof OK as (_ & _ & _ & _ & Fm & Fu & Lt & Lu & Fs & Ft & Fut). pose proof (get_at_inv _ _ _ Gm) as Rb. destruct (get_at_some (s_mrtex sc) b) as (tex & Gt); [lia|].
  destruct (G b band tex Gm Gt) as (w & v' & Gv' & W & Ev). rewrite Gv in Gv'. injection Gv' as <-.
  assert (li <= 0.4) as Le. { destruct Ch as (bf & af & El & _). assert (In li limits) as Il by (rewrite El; apply in_or_app; right; left; auto). unfold limits in Il. cbn in Il. destruct Il as [<-|[<-|[<-|[<-|[<-|[]]]]]]; lra. }
  assert (forall q, In q qs -> near sc h i j q /\ unlike sc i j q < 0.4) as Q. { intros q Iq. apply S in Iq. split; [apply Iq|lra]. }
  assert (forall q, In q qs -> 0 <= unlike sc i j q /\ 0 <= rval (s_hrtex sc) q /\ 0 <= rval tex q) as P.
  { intros q Iq. destruct (Q q Iq) as (((Rq & _) & _) & _). rewrite Forall_forall in Fu, Fut, Ft. pose proof (get_at_In _ _ _ Gt) as It. specialize (Fu tex It). specialize (Fut tex It). rewrite Forall_forall in Fut.
    split; [apply difference_nonneg|]. split; [apply Ft, (get_at_In _ q), get_rval; lia|apply Fut, (get_at_In _ q), get_rval; lia]. }
  assert (forall z, in_short z -> (Z.abs z < 2 ^ 24)%Z) as Sm by (unfold in_short; intros; lia).
  assert (forall q, In q qs -> in_short (zval band q)) as Sv.
  { intros q Iq. destruct (Q q Iq) as (((Rq & _) & _) & _). rewrite Forall_forall in Fm, Fs. pose proof (get_at_In _ _ _ Gm) as Im. specialize (Fm band Im). specialize (Fs band Im). rewrite Forall_forall in Fs. apply Fs, (get_at_In _ q), get_zval. lia. }
  set (lo' := Z.max lo (-32768)). set (hi' := Z.min hi 32767).
  assert (IZR lo' <= rnd32 (weighted_mean w (fun q => IZR (zval band q)) qs) <= IZR hi') as K.
  { assert (lo <= zval band (i * s_nx sc + j) <= hi)%Z as Bp by (destruct (Q _ Ip); apply B; auto). specialize (Sv _ Ip) as Sp. unfold in_short in Sp.
    apply rnd32_between; [unfold lo'; lia|unfold hi'; lia|]. apply weighted_mean_between; [intros Eq; rewrite Eq in Ip; destruct Ip|intros q Iq; now apply (weights_pos (unlike sc i j) (rval (s_hrtex sc)) (rval tex) qs)|].
    intros q Iq. destruct (Q q Iq) as (Nq & Lq). specialize (B q Nq Lq). specialize (Sv q Iq). unfold in_short in Sv. unfold lo', hi'. split; apply IZR_le; lia. }
  subst v. destruct K as (K1 & K2). apply Ztrunc_le in K1, K2. rewrite Ztrunc_IZR in K1, K2. unfold lo', hi' in *. lia.
Qed.
(** A coarse band that is constant around the pixel is kept. *)
Theorem C90_uniform : forall sc h mink i j b band m, scene_ok sc -> (0 <= h <= 2047)%Z -> inside_scene sc i j -> complete sc i j ->
  get_at (s_mr sc) b = Some band -> (forall q, near sc h i j q -> zval band q = m) ->
  exists vs, improphe sc h (kernel_cells h) mink i j = Ret (Some vs) /\ get_at vs b = Some m.
Proof.
  intros sc h mink i j b band m OK H IJ Cp Gm U. destruct (C90_prediction sc h mink i j OK H IJ Cp) as (vs & _ & _ & E & L & _). exists vs. split; auto.
  pose proof (get_at_inv _ _ _ Gm) as Rb. destruct (get_at_some vs b) as (v & Gv); [lia|]. rewrite Gv. f_equal.
  assert (m <= v <= m)%Z; [|lia]. apply (C90_within_neighbours sc h mink i j vs b band v m m OK H IJ Cp E Gm Gv). intros q Nq _. rewrite (U q Nq). lia.
Qed.
(** More similar and more homogeneous pixels weigh at least as much; no weight is zero. *)
Lemma similar_weigh_more : forall sc h i j qs tex w q q', scene_ok sc -> In tex (s_mrtex sc) ->
  (forall q, In q qs -> near sc h i j q) -> weights (unlike sc i j) (rval (s_hrtex sc)) (rval tex) qs w -> In q qs -> In q' qs ->
  0 < w q <= 1 /\ (unlike sc i j q <= unlike sc i j q' -> rval (s_hrtex sc) q <= rval (s_hrtex sc) q' -> rval tex q <= rval tex q' -> w q' <= w q).
Proof.
  intros sc h i j qs tex w q q' OK It Nr W Iq Iq'. pose proof OK as (_ & _ & _ & _ & _ & Fu & Lt & _ & _ & Ft & Fut). rewrite Forall_forall in Fu, Fut, Ft.
  assert (forall q, In q qs -> 0 <= unlike sc i j q /\ 0 <= rval (s_hrtex sc) q /\ 0 <= rval tex q) as P.
  { intros x Ix. destruct (Nr x Ix) as ((Rq & _) & _). specialize (Fu tex It). specialize (Fut tex It). rewrite Forall_forall in Fut.
    split; [apply difference_nonneg|]. split; [apply Ft, (get_at_In _ x), get_rval; lia|apply Fut, (get_at_In _ x), get_rval; lia]. }
  split; [now apply (weights_pos (unlike sc i j) (rval (s_hrtex sc)) (rval tex) qs)|]. intros. now apply (weights_antitone (unlike sc i j) (rval (s_hrtex sc)) (rval tex) qs).
Qed.
Theorem C90_similar_weigh_more : forall sc h mink i j b band tex, scene_ok sc -> (0 <= h <= 2047)%Z -> inside_scene sc i j -> complete sc i j -> get_at (s_mr sc) b = Some band -> get_at (s_mrtex sc) b = Some tex ->
  exists vs qs w v, improphe sc h (kernel_cells h) mink i j = Ret (Some vs) /\ get_at vs b = Some v /\ v = Ztrunc (rnd32 (weighted_mean w (fun q => IZR (zval band q)) qs)) /\ In (i * s_nx sc + j)%Z qs /\ (forall q, In q qs -> near sc h i j q) /\
    forall q q', In q qs -> In q' qs -> 0 < w q <= 1 /\ (unlike sc i j q <= unlike sc i j q' -> rval (s_hrtex sc) q <= rval (s_hrtex sc) q' -> rval tex q <= rval tex q' -> w q' <= w q).
Proof.
  intros sc h mink i j b band tex OK H IJ Cp Gm Gt. destruct (C90_prediction sc h mink i j OK H IJ Cp) as (vs & lim & qs & E & _ & _ & _ & S & Ip & G). destruct (G b band tex Gm Gt) as (w & v & Gv & W & Ev). exists vs, qs, w, v.
  assert (forall q, In q qs -> near sc h i j q) as Nq by (intros q Iq; apply S in Iq; apply Iq). split; auto. split; auto. split; auto. split; auto. split; auto. intros q q' Iq Iq'. apply (similar_weigh_more sc h i j qs tex w q q' OK (get_at_In _ _ _ Gt) Nq W Iq Iq').
Qed.
(** No usable pixel: the coarse values are kept.  No coarse value: nothing is predicted. *)
Theorem C90_no_similar_pixel : forall sc h mink i j, scene_ok sc -> (0 <= h <= 2047)%Z -> inside_scene sc i j -> has_coarse (s_mr sc) (s_nomr sc) (i * s_nx sc + j) ->
  (forall q, near sc h i j q -> 0.4 <= unlike sc i j q) -> improphe sc h (kernel_cells h) mink i j = Ret (Some (map (fun b => zval b (i * s_nx sc + j)%Z) (s_mr sc))).
Proof.
  intros sc h mink i j OK H (I & J) Cp No. pose proof OK as (NX & NY & _ & Fh & _). set (p := (i * s_nx sc + j)%Z) in *.
  assert (0 <= p < s_nx sc * s_ny sc)%Z as Rp by (unfold p; apply pos_range; auto).
  unfold improphe. fold p. destruct (coarse_test sc p OK Rp) as (-> & T). cbn [bind]. rewrite (proj2 T) by auto. rewrite (row_rval _ _ _ Fh Rp). cbn [bind].
  unfold p. rewrite (gather_spec sc h i j OK H (kernel_cells h)) by lia. cbn [bind].
  assert (filter (cand sc h i j) (LsmModel.kernel h) = []) as ->; [|reflexivity].
  destruct (filter (cand sc h i j) (LsmModel.kernel h)) as [|d l] eqn:E; auto. exfalso.
  assert (In (s_nx sc * (i + fst d) + (j + snd d))%Z (found sc h i j)) as Q by (unfold found; rewrite E; left; auto).
  apply found_spec in Q; auto. destruct Q as (Nq & Lq). specialize (No _ Nq). unfold unlike in No. lra.
Qed.
Theorem C90_missing_coarse : forall sc h nk mink i j, scene_ok sc -> inside_scene sc i j -> ~ has_coarse (s_mr sc) (s_nomr sc) (i * s_nx sc + j) -> improphe sc h nk mink i j = Ret None.
Proof.
  intros sc h nk mink i j OK (I & J) Cp. set (p := (i * s_nx sc + j)%Z) in *. assert (0 <= p < s_nx sc * s_ny sc)%Z as Rp by (unfold p; apply pos_range; auto).
  unfold improphe. fold p. destruct (coarse_test sc p OK Rp) as (-> & T). cbn [bind]. destruct (any_nodata _ _); [auto|]. exfalso. apply Cp, T. auto.
Qed.
(** Two pixels, slightly different in the fine image: both are used, with equal weight. *)
Definition pair_scene : scene := mkScene 2 1 [[0; 0.01]] [0; 0] [[100; 200]%Z] [[0; 0]] (-9999) (-9999).
Lemma pair_scene_ok : scene_ok pair_scene.
Proof.
  unfold scene_ok, pair_scene. cbn [s_nx s_ny s_hr s_hrtex s_mr s_mrtex]. repeat split; try lia; try discriminate; repeat constructor; try lra; unfold in_short; lia.
Qed.
Example C90_case : improphe pair_scene 1 (kernel_cells 1) 1 0 0 = Ret (Some [150%Z]).
Proof.
  assert (complete pair_scene 0 0) as Cp. { split; [exists [0; 0.01]; split; [reflexivity|cbn; lra]|]. intros b [<-|[]]. cbn. lia. }
  destruct (C90_prediction pair_scene 1 1 0 0 pair_scene_ok ltac:(lia) ltac:(split; cbn; lia) Cp) as (vs & li & qs & -> & L & Ch & N & S & Ip & G).
  destruct (G 0%Z [100; 200]%Z [0; 0] eq_refl eq_refl) as (w & v & Gv & W & ->). clear G.
  assert (unlike pair_scene 0 0 0 = 0) as U0. { unfold unlike. apply difference_self. }
  assert (unlike pair_scene 0 0 1 = 0.01) as U1. { unfold unlike, difference, mean, size, rval. cbn -[Rabs Z.to_nat]. change (Z.to_nat 1) with 1%nat. change (Z.to_nat 0) with 0%nat. cbn -[Rabs]. rewrite Rabs_left by lra. lra. }
  assert (0.025 <= li) as Le. { destruct Ch as (bf & af & El & _). assert (In li limits) as Il by (rewrite El; apply in_or_app; right; left; auto). unfold limits in Il. cbn in Il. destruct Il as [<-|[<-|[<-|[<-|[<-|[]]]]]]; lra. }
  assert (Permutation.Permutation qs [0; 1]%Z) as Pm.
  { apply Permutation.NoDup_Permutation; auto; [repeat constructor; cbn; intuition lia|]. intros q. rewrite S. split.
    - intros (((Rq & _) & _) & _). cbn in Rq. cbn. lia.
    - intros Q. assert (q = 0 \/ q = 1)%Z as Q' by (cbn in Q; lia). split.
      + split; [split; [cbn; lia|destruct Q' as [-> | ->]; cbn; lia]|split].
        * exists [0; 0.01]. split; [reflexivity|]. destruct Q' as [-> | ->]; unfold rval; [change (Z.to_nat 0) with 0%nat|change (Z.to_nat 1) with 1%nat]; cbn; lra.
        * intros b [<-|[]]. destruct Q' as [-> | ->]; unfold zval; [change (Z.to_nat 0) with 0%nat|change (Z.to_nat 1) with 1%nat]; cbn; lia.
      + destruct Q' as [-> | ->]; lra. }
  assert (forall q, In q qs -> w q = 1) as Wq.
  { intros q Iq. destruct (W q Iq) as (a & b & c & A & B & C & ->).
    assert (forall z, In z qs -> z = 0 \/ z = 1)%Z as Z01. { intros z Iz. apply (Permutation.Permutation_in z Pm) in Iz. cbn in Iz. lia. }
    assert (b = 1) as ->. { apply (proj1 B). destruct (Z01 q Iq) as [-> | ->]; reflexivity. }
    assert (c = 1) as ->. { apply (proj1 C). destruct (Z01 q Iq) as [-> | ->]; reflexivity. }
    assert (a = 1) as ->; [|lra]. destruct A as (A0 & A1). destruct (Z01 q Iq) as [-> | ->]; [auto|]. destruct A1 as (q1 & q2 & I1 & I2 & P1 & Bd & E1 & _); [lra|]. apply E1.
    pose proof (Bd q1 I1 P1). destruct (Z01 q1 I1) as [-> | ->], (Z01 q2 I2) as [-> | ->]; lra. }
  assert (weighted_mean w (fun q => IZR (zval [100; 200]%Z q)) qs = 150) as Wm.
  { unfold weighted_mean. assert (sum w qs = 2) as ->.
    { rewrite (sum_perm w qs _ Pm). cbn [sum]. rewrite !Wq; [lra| |]; apply (Permutation.Permutation_in _ (Permutation.Permutation_sym Pm)); cbn; auto. }
    assert (sum (fun q => w q * IZR (zval [100; 200]%Z q)) qs = 300) as ->; [|lra].
    rewrite (sum_perm _ qs _ Pm). cbn [sum]. rewrite !Wq; [unfold zval; change (Z.to_nat 0) with 0%nat; change (Z.to_nat 1) with 1%nat; cbn [nth]; lra| |]; apply (Permutation.Permutation_in _ (Permutation.Permutation_sym Pm)); cbn; auto. }
  rewrite Wm, rnd32_int, Ztrunc_IZR in Gv by lia. destruct vs as [|x [|y vs]]; cbn in Gv, L; try discriminate; [injection Gv as ->; reflexivity|]. unfold zlen in L. cbn in L. lia.
Qed.

(** ** C91: seasonal averages *)
(** The image of season [w] and band [b] holds the mean of the clear observations of that season, the mean of all seasons
    if there is none, nodata if there is none at all.  Missing: seasons across the turn of the year together with a year,
    see [C91_year_refuted]. *)
Theorem C91_season_average_partial : forall mask dwin ywin nodata nb obs w b, mask <> Some false -> simple_windows dwin ywin ->
  (0 <= b < nb)%Z -> (0 <= w < zlen dwin - 1)%Z -> (forall o, In o obs -> zlen (o_val o) = nb) ->
  exists l v, average_season mask dwin ywin nodata nb obs = Ret l /\ get_at l (w * nb + b)%Z = Some v /\ season_result dwin ywin nodata obs w b v.
Proof.
  intros mask dwin ywin nodata nb obs w b Mk SW B W L.
  assert (average_season mask dwin ywin nodata nb obs = omap (fun x => season_value dwin ywin nodata obs (fst x) (snd x)) (flat_map (fun w => map (fun b => (w, b)) (zupto nb)) (zupto (zlen dwin - 1)))) as ->.
  { unfold average_season. destruct mask as [[]|]; auto. now destruct Mk. }
  set (wb := flat_map _ _).
  assert (forall x, In x wb -> exists v, season_value dwin ywin nodata obs (fst x) (snd x) = Ret v) as T.
  { intros x Ix. apply in_flat_map in Ix. destruct Ix as (w' & Iw & Ix). apply in_map_iff in Ix. destruct Ix as (b' & <- & Ib). apply zupto_In in Iw, Ib. cbn [fst snd].
    destruct (season_value_spec dwin ywin nodata obs w' b' SW) as (v & E & _); [lia|intros o Io; rewrite (L o Io); lia|]. eauto. }
  destruct (omap_get (fun x => season_value dwin ywin nodata obs (fst x) (snd x)) (fun x v => season_value dwin ywin nodata obs (fst x) (snd x) = Ret v) wb) as (l & E & _ & Gl).
  { intros k x Gx. destruct (T x (get_at_In _ _ _ Gx)) as (v & Ev). eauto. }
  assert (get_at wb (w * nb + b)%Z = Some (w, b)) as G.
  { unfold wb. rewrite (get_flat _ nb _ w w b); [|intros x; rewrite zlen_map, zlen_zupto; lia|lia|rewrite get_zupto; auto]. rewrite get_map, get_zupto by lia. reflexivity. }
  destruct (season_value_spec dwin ywin nodata obs w b SW) as (v & Ev & R); [lia|intros o Io; rewrite (L o Io); lia|].
  exists l, v. split; auto. split; auto. destruct (Gl (w * nb + b)%Z (w, b) G) as (v' & G' & E'). cbn [fst snd] in E'. congruence.
Qed.
(** Off the processing mask all images hold nodata. *)
Theorem C91_masked : forall dwin ywin nodata nb obs, exists l, average_season (Some false) dwin ywin nodata nb obs = Ret l /\ (forall x, In x l -> x = nodata).
Proof. intros. eexists. split; [reflexivity|]. intros x Ix. apply in_map_iff in Ix. destruct Ix as (y & <- & _). reflexivity. Qed.
(** The breakpoints 1 91 181 271 365: 31 December (day 365) is in no season. *)
Theorem C91_last_day_refuted : forall ywin nodata y m v, average_season m [1; 91; 181; 271; 365]%Z ywin nodata 1 [mkObs y 365 true [v]] = Ret [nodata; nodata; nodata; nodata].
Proof.
  intros. assert (forall w, season_value [1; 91; 181; 271; 365]%Z ywin nodata [mkObs y 365 true [v]] w 0 = Ret nodata) as E.
  { intros w. unfold season_value, of_any, window_of. cbn [filter o_msk o_year o_doy find_window].
    assert (forall a c, (a < c <= 365)%Z -> in_window a c y 365 ywin = false) as F by (intros; unfold in_window; lia). rewrite !F by lia. reflexivity. }
  destruct m as [[]|]; cbn [average_season]; auto; change (flat_map _ _) with [(0, 0); (1, 0); (2, 0); (3, 0)]%Z; cbn [omap fst snd]; rewrite !E; reflexivity.
Qed.
(** The breakpoints 1 30 91 181 270 30 of a year, the last season extending into the next year: it also takes the autumn of the year
    before; the breakpoints 270 30 91 181 270, the first season extending into the previous year: it also takes the autumn of the year itself. *)
Theorem C91_year_refuted : forall nodata v w,
  average_season None [1; 30; 91; 181; 270; 30]%Z 2020 nodata 1 [mkObs 2019 300 true [v]; mkObs 2020 300 true [w]] = Ret [Z.quot (0 + v + w) 2; Z.quot (0 + v + w) 2; Z.quot (0 + v + w) 2; Z.quot (0 + v + w) 2; Z.quot (0 + v + w) 2] /\
  average_season None [270; 30; 91; 181; 270]%Z 2020 nodata 1 [mkObs 2020 280 true [v]; mkObs 2019 280 true [w]] = Ret [Z.quot (0 + v + w) 2; Z.quot (0 + v + w) 2; Z.quot (0 + v + w) 2; Z.quot (0 + v + w) 2].
Proof. intros. split; reflexivity. Qed.
(** Two clear observations of spring, a clouded one and none in the other season. *)
Example C91_case : average_season (Some true) [1; 181; 365]%Z (-1) (-9999) 2 [mkObs 2019 20 true [10; 100]; mkObs 2020 30 true [13; 200]; mkObs 2020 40 false [99; 99]]%Z = Ret [11; 150; 11; 150]%Z.
Proof. reflexivity. Qed.

(** ** C92: the products *)
(** Level 2 ImproPhe: nodata off the mask, the original values where the coarse image is not valid, the prediction elsewhere.
    Missing: images without fine data, see [C92_no_fine_refuted], and pixels that lack a band, see [C92_missing_band_refuted]. *)
Theorem C92_product_partial : forall sc h mink mask msk dat i j, scene_ok sc -> (0 <= h <= 2047)%Z -> inside_scene sc i j ->
  row_at (s_mr sc) (i * s_nx sc + j) = Ret (coarse_row mask msk dat (s_nomr sc)) -> has_fine (s_hr sc) (s_nohr sc) (i * s_nx sc + j) -> ~ In (s_nomr sc) dat -> dat <> [] ->
  (mask = Some false -> l2i_at sc h mink false mask msk dat i j = Ret (map (fun _ => s_nomr sc) dat)) /\
  (mask <> Some false -> msk = false -> l2i_at sc h mink false mask msk dat i j = Ret dat) /\
  (mask <> Some false -> msk = true -> exists vs, improphe sc h (kernel_cells h) mink i j = Ret (Some vs) /\ l2i_at sc h mink false mask msk dat i j = Ret vs).
Proof.
  intros sc h mink mask msk dat i j OK H IJ Rw Fn Nd Ne. unfold l2i_at.
  assert (forall l, l <> [] -> any_nodata (s_nomr sc) (map (fun _ : Z => s_nomr sc) l) = true) as An. { intros [|x l] N; [now destruct N|]. unfold any_nodata. cbn. lia. }
  assert (coarse_row mask msk dat (s_nomr sc) = map (fun _ => s_nomr sc) dat -> improphe sc h (kernel_cells h) mink i j = Ret None) as Nn. { intros E. unfold improphe. rewrite Rw, E. cbn [bind]. rewrite An by auto. reflexivity. }
  split; [|split].
  - intros ->. rewrite Nn by reflexivity. reflexivity.
  - intros M ->. rewrite Nn by (destruct mask as [[]|]; auto; now destruct M). cbn [bind]. unfold l2i_pixel. destruct mask as [[]|]; auto. now destruct M.
  - intros M ->. assert (coarse_row mask true dat (s_nomr sc) = dat) as E by (unfold coarse_row; destruct mask as [[]|]; auto; now destruct M). rewrite E in Rw.
    assert (complete sc i j) as Cp.
    { split; auto. destruct IJ as (I & J). pose proof OK as (NX & NY & _). assert (0 <= i * s_nx sc + j < s_nx sc * s_ny sc)%Z as Rp by (apply pos_range; auto).
      pose proof (coarse_test sc _ OK Rp) as (Rw' & T). rewrite Rw in Rw'. injection Rw' as Rw'. apply T. rewrite <- Rw'. unfold any_nodata. destruct (existsb _ dat) eqn:X; auto. exfalso. apply existsb_exists in X. destruct X as (x & Ix & Ex). apply Nd. now replace (s_nomr sc) with x by lia. }
    destruct (C90_prediction sc h mink i j OK H IJ Cp) as (vs & _ & _ & Ev & _). exists vs. rewrite Ev. split; auto. cbn [bind]. f_equal. unfold l2i_pixel.
    destruct dat as [|d0 dat]; [now destruct Ne|]. assert ((d0 =? s_nomr sc)%Z = false) as -> by (assert (d0 <> s_nomr sc) by (intros ->; apply Nd; left; auto); lia).
    destruct mask as [[]|]; auto. now destruct M.
Qed.
(** Without fine data the coarse image is copied, off the mask too. *)
Theorem C92_no_fine_refuted : l2i_at pair_scene 1 1 true (Some false) true [100%Z] 0 0 = Ret [100%Z].
Proof. unfold l2i_at. change (kernel_cells 1) with 9%Z. pose proof C90_case as E. change (kernel_cells 1) with 9%Z in E. rewrite E. reflexivity. Qed.
(** A valid pixel that lacks a value in one band gets 0 in all bands. *)
Definition half_scene : scene := mkScene 1 1 [[0]] [0] [[100]; [-9999]]%Z [[0]; [0]] (-9999) (-9999).
Theorem C92_missing_band_refuted : l2i_at half_scene 1 1 false (Some true) true [100; -9999]%Z 0 0 = Ret [0; 0]%Z.
Proof. reflexivity. Qed.
(** One that lacks the first band is 0 in all bands, not the coarse value and not nodata. *)
Theorem C92_missing_first_band_refuted : forall mask dats nodata pred, mask <> Some false ->
  l2i_pixel false mask true (nodata :: dats) nodata pred = map (fun _ => 0%Z) (nodata :: dats).
Proof. intros mask dats nodata pred M. unfold l2i_pixel. rewrite Z.eqb_refl. destruct mask as [[|]|]; try reflexivity. now destruct M. Qed.
(** Continuous fields: the prediction where the first field is valid; off the mask or without the first field 0 and not nodata;
    the years behind a year without data are 0. *)
Theorem C92_fields_partial : forall mask msks dats d nodata vs, mask <> Some false -> d <> nodata ->
  cfi_year mask (true :: msks) (d :: dats) nodata (Some vs) = vs /\ cfi_years mask (true :: msks) nodata [(true, d :: dats, Some vs)] = [d :: dats].
Proof.
  intros mask msks dats d nodata vs M D. split; [|reflexivity]. unfold cfi_year, cf_values. cbn [combine map fst snd].
  assert ((match mask with Some false => nodata | _ => d end =? nodata)%Z = false) as E by (destruct mask as [[]|]; try lia; now destruct M). rewrite E. reflexivity.
Qed.
Theorem C92_fields_refuted : forall msks d dats nodata pred m v,
  cfi_year (Some false) (m :: msks) (d :: dats) nodata pred = map (fun _ => 0%Z) (d :: dats) /\
  cfi_year None (false :: msks) (d :: dats) nodata pred = map (fun _ => 0%Z) (d :: dats) /\
  cfi_years None [true] nodata [(true, [d], None); (false, [v], Some [v])] = [[d]; [0%Z]].
Proof. intros. unfold cfi_year, cf_values. cbn. rewrite Z.eqb_refl. auto. Qed.
Example C92_case : l2i_at pair_scene 1 1 false None true [100%Z] 0 0 = Ret [150%Z] /\ row_at (s_mr pair_scene) 0 = Ret (coarse_row None true [100%Z] (-9999)).
Proof. split; [|reflexivity]. unfold l2i_at. rewrite C90_case. reflexivity. Qed.

(** ** C93: texture and standardization of the images *)
(** The texture is the largest sample standard deviation, over the bands, of the valid values in the square around the pixel. *)
Theorem C93_largest_deviation : forall nodata h nx ny i j bands, (0 < nx)%Z -> (0 < ny)%Z -> (0 <= h)%Z -> (0 <= i < ny)%Z -> (0 <= j < nx)%Z -> Forall (fun b => zlen b = nx * ny)%Z bands ->
  exists r, focal_sd nodata h nx ny i j bands = Ret r /\ 0 <= r /\
  (forall b vs, In b bands -> square_values nodata nx ny h i j b vs -> (2 <= zlen vs)%Z -> sample_sd vs <= r) /\
  (r = 0 \/ exists b vs, In b bands /\ square_values nodata nx ny h i j b vs /\ (2 <= zlen vs)%Z /\ r = sample_sd vs).
Proof. intros nodata h nx ny i j bands NX NY H I J F. unfold focal_sd. destruct (focal_fold nodata h nx ny i j NX H bands 0 F) as (r & E & G & U & W). exists r. auto. Qed.
(** Uniform surroundings have no texture. *)
Theorem C93_uniform : forall nodata h nx ny i j bands, (0 < nx)%Z -> (0 < ny)%Z -> (0 <= h)%Z -> (0 <= i < ny)%Z -> (0 <= j < nx)%Z -> Forall (fun b => zlen b = nx * ny)%Z bands ->
  (forall b, In b bands -> exists c, forall q, (0 <= q < nx * ny)%Z -> (Z.abs (q / nx - i) <= h)%Z -> (Z.abs (q mod nx - j) <= h)%Z -> rval b q = c \/ rval b q = nodata) ->
  focal_sd nodata h nx ny i j bands = Ret 0.
Proof.
  intros nodata h nx ny i j bands NX NY H I J F U. destruct (C93_largest_deviation nodata h nx ny i j bands NX NY H I J F) as (r & -> & _ & _ & [-> |(b & vs & Ib & Sq & _ & ->)]); auto.
  f_equal. destruct (U b Ib) as (c & C). apply sample_sd_const with c. destruct Sq as (qs & _ & S & ->). intros x Ix. apply in_map_iff in Ix. destruct Ix as (q & <- & Iq). apply S in Iq. destruct Iq as (A1 & A2 & A3 & A4). destruct (C q A1 A2 A3); [auto|contradiction].
Qed.
(** Standardization gives mean 0 and standard deviation 1, and keeps nodata. *)
Definition valid_in (nodata : R) (l vs : list R) : Prop := selected (fun x => x <> nodata) l vs.
Theorem C93_standardized : forall nodata data vs x y, valid_in nodata data vs -> In x vs -> In y vs -> x <> y ->
  standardize nodata data = map (fun x => if Req_bool x nodata then Some nodata else Some ((x - mean vs) / sample_sd vs)) data /\ 0 < sample_sd vs /\
  mean (map (fun x => (x - mean vs) / sample_sd vs) vs) = 0 /\ sample_sd (map (fun x => (x - mean vs) / sample_sd vs) vs) = 1.
Proof.
  intros nodata data vs x y (f & F & ->) Ix Iy N. set (vs := filter f data) in *.
  assert (valid_values nodata data = vs) as E. { unfold valid_values, vs. apply filter_ext_in. intros a Ia. specialize (F a Ia). destruct (Req_bool_spec a nodata), (f a); cbn; auto; [exfalso; tauto|]. assert (false = true) by tauto. discriminate. }
  destruct (sample_sd_pos vs x y Ix Iy N) as (P & L2). assert (vs <> []) as NE by (intros Q; rewrite Q in Ix; destruct Ix).
  split; [|split; [auto|split; [now apply standard_mean|now apply (standard_sd vs x y)]]].
  unfold standardize. rewrite E. apply map_ext. intros a. destruct (Req_bool_spec a nodata); [now subst|]. rewrite sd_of_spec. replace (zlen vs <? 2)%Z with false by (unfold zlen; lia).
  rewrite Req_bool_false by lra. rewrite (proj1 (run_var_spec vs NE)). reflexivity.
Qed.
(** An image whose valid values are all the same becomes not a number. *)
Theorem C93_constant_refuted : forall nodata c, c <> nodata -> standardize nodata [c; c; nodata] = [None; None; Some nodata].
Proof.
  intros nodata c N. unfold standardize, valid_values. cbn [filter map]. rewrite (Req_bool_true nodata nodata), !(Req_bool_false c nodata) by auto. cbn [negb]. rewrite sd_of_spec.
  change (zlen [c; c] <? 2)%Z with false. cbn iota. rewrite (sample_sd_const [c; c] c) by (intros x [<-|[<-|[]]]; auto). rewrite (Req_bool_true 0 0) by auto. reflexivity.
Qed.
Example C93_case : focal_sd (-9999) 1 2 2 0 0 [[1; 3; -9999; 2]] = Ret 1.
Proof.
  destruct (C93_largest_deviation (-9999) 1 2 2 0 0 [[1; 3; -9999; 2]]) as (r & -> & P & U & W); try lia; [repeat constructor|]. f_equal.
  assert (square_values (-9999) 2 2 1 0 0 [1; 3; -9999; 2] [1; 3; 2]) as S.
  { exists [0; 1; 3]%Z. split; [repeat constructor; cbn; intuition lia|]. split; [|reflexivity]. intros q. split.
    - intros [<-|[<-|[<-|[]]]]; (split; [lia|]; split; [cbn; lia|]; split; [cbn; lia|]); unfold rval; change (Z.to_nat 0) with 0%nat; change (Z.to_nat 1) with 1%nat; change (Z.to_nat 3) with 3%nat; cbn; lra.
    - intros (R & _ & _ & N). assert (q = 0 \/ q = 1 \/ q = 2 \/ q = 3)%Z as [-> |[-> |[-> | ->]]] by lia; cbn; auto; exfalso; apply N; reflexivity. }
  assert (sample_sd [1; 3; 2] = 1) as E. { unfold sample_sd, dev, mean, size. cbn [sum length INR]. replace (_ / _) with 1; [apply sqrt_1|]. cbn. field. }
  assert (1 <= r) as L by (rewrite <- E; apply (U [1; 3; -9999; 2]); [left; auto|auto|unfold zlen; cbn; lia]).
  destruct W as [-> |(b & vs & [<-|[]] & Sq & _ & ->)]; [lra|]. rewrite <- E. apply sample_sd_perm. eapply square_values_perm; eauto.
Qed.

Print Assumptions C90_prediction.
Print Assumptions C90_within_neighbours.
Print Assumptions C90_uniform.
Print Assumptions C90_similar_weigh_more.
Print Assumptions C90_no_similar_pixel.
Print Assumptions C90_missing_coarse.
Print Assumptions C91_season_average_partial.
Print Assumptions C91_masked.
Print Assumptions C91_last_day_refuted.
Print Assumptions C91_year_refuted.
Print Assumptions C92_product_partial.
Print Assumptions C92_no_fine_refuted.
Print Assumptions C92_missing_band_refuted.
Print Assumptions C92_missing_first_band_refuted.
Print Assumptions C92_fields_partial.
Print Assumptions C92_fields_refuted.
Print Assumptions C93_largest_deviation.
Print Assumptions C93_uniform.
Print Assumptions C93_standardized.
Print Assumptions C93_constant_refuted.
