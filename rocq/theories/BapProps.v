(** Best available pixel composites: C53-C58. *)
From Coq Require Import Reals Lra Lia.
From Flocq Require Import Core.
From Verif Require Import Base Loops BaseFacts LoopsFacts StatsModel StatsSpec DateModel QaiModel AggModel ChunkProofs CsoProofs BapModel BapSpec BapProofs BapScores BapTargets BapCor BapPixel BapComposite BapMode.
#[local] Open Scope Z_scope.

(** ** An example *)
Definition params (ds0 ds1 ds2 yf : R) (select img : bool) : bap :=
  mkBap 2018 2 yf 60 210 300 ds0 ds1 ds2 false false false select false 1 (1 / 2) (3 / 10) (2 / 10) 1 (5 / 10) 300 100 20 img true true (fun _ _ => (0%R, 0%R)).
Definition good_params := params (1 / 100) 1 (1 / 100) 3 true true.
Definition scene (doy year : Z) (dat : list Z) : obs := mkObs true dat 0 (year * 365 + doy) year doy 3 500 20 700.
Definition scenes := [scene 150 2017 [300; 500; 400]; scene 210 2018 [310; 490; 420]; mkObs false [0; 0; 0] 1 (2018 * 365 + 226) 2018 226 3 0 0 0].

Example good_params_sane : sane good_params.
Proof.
  constructor; [constructor| | |]; unfold good_params, params, weights_ok, shaped, peak; cbn [b_Yt b_Yr b_Yf b_Dt0 b_Dt1 b_Dt2 b_Ds0 b_Ds1 b_Ds2 w_d w_y w_c w_h w_r w_v b_dreq b_hreq b_vreq]; try lia; try lra.
  left. repeat split; try lra; lia.
Qed.
Example scenes_usable : Forall (usable good_params 3) scenes /\ zlen scenes <= 32767 /\ Forall (fun o => Forall in_short (o_dat o)) scenes /\ ~ water_pixel scenes.
Proof.
  assert (Forall (usable good_params 3) scenes) as U.
  { repeat constructor; cbn; unfold in_short; lia. }
  split; auto. split; [vm_compute; discriminate|]. split; [repeat constructor; unfold in_short; lia|].
  intros W. apply (is_water_ok scenes) in W; [vm_compute in W; discriminate|]. eapply Forall_impl; [|exact U]. intros o; apply us_qai.
Qed.

(** ** C53: the composite shows the best observation *)
Theorem C53_pixel_shows_best_observation b scale bands nb nodata os old :
  sane b -> Forall (usable b nb) os -> (water_pixel os -> water_bands scale bands os) -> zlen os <= 32767 -> length old = length os -> b_select b = true ->
  exists r fin hs, pixel b (static_targets b) scale bands nb nodata os old = Ret (r, fin) /\ length fin = length os /\
    (forall before o after, os = before ++ o :: after -> o_valid o = true -> exists s dist, get_at fin (zlen before) = Some (s, dist) /\ pixel_scores b scale bands os o (before ++ after) s dist) /\
    haze_scores b (combine os (map fst fin)) hs /\
    ((exists e x n, first_best b hs (elements os fin) e x /\ counts (may_use b hs) (elements os fin) n /\ shows b os e n r) \/
     ((forall e, In e (elements os fin) -> ~ may_use b hs e) /\ shows_nothing b nb nodata r)).
Proof.
  intros SN US WB M LO SEL. destruct (pixel_stage b scale bands nb nodata os SN US WB old LO) as (fin & LF & H & ->). rewrite SEL.
  destruct (haze_exists b (combine os (map fst fin))) as (hs & HZ).
  destruct (compositing_ok b scale bands nb nodata os SN US WB M fin LF H hs HZ) as (r & -> & R). cbn [bind]. exists r, fin, hs. split; auto. split; [unfold zlen in LF; lia|].
  split; [|auto]. intros before o after EO V. destruct (H before o after EO V) as (s & dist & G & P & _). eauto.
Qed.

(** The observation on the target day is shown. *)
Example C53_example : exists inf scr fin,
  pixel good_params (static_targets good_params) 10000 (Some (0, 1)) 3 (-9999) [scene 210 2018 [310; 490; 420]] [(mkScores None None None 0 0 0 0, 0)] =
    Ret (mkResult (Some [310; 490; 420]) (Some inf) (Some scr), fin) /\ inf = [0; 1; 210; 2018; 0; 4].
Proof.
  set (o := scene 210 2018 [310; 490; 420]).
  assert (Forall (usable good_params 3) [o]) as U by (repeat constructor; cbn; unfold in_short; lia).
  assert (~ water_pixel [o]) as NW.
  { intros W. apply (is_water_ok [o]) in W; [vm_compute in W; discriminate|]. eapply Forall_impl; [|exact U]. intros x; apply us_qai. }
  destruct (C53_pixel_shows_best_observation good_params 10000 (Some (0, 1)) 3 (-9999) [o] [(mkScores None None None 0 0 0 0, 0)] good_params_sane U ltac:(tauto) ltac:(vm_compute; discriminate) eq_refl eq_refl)
    as (r & fin & hs & -> & LF & SC & HZ & R).
  destruct (SC [] o [] eq_refl eq_refl) as (s & dist & G & PS). destruct fin as [|sd [|? ?]]; try discriminate. change (zlen (@nil obs)) with 0 in G. rewrite get_cons_0 in G. injection G as ->.
  destruct PS as (SS & _). destruct SS as ((d & y & d' & y' & TS & Wd & Wy & Ed & Ey) & Wc & Wh & _).
  destruct (good_params_sane) as [_ _ _ [PK|[(K1 & K2)|(K1 & K2)]]]; [|cbn in K1, K2; lra|cbn in K1, K2; lra].
  assert (d = 1%R /\ dist = 0) as (-> & ->).
  { destruct TS as (g & ((k & K & T1) & CT & _) & TP & _). destruct (TP PK) as (ED & _ & AF). specialize (CT 0 ltac:(cbn; lia)). change (b_Yr good_params) with 2 in *. change (b_Yt good_params) with 2018 in *. change (b_Dt1 good_params) with 210 in *. change (o_ce o) with 736780 in *.
    assert (k = 0) as -> by lia. assert (t1 g = 736780) as E by lia. rewrite E in *. destruct (AF ltac:(lia)) as (j & _ & -> & _). split; [|lia]. apply bell_top. }
  assert (d' = 1%R) as -> by (apply Wd; cbn; lra).
  assert (may_use good_params hs (o, s, 0)) as MU.
  { split; [split; [reflexivity|right; cbn [fst snd]; intros x; rewrite Ed; intros [= <-]; lra]|]. cbn [fst snd].
    assert (s_c s = sigmoid (10 / 300 * (500 - 300 / 2))) as EC by (apply Wc; cbn; lra). assert (s_h s = sigmoid ((100 - 20) / 20)) as EH by (apply Wh; cbn; lra).
    pose proof (sigmoid_rises 0 (10 / 300 * (500 - 300 / 2)) ltac:(lra)). pose proof (sigmoid_rises 0 ((100 - 20) / 20) ltac:(lra)). rewrite sigmoid_half in *.
    split; intros K; [destruct K as (_ & _ & K & _)|destruct K as (_ & _ & K)]; lra. }
  destruct R as [(e & x & n & FB & C & SH)|(NO & _)]; [|exfalso; apply (NO (o, s, 0)); [now left|exact MU]].
  destruct (first_best_In _ _ _ _ _ FB) as ([<- |[]] & _).
  assert (n = 1) as ->. { inversion C; subst; [|contradiction]. match goal with H : counts _ [] _ |- _ => inversion H end. reflexivity. }
  destruct SH as (S1 & S2 & _ & S4). destruct (S4 eq_refl) as (l & _ & _ & _ & S5 & _). destruct r as [rb ri rs]. cbn in S1, S2, S5. subst. do 3 eexists. split; reflexivity.
Qed.

(** ** C54: the scores *)
Theorem C54_scores_follow_the_parameters b nb o c old : sane b -> usable b nb o -> o_valid o = true ->
  exists s dist t d y, score_one b (static_targets b) o c old = Ret (s, dist) /\
    s_t s = Some t /\ s_d s = Some d /\ s_y s = Some y /\
    (forall others, (w_r b <> 0%R -> likeness o others c) -> single_scores b o others s dist) /\
    total_score b d y (s_c s) (s_h s) (s_r s) (s_v s) t /\ (0 <= t <= 1)%R.
Proof.
  intros SN U V. destruct (score_full b SN nb o c old U V) as (s & dist & E & G & _).
  assert (forall others, (w_r b <> 0%R -> likeness o others c) -> single_scores b o others s dist) as SS by (intros others; apply single_ok; auto).
  destruct G as (t & d & y & d' & y' & -> & _ & _ & _ & T & TR & _). do 5 eexists. split; [exact E|]. cbn [s_t s_d s_y s_c s_h s_r s_v]. split; [reflexivity|]. split; [reflexivity|]. split; [reflexivity|]. auto.
Qed.

(** The Gaussian passes through the configured scores and decreases away from the target. *)
Theorem C54_bell_through_configured_points top side width : (0 < side < top)%R -> width <> 0 ->
  bell top side 0 width = top /\ bell top side width width = side /\ bell top side (- width) width = side /\
  forall x x', Z.abs x < Z.abs x' -> (0 < bell top side x' width < bell top side x width)%R.
Proof.
  intros H W. split; [apply bell_top|]. split; [now apply bell_side|]. split; [rewrite bell_neg; now apply bell_side|]. intros x x' L.
  split; [now apply bell_range|now apply bell_falls].
Qed.

(** An observation closer to the target, on the same side, has a higher DOY score; so has
    one of a year closer to the target year. *)
Theorem C54_closer_is_better b nb o o' c c' old old' T : sane b -> peak b -> usable b nb o -> usable b nb o' -> o_valid o = true -> o_valid o' = true -> w_d b <> 0%R ->
  (exists k, - b_Yr b <= k <= b_Yr b /\ T = (b_Yt b + k) * 365 + b_Dt1 b) ->
  (forall q, q = o \/ q = o' -> forall k, - b_Yr b <= k <= b_Yr b -> (b_Yt b + k) * 365 + b_Dt1 b <> T -> Z.abs (o_ce q - T) < Z.abs (o_ce q - ((b_Yt b + k) * 365 + b_Dt1 b))) ->
  (T <= o_ce o < o_ce o' \/ o_ce o' < o_ce o <= T) ->
  exists s dist s' dist' d d', score_one b (static_targets b) o c old = Ret (s, dist) /\ score_one b (static_targets b) o' c' old' = Ret (s', dist') /\
    s_d s = Some d /\ s_d s' = Some d' /\ (d' < d)%R.
Proof.
  intros SN PK U U' V V' WD (k0 & K0 & ET) CL SIDE. pose proof PK as (P1 & P2 & P3 & P4).
  destruct (score_full b SN nb o c old U V) as (s & dist & E & (t & d & y & d' & y' & -> & TS & Wd & _) & _).
  destruct (score_full b SN nb o' c' old' U' V') as (s' & dist' & E' & (tt & dd & yy & dd' & yy' & -> & TS' & Wd' & _) & _).
  do 6 eexists. split; [exact E|]. split; [exact E'|]. split; [reflexivity|]. split; [reflexivity|].
  assert (d' = d) as -> by (now apply Wd). assert (dd' = dd) as -> by (now apply Wd').
  assert (forall q, (forall k, - b_Yr b <= k <= b_Yr b -> (b_Yt b + k) * 365 + b_Dt1 b <> T -> Z.abs (o_ce q - T) < Z.abs (o_ce q - ((b_Yt b + k) * 365 + b_Dt1 b))) ->
    forall g, closest_target b (o_ce q) g -> t1 g = T) as UN.
  { intros q Q g ((k & K & EK) & M & _). destruct (Z.eq_dec (t1 g) T) as [|N]; auto. exfalso. specialize (Q k K ltac:(lia)). specialize (M k0 K0). lia. }
  destruct TS as (g & CG & TP & _). destruct TS' as (g' & CG' & TP' & _). destruct (TP PK) as (_ & B & A). destruct (TP' PK) as (_ & B' & A').
  pose proof (UN o (CL o (or_introl eq_refl)) g CG) as G1. pose proof (UN o' (CL o' (or_intror eq_refl)) g' CG') as G2.
  destruct CG as (_ & _ & T0 & M0 & T2 & M2). destruct CG' as (_ & _ & T0' & M0' & T2' & M2'). rewrite G1 in *. rewrite G2 in *.
  pose proof (ac_days b (sn_accepted b SN)) as (D0 & D1 & D2).
  assert (forall z z' m, T - 365 < z <= T -> T - 365 < z' <= T -> (z - m) mod 365 = 0 -> (z' - m) mod 365 = 0 -> z = z') as U0 by (clear; intros; lia).
  assert (forall z z' m, T <= z < T + 365 -> T <= z' < T + 365 -> (z - m) mod 365 = 0 -> (z' - m) mod 365 = 0 -> z = z') as U2 by (clear; intros; lia).
  pose proof (U0 _ _ _ T0 T0' M0 M0') as EQ0. pose proof (U2 _ _ _ T2 T2' M2 M2') as EQ2.
  assert (t0 g <> T) as N0. { intros Q. apply P3. rewrite Q, ET in M0. clear - M0 D0 D1. lia. }
  assert (t2 g <> T) as N2. { intros Q. apply P4. rewrite Q, ET in M2. clear - M2 D2 D1. lia. }
  destruct SIDE as [S|S].
  - destruct (A ltac:(lia)) as (j & _ & -> & _). destruct (A' ltac:(lia)) as (j' & _ & -> & _). rewrite <- EQ2. apply bell_falls; auto; lia.
  - destruct (B' ltac:(lia)) as (j' & _ & -> & _). destruct (Z.eq_dec (o_ce o) T) as [Q|Q].
    + destruct (A ltac:(lia)) as (j & _ & -> & _). rewrite Q, Z.sub_diag, bell_top. apply Rlt_le_trans with (bell (b_Ds1 b) (b_Ds0 b) 0 (T - t0 g')); [apply bell_falls; auto; lia|rewrite bell_top; lra].
    + destruct (B ltac:(lia)) as (j & _ & -> & _). rewrite <- EQ0. apply bell_falls; auto; lia.
Qed.
Example C54_example : let o := scene 200 2018 [1] in let o' := scene 150 2018 [1] in
  exists s dist s' dist' d d', score_one good_params (static_targets good_params) o 0 (mkScores None None None 0 0 0 0, 0) = Ret (s, dist) /\
    score_one good_params (static_targets good_params) o' 0 (mkScores None None None 0 0 0 0, 0) = Ret (s', dist') /\ s_d s = Some d /\ s_d s' = Some d' /\ (d' < d)%R.
Proof.
  apply (C54_closer_is_better good_params 1 _ _ _ _ _ _ (2018 * 365 + 210)); auto; try (constructor; cbn; unfold in_short; lia).
  - apply good_params_sane.
  - unfold peak. cbn. repeat split; try lra; lia.
  - cbn. lra.
  - exists 0. cbn. lia.
  - intros q Q k K N. cbn in K, N |- *. destruct Q as [-> | ->]; cbn [o_ce scene]; lia.
Qed.

(** Half of the maximum at the configured distances, monotone elsewhere. *)
Theorem C54_sigmoid_half_way : sigmoid 0 = (1 / 2)%R /\ (forall x, 0 < sigmoid x < 1)%R /\ forall x y, (x < y -> sigmoid x < sigmoid y)%R.
Proof. split; [apply sigmoid_half|]. split; [apply sigmoid_range|apply sigmoid_rises]. Qed.
Example C54_sigmoid_points : sigmoid (10 / 300 * (150 - 300 / 2)) = (1 / 2)%R /\ sigmoid ((100 - 100) / 20) = (1 / 2)%R.
Proof. split; rewrite <- sigmoid_half; f_equal; field. Qed.

(** ** C55: every accepted parameter file defines the composite *)
Theorem C55_composite_defined_partial b scale bands nb nodata os old :
  sane b -> Forall (usable b nb) os -> (water_pixel os -> water_bands scale bands os) -> zlen os <= 32767 -> length old = length os ->
  Forall (fun o => Forall in_short (o_dat o)) os -> b_select b = true \/ out_bap b = true ->
  exists r fin, pixel b (static_targets b) scale bands nb nodata os old = Ret (r, fin).
Proof.
  intros SN US WB M LO VA SEL. destruct (pixel_stage b scale bands nb nodata os SN US WB old LO) as (fin & LF & H & ->).
  destruct (haze_exists b (combine os (map fst fin))) as (hs & HZ). destruct (b_select b).
  - destruct (compositing_ok b scale bands nb nodata os SN US WB M fin LF H hs HZ) as (r & -> & _). cbn [bind]. eauto.
  - destruct SEL as [SEL|SEL]; [discriminate|]. destruct (weighting_ok b scale bands nb nodata os US WB M VA fin SEL LF H hs HZ) as (r & us & -> & _). cbn [bind]. eauto.
Qed.
Example C55_example : exists r fin, pixel good_params (static_targets good_params) 10000 None 3 (-9999) scenes (repeat (mkScores None None None 0 0 0 0, 0) 3) = Ret (r, fin).
Proof. destruct scenes_usable as (U & M & V & W). apply C55_composite_defined_partial; auto; [apply good_params_sane|tauto]. Qed.

Definition simple (ds0 ds1 ds2 yf : R) (select img : bool) : bap :=
  mkBap 2018 0 yf 60 210 300 ds0 ds1 ds2 false false false select false 1 0 0 0 0 0 300 100 20 img true true (fun _ _ => (0%R, 0%R)).
Lemma simple_accepted ds0 ds1 ds2 yf s p : (0 <= ds0 <= 1 -> 0 <= ds1 <= 1 -> 0 <= ds2 <= 1 -> 0 <= yf)%R -> (0 <= ds0 <= 1)%R -> (0 <= ds1 <= 1)%R -> (0 <= ds2 <= 1)%R -> accepted (simple ds0 ds1 ds2 yf s p).
Proof. intros. constructor; unfold simple, weights_ok; cbn [b_Yt b_Yr b_Yf b_Dt0 b_Dt1 b_Dt2 b_Ds0 b_Ds1 b_Ds2 w_d w_y w_c w_h w_r w_v b_dreq b_hreq b_vreq]; try lia; try lra; auto. Qed.

(** DOY_SCORE = 0.5 0.4 0.5: the score is not a number and no observation is selected. *)
Theorem C55_valley_refuted : let b := simple (5 / 10) (4 / 10) (5 / 10) 3 true true in
  accepted b /\ Forall (usable b 3) [scene 200 2018 [1; 2; 3]] /\
  pixel b (static_targets b) 10000 None 3 (-9999) [scene 200 2018 [1; 2; 3]] [(mkScores None None None 0 0 0 0, 0)] = UB.
Proof.
  set (o := scene 200 2018 [1; 2; 3]). set (b := simple (5 / 10) (4 / 10) (5 / 10) 3 true true).
  split; [apply simple_accepted; lra|]. split; [repeat constructor; cbn; unfold in_short; lia|].
  unfold pixel. assert (is_water [o] = false) as -> by (vm_compute; reflexivity).
  assert (forall x, x = 0%R -> positive x = false) as PZ by (intros x ->; destruct (positive 0) eqn:E; auto; apply positive_ok in E; lra).
  rewrite (PZ (w_r b)) by reflexivity. cbn [map bind combine omap fst snd].
  assert (score_type b = Gauss) as ST. { unfold score_type. cbn [b simple b_Ds0 b_Ds1 b_Ds2]. repeat (destruct (Rlt_dec _ _); try lra); reflexivity. }
  assert (tail_width (736630 - 736780) (5 / 10) (4 / 10) = NotANumber) as TW.
  { unfold tail_width. rewrite !isnull_no by lra. destruct (Rlt_dec 0 (ln (5 / 10 / (4 / 10)))) as [|N]; auto. exfalso. apply N. rewrite <- ln_1. apply ln_increasing; lra. }
  assert (forall old, score_one b (static_targets b) o 0 old = Ret (mkScores None None (Some 0%R) 0 0 0 0, -10)) as SC.
  { intros old. unfold score_one. cbn [o scene o_valid negb].
    assert (closest (static_targets b) (o_ce o) = Some (mkTarget 736630 736780 736870 (tail_width (736630 - 736780) (5 / 10) (4 / 10)) (tail_width (736870 - 736780) (5 / 10) (4 / 10)) (0%R, 0%R))) as CE by reflexivity.
    fold o. rewrite CE. cbn [of_option bind t0 t1 t2]. replace ((736630 <? 693500) || (736780 <? 693500) || (736870 <? 693500)) with false by reflexivity.
    unfold temporal. rewrite ST. cbn [t0 t1 t2 t_a t_b]. change (o_ce o) with 736770. cbn [b_Ds1].
    rewrite chk_ok by (unfold in_int; lia). cbn [bind]. replace (736770 <? 736780) with true by reflexivity.
    destruct (slice_ok b (736780 - 736630) ltac:(cbn; lia) ltac:(cbn; lra) ltac:(lia)) as (k & -> & K). cbn [bind].
    change (Z.abs (o_year o - b_Yt b)) with 0. rewrite square_ok by lia. cbn [bind]. rewrite TW. cbn [gauss].
    rewrite (isnull_no (w_d b)) by (cbn; lra). replace (isnull (w_y b)) with true by (symmetry; now apply isnull_ok).
    unfold cloud_score, haze_score, cor_score, view_score. rewrite (PZ (w_c b)), (PZ (w_h b)), (PZ (w_r b)), (PZ (w_v b)) by reflexivity.
    unfold total, combine_with. cbn [s_d s_y s_c s_h s_r s_v]. rewrite (PZ (w_c b)), (PZ (w_h b)), (PZ (w_r b)), (PZ (w_v b)), (PZ (w_y b)) by reflexivity.
    assert (positive (w_d b) = true) as -> by (apply positive_ok; cbn; lra). reflexivity. }
  rewrite SC. cbn [bind map fst snd combine]. change (b_select b) with true. cbn iota. unfold compositing. cbn [fold_left]. unfold select_step. cbn [fst snd].
  assert (forall hz, skipped b hz o (mkScores None None (Some 0%R) 0 0 0 0) = false) as SK.
  { intros hz. unfold skipped, off_season. cbn [s_d s_h s_c o scene o_valid negb num_lt]. rewrite (PZ (w_h b)), (PZ (w_c b)) by reflexivity. rewrite !andb_false_r. reflexivity. }
  rewrite SK. cbn [s_t]. reflexivity.
Qed.

(** Y_FACTOR = 0: division by zero and conversion of infinity. *)
Theorem C55_zero_factor_refuted : let b := simple (1 / 100) 1 (1 / 100) 0 true true in
  accepted b /\ Forall (usable b 3) [scene 200 2018 [1; 2; 3]] /\
  pixel b (static_targets b) 10000 None 3 (-9999) [scene 200 2018 [1; 2; 3]] [(mkScores None None None 0 0 0 0, 0)] = UB.
Proof.
  set (o := scene 200 2018 [1; 2; 3]). set (b := simple (1 / 100) 1 (1 / 100) 0 true true).
  split; [apply simple_accepted; lra|]. split; [repeat constructor; cbn; unfold in_short; lia|].
  unfold pixel. assert (forall x, x = 0%R -> positive x = false) as PZ by (intros x ->; destruct (positive 0) eqn:E; auto; apply positive_ok in E; lra).
  rewrite (PZ (w_r b)) by reflexivity. cbn [map bind combine omap fst snd].
  assert (score_type b = Gauss) as ST. { unfold score_type. cbn [b simple b_Ds0 b_Ds1 b_Ds2]. repeat (destruct (Rlt_dec _ _); try lra); reflexivity. }
  assert (forall old, score_one b (static_targets b) o 0 old = UB) as SC.
  { intros old. unfold score_one. cbn [o scene o_valid negb]. fold o.
    assert (closest (static_targets b) (o_ce o) = Some (static_target b 0)) as -> by reflexivity. cbn [of_option bind].
    change (t0 (static_target b 0)) with 736630. change (t1 (static_target b 0)) with 736780. change (t2 (static_target b 0)) with 736870.
    replace ((736630 <? 693500) || (736780 <? 693500) || (736870 <? 693500)) with false by reflexivity.
    unfold temporal. rewrite ST. change (t0 (static_target b 0)) with 736630. change (t1 (static_target b 0)) with 736780. change (o_ce o) with 736770.
    rewrite chk_ok by (unfold in_int; lia). cbn [bind]. replace (736770 <? 736780) with true by reflexivity.
    unfold slice. assert (isnull (IZR (b_Yr b + 1) * b_Yf b) = true) as -> by (apply isnull_ok; cbn; lra). reflexivity. }
  rewrite SC. reflexivity.
Qed.

(** SELECT = FALSE without the composite among the outputs. *)
Theorem C55_average_without_output_refuted : let b := simple (1 / 100) 1 (1 / 100) 3 false false in
  accepted b /\ pixel b (static_targets b) 10000 None 3 (-9999) [] [] = UB.
Proof.
  set (b := simple _ _ _ _ _ _). split; [apply simple_accepted; lra|]. unfold pixel. destruct (positive (w_r b)); reflexivity.
Qed.

(** ** C56: averaging *)
Theorem C56_pixel_averages_observations b scale bands nb nodata os old :
  sane b -> Forall (usable b nb) os -> (water_pixel os -> water_bands scale bands os) -> zlen os <= 32767 -> length old = length os ->
  Forall (fun o => Forall in_short (o_dat o)) os -> b_select b = false -> out_bap b = true ->
  exists r fin hs us, pixel b (static_targets b) scale bands nb nodata os old = Ret (r, fin) /\ length fin = length os /\
    (forall before o after, os = before ++ o :: after -> o_valid o = true -> exists s dist, get_at fin (zlen before) = Some (s, dist) /\ pixel_scores b scale bands os o (before ++ after) s dist) /\
    haze_scores b (combine os (map fst fin)) hs /\ all_usable b hs (elements os fin) us /\
    ((0 < sum (score_of s_t) us)%R -> averages b os nb nodata us r) /\ ((sum (score_of s_t) us <= 0)%R -> shows_nothing b nb nodata r).
Proof.
  intros SN US WB M LO VA SEL OB. destruct (pixel_stage b scale bands nb nodata os SN US WB old LO) as (fin & LF & H & ->). rewrite SEL.
  destruct (haze_exists b (combine os (map fst fin))) as (hs & HZ).
  destruct (weighting_ok b scale bands nb nodata os US WB M VA fin OB LF H hs HZ) as (r & us & -> & AU & R). cbn [bind]. exists r, fin, hs, us. split; auto. split; [unfold zlen in LF; lia|].
  split; [|auto]. intros before o after EO V. destruct (H before o after EO V) as (s & dist & G & P & _). eauto.
Qed.
(** The average lies between the smallest and the largest usable value. *)
Theorem C56_average_between_extremes b scale bands nb nodata os old lo hi k :
  sane b -> Forall (usable b nb) os -> (water_pixel os -> water_bands scale bands os) -> zlen os <= 32767 -> length old = length os ->
  Forall (fun o => Forall in_short (o_dat o)) os -> b_select b = false -> out_bap b = true ->
  (forall o v, In o os -> o_valid o = true -> get_at (o_dat o) k = Some v -> lo <= v <= hi) -> 0 <= k < Z.of_nat nb ->
  exists r fin, pixel b (static_targets b) scale bands nb nodata os old = Ret (r, fin) /\
    exists l v, r_bap r = Some l /\ get_at l k = Some v /\ (v = nodata \/ lo <= v <= hi).
Proof.
  intros SN US WB M LO VA SEL OB EX K. destruct (C56_pixel_averages_observations b scale bands nb nodata os old SN US WB M LO VA SEL OB) as (r & fin & hs & us & E & LF & SC & HZ & AU & AV & NO).
  exists r, fin. split; auto. destruct (Rlt_dec 0 (sum (score_of s_t) us)) as [P|P].
  - destruct (AV P) as ((l & EL & LL & GL) & _). destruct (get_at_some l k) as (v & Gv); [unfold zlen; lia|]. exists l, v. split; auto. split; auto. right.
    pose proof (GL k v Gv) as IP. destruct AU as (keep & KP & EU). rewrite Forall_forall in KP.
    assert (IZR lo <= sum (fun e => score_of s_t e * band_of k e) us / sum (score_of s_t) us <= IZR hi)%R as B.
    { apply mean_between; auto. intros ((o, s), dist) I. rewrite EU in I. apply filter_In in I. destruct I as (I & Kp). apply (KP _ I) in Kp. pose proof (may_use_valid _ _ _ Kp) as V. cbn [fst] in V.
      assert (In o os) as Io by (unfold elements in I; apply in_combine_l in I; now apply in_combine_l in I). rewrite Forall_forall in US. pose proof (US o Io) as U.
      split.
      - apply In_get_at in I. destruct I as (i & _ & G). unfold elements in G. rewrite !get_combine, !get_map in G. destruct (get_at os i) as [o'|] eqn:Go; [|discriminate]. destruct (get_at fin i) as [(s', d')|] eqn:Gf; [|discriminate].
        cbn [option_map fst snd] in G. injection G as -> -> ->. destruct (pixel_stage b scale bands nb nodata os SN (proj2 (Forall_forall _ _) US) WB old LO) as (fin2 & LF2 & H2 & E2).
        assert (fin2 = fin) as ->. { rewrite E2 in E. destruct (if b_select b then _ else _) in E; try discriminate. cbn [bind] in E. congruence. }
        destruct (split_at _ _ _ Go) as (p & q & EO & LP). destruct (H2 p o q EO V) as (s2 & d2 & G2 & _ & ((t & d & y & T & _ & _ & (T0 & _) & _) & _)). rewrite LP, Gf in G2. injection G2 as -> ->. unfold score_of. cbn [fst snd]. rewrite T. exact T0.
      - unfold band_of. cbn [fst snd]. destruct (get_at_some (o_dat o) k) as (z & Gz). { unfold zlen. rewrite (us_bands _ _ _ U). lia. } rewrite Gz. destruct (EX o z Io V Gz). split; now apply IZR_le. }
    set (x := (sum (fun e => score_of s_t e * band_of k e) us / sum (score_of s_t) us)%R) in *. destruct IP as (I1 & I2).
    destruct (Rle_lt_dec 0 x) as [X|X].
    + specialize (I1 X). split; [|apply le_IZR; lra]. assert (lo < v + 1) by (apply lt_IZR; rewrite plus_IZR; lra). lia.
    + specialize (I2 X). split; [apply le_IZR; lra|]. assert (v - 1 < hi) by (apply lt_IZR; rewrite minus_IZR; lra). lia.
  - destruct (NO ltac:(lra)) as (EB & _). rewrite OB in EB. exists (repeat nodata nb), nodata. split; auto. split; auto. rewrite <- (Nat2Z.id nb). apply get_repeat. lia.
Qed.
Definition average_params := params (1 / 100) 1 (1 / 100) 3 false true.
Example C56_example : exists r fin, pixel average_params (static_targets average_params) 10000 None 3 (-9999) scenes (repeat (mkScores None None None 0 0 0 0, 0) 3) = Ret (r, fin) /\
  exists l v, r_bap r = Some l /\ get_at l 0 = Some v /\ (v = -9999 \/ 300 <= v <= 310).
Proof.
  destruct scenes_usable as (U & M & V & W). apply C56_average_between_extremes; auto; try (cbn; lia).
  - destruct good_params_sane as [A B C D]. constructor; [destruct A; constructor|..]; assumption.
  - eapply Forall_impl; [|exact U]. intros o [A1 A2 A3 A4 A5 A6]. constructor; assumption.
  - intros o v [<- |[<- |[<- |[]]]] VA G; cbn in VA; try discriminate; cbn in G; injection G as <-; lia.
Qed.

(** ** C57: no memory of earlier pixels *)
Theorem C57_pixel_independent_of_history b scale bands nb nodata os old old' :
  sane b -> Forall (usable b nb) os -> length old = length os -> length old' = length os ->
  (water_pixel os -> water_bands scale bands os) -> zlen os <= 32767 -> Forall (fun o => Forall in_short (o_dat o)) os -> b_select b = true \/ out_bap b = true ->
  exists r fin fin', pixel b (static_targets b) scale bands nb nodata os old = Ret (r, fin) /\ pixel b (static_targets b) scale bands nb nodata os old' = Ret (r, fin').
Proof.
  intros SN US LO LO' WB M VA SEL.
  destruct (C55_composite_defined_partial b scale bands nb nodata os old SN US WB M LO VA SEL) as (r & fin & E).
  destruct (C55_composite_defined_partial b scale bands nb nodata os old' SN US WB M LO' VA SEL) as (r' & fin' & E').
  exists r, fin, fin'. split; auto. rewrite E'. rewrite (pixel_fresh b scale bands nb nodata os old old' SN US LO LO' r fin r' fin' E E'). reflexivity.
Qed.
Example C57_example : exists r fin fin',
  pixel good_params (static_targets good_params) 10000 None 3 (-9999) scenes (repeat (mkScores None None None 0 0 0 0, 0) 3) = Ret (r, fin) /\
  pixel good_params (static_targets good_params) 10000 None 3 (-9999) scenes (repeat (mkScores (Some 1%R) (Some 1%R) (Some 1%R) 1 1 1 1, 77) 3) = Ret (r, fin').
Proof. destruct scenes_usable as (U & M & V & W). apply C57_pixel_independent_of_history; auto; [apply good_params_sane|tauto]. Qed.

(** ** C58: likeness to the other observations *)
Theorem C58_correlation_with_the_others before a after nb : Forall (fun o => length (o_dat o) = nb) (before ++ a :: after) ->
  exists c, cor_mean (before ++ a :: after) (zlen before) a = Ret c /\ likeness a (before ++ after) c /\ (c <= 1)%R /\
    (o_valid a = true -> varies (map IZR (o_dat a)) -> (exists o, In o (before ++ after) /\ o_valid o = true /\ varies (map IZR (o_dat o))) -> (0 <= c)%R).
Proof.
  intros F. destruct (cor_mean_ok before a after nb F) as (l & P & E). eexists. split; [exact E|].
  assert (Forall (fun r => 0 <= r <= 1)%R l) as R.
  { apply Forall_app in F. destruct F as (F1 & F2). inversion F2; subst. eapply (partners_range a (before ++ after)); [reflexivity| |exact P]. apply Forall_app. auto. }
  split; [|split].
  - exists l. split; auto. split; [intros N; destruct l; [congruence|reflexivity]|]. intros ->. destruct before; unfold no_cor; lra.
  - destruct l as [|r l]; [destruct before; unfold no_cor; lra|]. apply mean_unit; auto. discriminate.
  - intros V VA (o & I & Vo & VO). destruct l as [|r l]; [|apply mean_unit; auto; discriminate]. exfalso. clear - P V VA I Vo VO.
    remember [] as l eqn:EL. induction P as [|q os l C P IH|q os l C P IH]; [destruct I|discriminate|]. destruct I as [<- |I]; [apply C; unfold comparable; auto|auto].
Qed.
Example C58_example : exists c, cor_mean [scene 1 2018 [1; 2; 3]; scene 2 2018 [2; 4; 6]] 0 (scene 1 2018 [1; 2; 3]) = Ret c /\ (0 <= c <= 1)%R.
Proof.
  destruct (C58_correlation_with_the_others [] (scene 1 2018 [1; 2; 3]) [scene 2 2018 [2; 4; 6]] 3 ltac:(repeat constructor)) as (c & E & _ & U & P).
  exists c. split; [exact E|]. split; auto. apply P; auto.
  - unfold varies, dev, mean, size. cbn. lra.
  - eexists. split; [left; reflexivity|]. split; auto. unfold varies, dev, mean, size. cbn. lra.
Qed.

(** ** C59: weights of zero *)

(** Without weights for clouds and haze, and with OFF_SEASON = TRUE, every valid
    observation takes part. *)
Theorem C59_zero_weights_keep_observations_partial b scale bands nb nodata os old n :
  sane b -> Forall (usable b nb) os -> (water_pixel os -> water_bands scale bands os) -> zlen os <= 32767 -> length old = length os -> b_select b = true ->
  w_c b = 0%R -> w_h b = 0%R -> b_offsea b = true -> out_inf b = true -> counts (fun o => o_valid o = true) os n ->
  exists r fin l, pixel b (static_targets b) scale bands nb nodata os old = Ret (r, fin) /\ r_inf r = Some l /\ get_at l 1 = Some n.
Proof.
  intros SN US WB M LO SEL WC WH OFF OI CN. destruct (C53_pixel_shows_best_observation b scale bands nb nodata os old SN US WB M LO SEL) as (r & fin & hs & E & LF & _ & _ & R).
  assert (forall e, may_use b hs e <-> o_valid (fst (fst e)) = true) as MU.
  { intros e. unfold may_use, eligible, in_season. rewrite OFF. split; [tauto|]. intros V. split; [auto|]. split; intros (_ & K & _); lra. }
  assert (counts (may_use b hs) (elements os fin) n) as CE.
  { unfold elements. clear - MU CN LF. revert fin LF. induction CN as [|o os n V CN IH|o os n V CN IH]; intros [|(s, d) fin] LF; cbn [length map combine fst snd] in *; try discriminate; [constructor|..].
    - apply cnt_yes; [now apply MU|apply IH; lia].
    - apply cnt_no; [intros K; apply MU in K; contradiction|apply IH; lia]. }
  destruct R as [((( o, s), dist) & x & m & FB & C & SH)|(NO & SH)].
  - rewrite (counts_fun _ _ _ CE _ C). destruct SH as (_ & SI & _). rewrite OI in SI. do 3 eexists. split; [exact E|]. split; [exact SI|]. reflexivity.
  - assert (n = 0) as ->. { clear - CE NO. induction CE as [|e l n H CE IH|e l n H CE IH]; auto; [exfalso; apply (NO e); [now left|exact H]|apply IH; intros f I; apply NO; now right]. }
    destruct SH as (_ & SI & _). rewrite OI in SI. do 3 eexists. split; [exact E|]. split; [exact SI|]. reflexivity.
Qed.

Definition lenient : bap :=
  mkBap 2018 2 3 60 210 300 (1 / 100) 1 (1 / 100) true false false true false 1 1 0 0 0 0 300 100 20 true true true (fun _ _ => (0%R, 0%R)).
Example C59_example_partial : exists r fin l, pixel lenient (static_targets lenient) 10000 None 3 (-9999) scenes (repeat (mkScores None None None 0 0 0 0, 0) 3) = Ret (r, fin) /\ r_inf r = Some l /\ get_at l 1 = Some 2.
Proof.
  destruct scenes_usable as (U & M & V & W). apply C59_zero_weights_keep_observations_partial; auto; try tauto.
  - constructor; [constructor| | |]; unfold lenient, weights_ok, shaped, peak; cbn [b_Yt b_Yr b_Yf b_Dt0 b_Dt1 b_Dt2 b_Ds0 b_Ds1 b_Ds2 w_d w_y w_c w_h w_r w_v b_dreq b_hreq b_vreq]; try lia; try lra.
    left. repeat split; try lra; lia.
  - eapply Forall_impl; [|exact U]. intros o [A1 A2 A3 A4 A5 A6]. constructor; assumption.
  - apply (cnt_yes _ _ _ 1); [reflexivity|]. apply (cnt_yes _ _ _ 0); [reflexivity|]. apply cnt_no; [discriminate|constructor].
Qed.

(** SCORE_DOY_WEIGHT = 0 with OFF_SEASON = FALSE: nothing is ever shown. *)
Theorem C59_zero_doy_weight_refuted b scale bands nb nodata os old :
  sane b -> Forall (usable b nb) os -> (water_pixel os -> water_bands scale bands os) -> zlen os <= 32767 -> length old = length os -> b_select b = true ->
  w_d b = 0%R -> b_offsea b = false ->
  exists r fin, pixel b (static_targets b) scale bands nb nodata os old = Ret (r, fin) /\ shows_nothing b nb nodata r.
Proof.
  intros SN US WB M LO SEL WD OFF. destruct (C53_pixel_shows_best_observation b scale bands nb nodata os old SN US WB M LO SEL) as (r & fin & hs & E & LF & SC & _ & R).
  exists r, fin. split; auto. destruct R as [(((o, s), dist) & x & m & FB & _)|(_ & SH)]; auto. exfalso.
  destruct (first_best_In _ _ _ _ _ FB) as (I & ((V & SEA) & _)). cbn [fst snd] in V, SEA. destruct SEA as [K|K]; [congruence|].
  apply In_get_at in I. destruct I as (i & _ & G). unfold elements in G. rewrite !get_combine, !get_map in G. destruct (get_at os i) as [o'|] eqn:Go; [|discriminate]. destruct (get_at fin i) as [(s', d')|] eqn:Gf; [|discriminate].
  cbn [option_map fst snd] in G. injection G as -> -> ->. destruct (split_at _ _ _ Go) as (p & q & EO & LP). destruct (SC p o q EO V) as (s2 & d2 & G2 & PS). rewrite LP, Gf in G2. injection G2 as <- <-.
  destruct PS as (((d & y & d' & y' & _ & Wd & _ & Ed & _) & _) & _). specialize (K _ Ed). rewrite (proj1 Wd WD) in K. lra.
Qed.
Definition zero_doy : bap :=
  mkBap 2018 2 3 60 210 300 (1 / 100) 1 (1 / 100) false false false true false 0 1 0 0 0 0 300 100 20 true true true (fun _ _ => (0%R, 0%R)).
Example C59_example : exists r fin, pixel zero_doy (static_targets zero_doy) 10000 None 3 (-9999) scenes (repeat (mkScores None None None 0 0 0 0, 0) 3) = Ret (r, fin) /\ r_bap r = Some [-9999; -9999; -9999].
Proof.
  destruct scenes_usable as (U & M & V & W).
  destruct (C59_zero_doy_weight_refuted zero_doy 10000 None 3 (-9999) scenes (repeat (mkScores None None None 0 0 0 0, 0) 3)) as (r & fin & E & (B & _)); auto; try tauto.
  - constructor; [constructor| | |]; unfold zero_doy, weights_ok, shaped, peak; cbn [b_Yt b_Yr b_Yf b_Dt0 b_Dt1 b_Dt2 b_Ds0 b_Ds1 b_Ds2 w_d w_y w_c w_h w_r w_v b_dreq b_hreq b_vreq]; try lia; try lra.
    left. repeat split; try lra; lia.
  - eapply Forall_impl; [|exact U]. intros o [A1 A2 A3 A4 A5 A6]. constructor; assumption.
  - exists r, fin. split; [exact E|]. exact B.
Qed.

Print Assumptions C53_pixel_shows_best_observation.
Print Assumptions C54_scores_follow_the_parameters.
Print Assumptions C54_bell_through_configured_points.
Print Assumptions C54_closer_is_better.
Print Assumptions C54_sigmoid_half_way.
Print Assumptions C55_composite_defined_partial.
Print Assumptions C55_valley_refuted.
Print Assumptions C55_zero_factor_refuted.
Print Assumptions C55_average_without_output_refuted.
Print Assumptions C56_pixel_averages_observations.
Print Assumptions C56_average_between_extremes.
Print Assumptions C57_pixel_independent_of_history.
Print Assumptions C58_correlation_with_the_others.
Print Assumptions C59_zero_weights_keep_observations_partial.
Print Assumptions C59_zero_doy_weight_refuted.
