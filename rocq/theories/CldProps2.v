(** Cloud cover threshold, tests of single pixels and Sentinel-2 clouds (C110, C112-C114). *)
From Coq Require Import Reals Lra.
From Flocq Require Import Core.
From Verif Require Import Base BaseFacts Loops LoopsFacts RoundModel RoundFacts ImgSpec ImgFacts ChunkProofs BapCor
  QaiModel QaiSpec QaiProofs BufferModel QueueModel CldModel CldSpec CldProofs CldTests CldGrow CldProps.
#[local] Open Scope Z_scope.

(** ** C110: cloud cover threshold *)
Lemma filter_le (Q qai : list Z) (f g : Z -> bool) : length Q = length qai ->
  (forall p w w', get_at qai p = Some w -> get_at Q p = Some w' -> f w' = true -> g w = true) -> zlen (filter f Q) <= zlen (filter g qai).
Proof.
  revert qai. induction Q as [|a Q IH]; intros [|b qai] L H; try discriminate.
  assert (IH' : zlen (filter f Q) <= zlen (filter g qai)).
  { apply IH; [now injection L|]. intros p w w' G G'. pose proof (get_at_inv _ _ _ G) as B. apply (H (p + 1)); rewrite get_cons_S by lia; replace (p + 1 - 1) with p by lia; auto. }
  pose proof (H 0 b a eq_refl eq_refl) as H0. cbn [filter]. unfold zlen in *. destruct (f a); [rewrite H0 by reflexivity; cbn [length]; lia|]. destruct (g b); cbn [length]; lia.
Qed.
Definition validb (w : Z) : bool := flag_value Off w =? 0.
Lemma final_le qai cld shd cirrus nx ny rc ri rs Q k : image qai nx ny -> Forall in_short qai -> image cld nx ny -> image shd nx ny ->
  (forall c, cirrus = Some c -> image c nx ny) -> final_mask qai cld shd cirrus nx ny rc ri rs = Ret (Q, k) ->
  k = zlen (filter cloudy Q) /\ 0 <= k <= zlen (filter validb qai).
Proof.
  intros IQ SH IC IS IR E. destruct (final_mask_ok qai cld shd cirrus nx ny rc ri rs IQ SH IC IS IR) as (q & C & I & S & Q' & k' & _ & _ & _ & _ & _ & _ & EF & LQ & Ek & _ & H2).
  rewrite EF in E. injection E as -> ->. split; [exact Ek|]. rewrite Ek. split; [unfold zlen; lia|]. apply filter_le.
  - destruct IQ as (_ & _ & L & _). unfold zlen in *. lia.
  - intros p w w' G G' CL. destruct (H2 p w G) as (w2 & d & c & i & s & G2 & _ & _ & _ & _ & _ & _ & O & _). rewrite G' in G2. injection G2 as <-.
    unfold cloudy in CL. apply andb_prop in CL. destruct CL as (CL & _). unfold validb. rewrite <- (O Off) by discriminate. exact CL.
Qed.

(** For every image with more than 0.1% clear pixels (and at most 2^24 valid ones), as long as the
    share of detected clouds is below 0.8 times the threshold: the cloud cover is the share of
    cloud and shadow pixels of the final mask among the valid pixels up to 0.0001%, and the
    image is skipped exactly if the cloud cover is above the threshold.
    Partial: see the refutation. *)
Theorem C110_skip_partial : forall par nclear pcp cld shd qai cirrus nx ny res rc ri rs,
  image qai nx ny -> Forall in_short qai -> image cld nx ny -> image shd nx ny -> image pcp nx ny ->
  (forall c, cirrus = Some c -> image c nx ny /\ Forall (fun vz => (Rabs (snd vz) <= 9)%R) c) ->
  Forall (fun w => flag_value Cloud w = 0) qai -> (0 < res)%R ->
  (0 <= cldbuf par)%R -> (0 <= cirbuf par)%R -> (0 <= shdbuf par)%R ->
  pixels (cldbuf par) res rc -> pixels (cirbuf par) res ri -> pixels (shdbuf par) res rs -> (0 <= maxcc par <= 100)%R ->
  let npix := zlen (filter validb qai) in let ncloud := zlen (filter (fun b => b) cld) in
  0 < npix <= 2147483647 -> ncloud <= npix -> 0 <= nclear <= npix -> (101 / 1000 < 100 * IZR nclear / IZR npix)%R ->
  (100 * IZR ncloud / IZR npix < 8 / 10 * maxcc par - 1 / 1000)%R ->
  exists out cc r, detect_clouds par npix nclear pcp cld shd qai cirrus nx ny res = Ret (r, out, cc) /\
    (Rabs (cc - 100 * IZR (zlen (filter cloudy out)) / IZR npix) <= / 10000)%R /\
    ((maxcc par < cc)%R -> r = CANCEL) /\ ((cc <= maxcc par)%R -> r = SUCCESS) /\
    finalize_cloud par qai cld (if 0 <? ncloud then shd else repeat false (Z.to_nat (nx * ny))) cirrus nx ny res = Ret (out, zlen (filter cloudy out)).
Proof.
  intros par nclear pcp cld shd qai cirrus nx ny res rc ri rs IQ SH IC IS IP IR C0 RES B1 B2 B3 P1 P2 P3 MX. cbv zeta. intros NP NC NL CL CC.
  set (npix := zlen (filter validb qai)) in *. set (ncloud := zlen (filter (fun b => b) cld)) in *.
  assert (NC0 : 0 <= ncloud) by (unfold ncloud, zlen; lia).
  set (sh := if 0 <? ncloud then shd else repeat false (Z.to_nat (nx * ny))).
  assert (ISH : image sh nx ny). { unfold sh. destruct (0 <? ncloud); [exact IS|]. destruct IS as (A & B & _ & D). split; [auto|split; [auto|split; [rewrite zlen_repeat; nia|auto]]]. }
  destruct (C108_flags_partial par qai cld sh cirrus nx ny res rc ri rs IQ SH IC ISH IR C0 RES B1 B2 B3 P1 P2 P3) as (out & k & EF & _ & Ek & _).
  assert (KB : 0 <= k <= npix).
  { unfold finalize_cloud in EF. destruct (buffer_of (cldbuf par) res) as [a| |]; try discriminate. destruct (buffer_of (cirbuf par) res) as [b| |]; try discriminate. destruct (buffer_of (shdbuf par) res) as [c| |]; try discriminate. cbn [bind] in EF.
    apply (final_le qai cld sh cirrus nx ny a b c out k IQ SH IC ISH (fun c E => proj1 (IR c E)) EF). }
  exists out, (percent k npix), (if Rlt_bool (maxcc par) (percent k npix) then CANCEL else SUCCESS). split.
  - unfold detect_clouds. assert (negb (npix =? 0) = true) as -> by lia.
    assert (T1 : Rlt_bool (dbl 1 10) (rnd64 (100 * IZR nclear / rnd32 (IZR npix))) = true).
    { apply Rlt_bool_true. pose proof (dbl_err 1 10 ltac:(lia) ltac:(lia)) as D. apply Rabs_le_inv in D.
      assert (Rabs (rnd32 (IZR npix) - IZR npix) <= IZR npix / 16000000)%R as E1. { apply rnd32_err; [|rewrite Rabs_pos_eq by (apply IZR_le; lia); lra]. apply (IZR_le 1). lia. }
      apply Rabs_le_inv in E1. assert (N0 : (1 <= IZR npix)%R) by (apply (IZR_le 1); lia). assert (L0 : (0 <= IZR nclear)%R) by (apply IZR_le; lia). assert (L1 : (IZR nclear <= IZR npix)%R) by (apply IZR_le; lia).
      set (N := IZR npix) in *. set (m := rnd32 N) in *. set (L := IZR nclear) in *. clearbody N m L.
      assert (Q : (100 * L / N * (1 - / 10000000) <= 100 * L / m)%R).
      { apply Rmult_le_reg_r with m; [lra|]. replace (100 * L / m * m)%R with (100 * L)%R by (field; lra). apply Rmult_le_reg_r with N; [lra|].
        replace (100 * L / N * (1 - / 10000000) * m * N)%R with (100 * L * ((1 - / 10000000) * m))%R by (field; lra). apply Rmult_le_compat_l; [lra|]. lra. }
      assert (Q2 : (100 * L / m <= 101)%R). { apply Rmult_le_reg_r with m; [lra|]. replace (100 * L / m * m)%R with (100 * L)%R by (field; lra). lra. }
      assert (Q3 : (1009 / 10000 <= 100 * L / m)%R) by lra. clear Q.
      pose proof (rnd64_err (100 * L / m) 101 ltac:(lra) ltac:(rewrite Rabs_pos_eq; lra)) as E2. apply Rabs_le_inv in E2. unfold dbl in *. lra. }
    rewrite T1. cbn [andb]. change (count_true cld) with ncloud.
    assert (T2 : Rle_bool (percent ncloud npix) (rnd64 (maxcc par * dbl 8 10)) = true).
    { apply Rle_bool_true. pose proof (percent_err ncloud npix ltac:(lia) ltac:(lia)) as E. apply Rabs_le_inv in E.
      pose proof (dbl_err 8 10 ltac:(lia) ltac:(lia)) as D. apply Rabs_le_inv in D. set (e := dbl 8 10) in *. clearbody e.
      assert (M1 : (maxcc par * (8 / 10 - / 1000000) <= maxcc par * e)%R) by (apply Rmult_le_compat_l; lra).
      assert (M2 : (maxcc par * e <= maxcc par * 1)%R) by (apply Rmult_le_compat_l; lra). assert (M3 : (maxcc par * 0 <= maxcc par * e)%R) by (apply Rmult_le_compat_l; lra).
      pose proof (rnd64_err (maxcc par * e) 100 ltac:(lra) ltac:(rewrite Rabs_pos_eq; lra)) as E2. apply Rabs_le_inv in E2. lra. }
    rewrite T2. replace (ncloud >? 0) with (0 <? ncloud) by lia. fold sh. rewrite EF. reflexivity.
  - split; [rewrite <- Ek; apply percent_err; lia|]. split; [intros K; now rewrite Rlt_bool_true|]. split; [intros K; now rewrite Rlt_bool_false|]. rewrite <- Ek. exact EF.
Qed.
Print Assumptions C110_skip_partial.

(** C110 is refuted above 0.8 times the threshold.  Of 20 valid pixels 13 are clouds, there are
    neither shadows nor cirrus nor buffers: the final share is 65%, MAX_CLOUD_COVER_FRAME is 75,
    and the image is skipped. *)
Definition row20 : list Z := repeat 0 20.
Definition cld20 : list bool := repeat true 13 ++ repeat false 7.
Definition no20 : list bool := repeat false 20.
Definition par0 (m : R) : cldpar := mkPar m 0 0 0.
Lemma pixels_0 : pixels 0 30 0.
Proof. unfold pixels. split; [lia|]. unfold Rdiv. rewrite Rmult_0_l. lra. Qed.
Lemma finalize_0 : forall m qai cld shd cirrus nx ny, finalize_cloud (par0 m) qai cld shd cirrus nx ny 30 = final_mask qai cld shd cirrus nx ny None None None.
Proof.
  intros. unfold finalize_cloud. cbn [cldbuf cirbuf shdbuf par0].
  assert (buffer_of 0 30 = Ret None) as ->. { unfold buffer_of. rewrite (radius_ok _ _ _ pixels_0). cbn [bind chk_int in_intb Z.leb Z.compare Pos.compare Pos.compare_cont andb]. rewrite Rlt_bool_false by lra. reflexivity. }
  reflexivity.
Qed.
Lemma detect_above m : (0 <= m <= 80)%R -> exists out, detect_clouds (par0 m) 20 7 cld20 cld20 no20 row20 None 20 1 30 = Ret (if Rlt_bool m 100 then CANCEL else SUCCESS, out, 100%R) /\
  final_mask row20 cld20 (repeat true 20) None 20 1 None None None = Ret (out, 20).
Proof.
  intros M. eexists. split; [|vm_compute; reflexivity]. unfold detect_clouds.
  assert (negb (20 =? 0) = true) as -> by reflexivity.
  assert (R20 : rnd32 20 = 20%R) by (apply (rnd32_int 20); lia).
  assert (Rlt_bool (dbl 1 10) (rnd64 (100 * IZR 7 / rnd32 (IZR 20))) = true) as ->.
  { apply Rlt_bool_true. rewrite R20. replace (100 * 7 / 20)%R with (IZR 35) by lra. rewrite rnd64_int by lia. pose proof (dbl_err 1 10 ltac:(lia) ltac:(lia)) as D. apply Rabs_le_inv in D. lra. }
  cbn [andb]. change (count_true cld20) with 13.
  assert (Rle_bool (percent 13 20) (rnd64 (maxcc (par0 m) * dbl 8 10)) = false) as ->.
  { apply Rle_bool_false. pose proof (percent_err 13 20 ltac:(lia) ltac:(lia)) as E. apply Rabs_le_inv in E. cbn [maxcc par0].
    pose proof (dbl_err 8 10 ltac:(lia) ltac:(lia)) as D. apply Rabs_le_inv in D. set (e := dbl 8 10) in *. clearbody e.
    assert (M1 : (m * 0 <= m * e)%R) by (apply Rmult_le_compat_l; lra). assert (M2 : (m * e <= 80 * e)%R) by (apply Rmult_le_compat_r; lra).
    pose proof (rnd64_err (m * e) 100 ltac:(lra) ltac:(rewrite Rabs_pos_eq; lra)) as E2. apply Rabs_le_inv in E2. lra. }
  rewrite finalize_0. change (repeat true (Z.to_nat (20 * 1))) with (repeat true 20). set (f := final_mask row20 cld20 (repeat true 20) None 20 1 None None None). vm_compute in f. subst f. reflexivity.
Qed.
Theorem C110_threshold_refuted : exists par npix nclear pcp cld shd qai nx ny res o2 out,
  maxcc par = 75%R /\ npix = zlen (filter validb qai) /\ zlen (filter (fun b => b) cld) = 13 /\ npix = 20 /\
  finalize_cloud par qai cld shd None nx ny res = Ret (o2, 13) /\
  detect_clouds par npix nclear pcp cld shd qai None nx ny res = Ret (CANCEL, out, 100%R).
Proof.
  destruct (detect_above 75 ltac:(lra)) as (out & E & _). exists (par0 75), 20, 7, cld20, cld20, no20, row20, 20, 1, 30%R.
  eexists. exists out. split; [reflexivity|]. split; [reflexivity|]. split; [reflexivity|]. split; [reflexivity|]. split; [rewrite finalize_0; vm_compute; reflexivity|].
  rewrite E. rewrite Rlt_bool_true by lra. reflexivity.
Qed.
Print Assumptions C110_threshold_refuted.

(** The hypotheses of C110_skip_partial are met: two cloud pixels of 20 and the threshold 75. *)
Example C110_example : let cld := repeat true 2 ++ repeat false 18 in image row20 20 1 /\ image cld 20 1 /\ pixels (cldbuf (par0 75)) 30 0 /\
  zlen (filter validb row20) = 20 /\ zlen (filter (fun b => b) cld) = 2 /\ (101 / 1000 < 100 * IZR 18 / IZR 20)%R /\ (100 * IZR 2 / IZR 20 < 8 / 10 * maxcc (par0 75) - 1 / 1000)%R.
Proof.
  cbv zeta. split; [repeat split; cbv; congruence|]. split; [repeat split; cbv; congruence|]. split; [exact pixels_0|]. split; [reflexivity|]. split; [reflexivity|]. cbn [maxcc par0]. lra.
Qed.

(** ** C112: tests of single pixels *)
(** Non-negative reflectances (blue alone may be negative): the tests of the pixel are defined and the variability probability is a share
    of at most 10000. *)
Theorem C112_defined_partial : forall p, 0 <= p_green p -> 0 <= p_red p -> 0 <= p_nir p -> 0 <= p_sw1 p -> 0 < p_blue p + p_green p + p_red p ->
  exists r, potential p = Ret r /\ 0 <= r_var r <= 10000 /\ r_clear r = negb (r_pcp r) /\ (r_land r = true <-> r_clear r = true /\ r_water r = false).
Proof.
  intros p G R N S V. destruct (var_ok p G R N S V) as (v & E & B). unfold potential. rewrite E. cbn [bind]. eexists. split; [reflexivity|]. cbn [r_var r_clear r_pcp r_land r_water].
  split; [exact B|]. split; [reflexivity|]. destruct (pcp_test p), (water_test p); cbn; intuition congruence.
Qed.
Print Assumptions C112_defined_partial.
(** Water and snow: the float comparisons agree with the exact ones, for every pair of bands
    whose sum is not 0 and whose ratio is not exactly at a threshold. *)
Theorem C112_water : forall p r, potential p = Ret r -> in_short (p_nir p) -> in_short (p_red p) -> p_nir p + p_red p <> 0 ->
  (exact_ratio (p_nir p) (p_red p) <> 1 / 100)%R -> (exact_ratio (p_nir p) (p_red p) <> 1 / 10)%R ->
  r_water r = true <-> water_spec (p_nir p) (p_red p) (p_slope p).
Proof.
  intros p r E A B S N1 N2. rewrite <- (water_iff p A B S N1 N2). unfold potential in E. destruct (var_of p); try discriminate. injection E as <-. reflexivity.
Qed.
Theorem C112_snow : forall p r, potential p = Ret r -> in_short (p_green p) -> in_short (p_sw1 p) -> p_green p + p_sw1 p <> 0 ->
  (exact_ratio (p_green p) (p_sw1 p) <> 15 / 100)%R -> (exact_ratio (p_green p) (p_sw1 p) <> 4 / 10)%R ->
  r_snow r = true <-> snow_spec (p_green p) (p_sw1 p) (p_sw2 p) (p_nir p) (p_temp p).
Proof.
  intros p r E A B S N1 N2. rewrite <- (snow_iff p A B S N1 N2). unfold potential in E. destruct (var_of p); try discriminate. injection E as <-. reflexivity.
Qed.
Print Assumptions C112_water.
Print Assumptions C112_snow.
(** Saturated pixels are always potential clouds, never clear land. *)
Theorem C112_saturated : forall p r, potential p = Ret r -> p_sat p = true -> r_pcp r = true /\ r_clear r = false /\ r_land r = false.
Proof.
  intros p r E S. unfold potential in E. destruct (var_of p); try discriminate. injection E as <-. cbn [r_pcp r_clear r_land]. unfold pcp_test. rewrite S. cbn. auto.
Qed.
Print Assumptions C112_saturated.
(** A potential cloud that is not saturated is bright and warm enough in no case above 27 degrees Celsius. *)
Theorem C112_cloud_is_bright : forall p r, potential p = Ret r -> p_sat p = false -> r_pcp r = true ->
  4500 < p_blue p + p_green p + p_red p /\ 300 < p_sw2 p /\ (forall t, p_temp p = Some t -> t <= 30015) /\ r_bright r = true.
Proof.
  intros p r E S K. unfold potential in E. destruct (var_of p); try discriminate. injection E as <-. cbn [r_pcp r_bright] in *. unfold pcp_test in K. rewrite S in K. cbn [orb] in K.
  apply andb_prop in K. destruct K as (K & _). apply andb_prop in K. destruct K as (K & _). apply andb_prop in K. destruct K as (K & BR). apply andb_prop in K. destruct K as (K & _).
  unfold basic_test in K. apply andb_prop in K. destruct K as (K & T). apply andb_prop in K. destruct K as (_ & S2).
  split; [|split; [lia|split; [intros t E; rewrite E in T; lia|exact BR]]].
  destruct (Z_lt_le_dec 4500 (p_blue p + p_green p + p_red p)) as [L|L]; [exact L|]. exfalso. unfold bright in BR. destruct (Rlt_bool_spec 1500 (vis_of p)) as [G|G]; [|discriminate]. unfold vis_of in G.
  apply IZR_le in L. set (s := IZR (p_blue p + p_green p + p_red p)) in *. clearbody s. assert (M : (rnd32 (rnd64 (s / 3)) <= rnd32 (rnd64 (IZR 1500)))%R) by (apply rnd32_le, rnd64_le; lra).
  rewrite rnd64_int, (rnd32_int 1500) in M by lia. lra.
Qed.
Print Assumptions C112_cloud_is_bright.

(** Two undefined conversions to short: a pixel that is black in the visible bands (0/0 is NaN),
    and a negative red reflectance (the ratio is 5, the probability -4 times 10000). *)
Theorem C112_black_refuted : exists p, p_blue p = 0 /\ p_green p = 0 /\ p_red p = 0 /\ p_nir p = 100 /\ potential p = UB.
Proof.
  exists (mkPx 0 0 0 100 100 100 None 0 false). repeat (split; [reflexivity|]). unfold potential, var_of, vprob.
  assert (V : vis_of (mkPx 0 0 0 100 100 100 None 0 false) = 0%R). { unfold vis_of. cbn [p_blue p_green p_red Z.add]. unfold Rdiv. rewrite Rmult_0_l, rnd64_0. exact rnd32_0. }
  assert (W : white_of (mkPx 0 0 0 100 100 100 None 0 false) = None).
  { unfold white_of, white_num. rewrite V. rewrite Req_bool_true by reflexivity. cbn [p_blue p_green p_red]. rewrite Rminus_0_r, rnd32_0, Rabs_R0, !Rplus_0_r, !rnd64_0, Req_bool_true by reflexivity. reflexivity. }
  rewrite W. reflexivity.
Qed.
Print Assumptions C112_black_refuted.
Theorem C112_negative_refuted : exists p, p_blue p = 100 /\ p_green p = 100 /\ p_red p = -2 /\ p_nir p = 3 /\ p_sat p = false /\ potential p = UB.
Proof.
  set (p := mkPx 100 100 (-2) 3 100 100 None 0 false). exists p. repeat (split; [reflexivity|]). unfold potential, var_of, vprob.
  assert (N : ndvi_of p = 5%R). { unfold ndvi_of, ratio. cbn [p_nir p_red p]. change (3 + -2 =? 0) with false. change (3 - -2) with 5. change (3 + -2) with 1. replace (IZR 5 / IZR 1)%R with (IZR 5) by lra. apply rnd32_int; lia. }
  assert (S : ndsi_of p = 0%R). { unfold ndsi_of, ratio. cbn [p_green p_sw1 p]. change (100 + 100 =? 0) with false. change (100 - 100) with 0. change (100 + 100) with 200. replace (IZR 0 / IZR 200)%R with 0%R by lra. exact rnd32_0. }
  assert (V : (vis_of p <> 0)%R). { unfold vis_of. cbn [p_blue p_green p_red p]. change (100 + 100 + -2) with 198. replace (198 / 3)%R with (IZR 66) by lra. rewrite rnd64_int, rnd32_int by lia. lra. }
  unfold white_of. rewrite Req_bool_false by exact V. set (w0 := rnd32 (rnd64 (white_num p / vis_of p))). clearbody w0. cbv zeta.
  set (w := if Rlt_bool 1 w0 then 1%R else w0). assert (W1 : (w <= 1)%R) by (unfold w; destruct (Rlt_bool_spec 1 w0); lra). clearbody w.
  unfold ndvi_mod, ndsi_mod. rewrite N, S. cbn [p_sat p andb]. rewrite Rabs_R0, Rabs_pos_eq by lra. rewrite (Rle_bool_true 0 5) by lra. rewrite (Rle_bool_true w 5) by lra.
  replace (1 - 5)%R with (IZR (-4)) by lra. rewrite rnd64_int, rnd32_int by lia. replace (-4 * 10000)%R with (IZR (-40000)) by lra. rewrite rnd32_int by lia. unfold short_of. rewrite Ztrunc_IZR. reflexivity.
Qed.
Print Assumptions C112_negative_refuted.
(** A bright cloud pixel meets the hypotheses, a water pixel the water test. *)
Example C112_example : exists r, potential (mkPx 700 500 400 300 200 100 None 0 false) = Ret r /\ r_water r = true.
Proof.
  set (p := mkPx 700 500 400 300 200 100 None 0 false).
  destruct (C112_defined_partial p ltac:(cbv; congruence) ltac:(cbv; congruence) ltac:(cbv; congruence) ltac:(cbv; congruence) ltac:(cbv; congruence)) as (r & E & _). exists r. split; [exact E|].
  assert (X : exact_ratio 300 400 = (- / 7)%R). { unfold exact_ratio. replace (300 - 400) with (-100) by lia. replace (300 + 400) with 700 by lia. lra. }
  apply (C112_water p r E); cbn [p_nir p_red p_slope p]; [split; lia|split; lia|lia|rewrite X; lra|rewrite X; lra|]. split; [left; rewrite X; split; [lra|lia]|lia].
Qed.

(** ** C113: Sentinel-2 clouds *)
(** For every coarse image of clouds and of candidates: the region growing ends without an error,
    and the final mask marks exactly the bright pixels that are saturated or whose coarse cell is a
    cloud or linked to a cloud by candidates. *)
Theorem C113_region_growing : forall clouds cand sat brt fx fy,
  image clouds (fx / 2) (fy / 2) -> zlen cand = (fx / 2) * (fy / 2) -> fx <= 65536 -> fy <= 65536 -> zlen sat = fx * fy -> zlen brt = fx * fy ->
  exists out, parallax_mask clouds cand sat brt fx fy = Ret (SUCCESS, out) /\ zlen out = fx * fy /\
  forall y x, inside fx fy y x ->
    (is_true out fx fy y x <-> is_true brt fx fy y x /\ (is_true sat fx fy y x \/ linked clouds cand (fx / 2) (fy / 2) (y / 2) (x / 2))).
Proof.
  intros clouds cand sat brt fx fy I L BX BY LS LB. pose proof I as (NX & NY & _ & _).
  destruct (grow_linked clouds cand (fx / 2) (fy / 2) I L ltac:(lia) ltac:(lia)) as (g & EG & LG & HG).
  destruct (refine_ok g (fx / 2) (fy / 2) fx fy NX NY LG ltac:(lia) ltac:(lia)) as (o & EO & LO & HO).
  exists (add_saturated o sat brt). split; [unfold parallax_mask; rewrite EG; cbn [bind fst snd]; rewrite EO; reflexivity|].
  assert (LC : zlen (combine sat brt) = fx * fy) by (rewrite zlen_combine; lia). split; [unfold add_saturated; rewrite zlen_map, zlen_combine; lia|].
  intros y x IN. pose proof (HO y x IN) as H. rewrite HG in H. rewrite <- H. unfold is_true.
  destruct (pix_some o fx fy y x LO IN) as (a & Ga). destruct (pix_some sat fx fy y x LS IN) as (b & Gb). destruct (pix_some brt fx fy y x LB IN) as (c & Gc).
  assert (E : pix (add_saturated o sat brt) fx y x = Some ((a || b) && c)). { unfold pix in *. unfold add_saturated. now rewrite get_map, !get_combine, Ga, Gb, Gc. }
  rewrite E, Ga, Gb, Gc. destruct a, b, c; cbn; intuition congruence.
Qed.
Print Assumptions C113_region_growing.
Example C113_example : let clouds := [true; false; false; false] in let cand := [false; true; false; false] in
  image clouds (4 / 2) (4 / 2) /\ parallax_mask clouds cand (repeat false 16) (repeat true 16) 4 4 =
  Ret (SUCCESS, [true; true; true; true;  true; true; true; true;  false; false; false; false;  false; false; false; false]).
Proof. cbv zeta. split; [repeat split; cbv; congruence|vm_compute; reflexivity]. Qed.

(** ** C114: the change of resolution *)
(** Images with an even number of rows and columns: every coarse cell gets the value of its four pixels. *)
Theorem C114_even_partial : forall (f : Z -> Z -> Z) nx ny, 0 < nx -> 0 < ny -> nx mod 2 = 0 -> ny mod 2 = 0 ->
  exists out, reduce 0 f nx ny = Ret out /\ zlen out = (nx / 2) * (ny / 2) /\
  forall y x, inside (nx / 2) (ny / 2) y x -> pix out (nx / 2) y x = Some (f (2 * y) (2 * x)).
Proof. intros. now apply reduce_even. Qed.
Print Assumptions C114_even_partial.
(** Odd sizes: a cell of the last row is written behind the end of the coarse image. *)
Theorem C114_odd_refuted : exists nx ny, 0 < nx /\ 0 < ny /\ forall f : Z -> Z -> Z, reduce 0 f nx ny = UB.
Proof. exists 4, 3. split; [lia|]. split; [lia|]. intros f. reflexivity. Qed.
Print Assumptions C114_odd_refuted.
Example C114_example : reduce 0 (fun i j => 10 * i + j) 4 2 = Ret [0; 2].
Proof. reflexivity. Qed.
