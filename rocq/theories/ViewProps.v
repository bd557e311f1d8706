(** C144 (view geometry) and C145 (time of the sun position). *)
From Coq Require Import Reals Lra Lia.
From Flocq Require Import Core.
From Verif Require Import Base RoundModel RoundFacts DateModel TopModel TopGeo ViewModel ViewSpec ViewProofs.

(** ** C144 *)
(** The corners of the image are the first and last pixel with data, the topmost of the rightmost and the lowest of the leftmost. *)
Theorem C144_corners nx ny off : 0 < nx -> 0 < ny -> (exists p, seen nx ny off p) ->
  exists a b l z, let V := seen nx ny off in first_pixel V a /\ right_pixel nx V b /\ left_pixel nx V l /\ last_pixel V z /\
  find_corners nx ny off = mkCorners (a / nx) (a mod nx) (b / nx) (b mod nx) (l / nx) (l mod nx) (z / nx) (z mod nx).
Proof.
  intros X Y (p & P). pose proof (scan_good nx ny off X (Z.to_nat (nx * ny)) ltac:(nia)) as G. unfold good in G.
  assert (E : forall q, upto off (Z.to_nat (nx * ny)) q <-> seen nx ny off q) by (intros q; unfold upto, seen; rewrite Z2Nat.id by nia; reflexivity).
  destruct G as [(N & _)|(a & b & l & z & (A1 & A2) & (B1 & B2) & (L1 & L2) & (Z1 & Z2) & F)]; [exfalso; apply (N p), E, P|].
  exists a, b, l, z. cbv zeta. split; [|split; [|split; [|split; [|exact F]]]]; (split; [apply E; assumption|intros q Q; apply E in Q; auto]).
Qed.
#[local] Open Scope R_scope.
(** The zenith: its tangent times the height of the satellite is the distance from the nadir line on the ground. *)
Theorem C144_zenith x1 y1 x2 y2 x y d H res : 0 < H -> 0 < res -> distance (nadir_line (x1, y1, x2, y2)) x y = Some d ->
  distance_to_line (IZR x1) (IZR y1) (IZR x2) (IZR y2) x y (Rabs d) /\
  let z := view_zenith H res (Some d) in 0 <= z < PI / 2 /\ H * tan z = res * Rabs d.
Proof.
  intros HH R D. split; [exact (distance_line _ _ _ _ _ _ _ D)|]. cbv zeta. rewrite zenith_atan by assumption. rewrite tan_atan. pose proof (atan_bound (res * Rabs d / H)) as B. assert (Q : 0 <= res * Rabs d / H) by (apply Rmult_le_pos; [apply Rmult_le_pos; [lra|apply Rabs_pos]|left; apply Rinv_0_lt_compat; exact HH]).
  split; [split; [|lra]|field; lra]. destruct Q as [Q|Q]; [left; rewrite <- atan_0; apply atan_increasing; exact Q|rewrite <- Q, atan_0; lra].
Qed.
(** The azimuth is the compass direction from the pixel to the nadir line, if the coordinates of the midpoints are to scale. *)
Theorem C144_azimuth x1 y1 x2 y2 x y d s : 0 < s -> distance (nadir_line (x1, y1, x2, y2)) x y = Some d -> (d <> 0)%R ->
  let azi := view_azimuth (nadir_angle (s * IZR (x1 - x2)) (s * IZR (y1 - y2))) (Some d) in
  0 <= azi <= 2 * PI /\ exists t, let fx := IZR x1 + t * (IZR x2 - IZR x1) in let fy := IZR y1 + t * (IZR y2 - IZR y1) in
  ((x - fx) * (IZR x2 - IZR x1) + (y - fy) * (IZR y2 - IZR y1) = 0)%R /\ compass azi (fx - x) (- (fy - y)).
Proof.
  intros S D0 DN azi. pose proof (distance_line _ _ _ _ _ _ _ D0) as _. unfold distance, nadir_line in D0. destruct ((y1 - y2 =? 0) && (x2 - x1 =? 0))%Z eqn:Z0; [discriminate|]. injection D0 as DE. rewrite !minus_IZR, !mult_IZR in DE. unfold azi, nadir_angle. clear azi. rewrite !minus_IZR.
  set (a := (IZR y1 - IZR y2)%R) in *. replace (IZR x1 - IZR x2)%R with (- (IZR x2 - IZR x1))%R by ring. set (b := (IZR x2 - IZR x1)%R) in *. assert (N : 0 < a * a + b * b).
  { assert (a <> 0 \/ b <> 0)%R as [K|K]; [|nra|nra]. destruct (Z.eq_dec (y1 - y2) 0) as [E|E]; [right|left]; unfold a, b; rewrite <- minus_IZR; intros K; apply eq_IZR in K; lia. }
  replace (a * x + b * y + (IZR y2 * IZR x1 - IZR x2 * IZR y1))%R with (a * (x - IZR x1) + b * (y - IZR y1))%R in DE by (unfold a, b; ring). set (n := sqrt (a * a + b * b)) in *. assert (SQ : (n * n = a * a + b * b)%R) by (apply sqrt_sqrt; lra). assert (N0 : 0 < n) by (apply sqrt_lt_R0; exact N).
  assert (PS : 0 < s * - b * (s * - b) + s * a * (s * a)) by (replace (s * - b * (s * - b) + s * a * (s * a)) with (s * s * (a * a + b * b)) by ring; apply Rmult_lt_0_compat; nra).
  destruct (atan2_ok (s * a) (s * - b) ltac:(lra)) as (T & TC & TS). set (r := sqrt (s * - b * (s * - b) + s * a * (s * a))) in *. assert (RN : r = (s * n)%R). { unfold r. replace (s * - b * (s * - b) + s * a * (s * a))%R with ((s * n) * (s * n))%R by (replace (s * n * (s * n))%R with (s * s * (n * n))%R by ring; rewrite SQ; ring). apply sqrt_square. nra. }
  rewrite RN in TC, TS. set (t := atan2 (s * a) (s * - b)) in *. assert (C1 : (n * cos t = - b)%R) by (apply Rmult_eq_reg_l with s; [|lra]; lra). assert (S1 : (n * sin t = a)%R) by (apply Rmult_eq_reg_l with s; [|lra]; lra).
  set (k := (((x - IZR x1) * b - (y - IZR y1) * a) / (a * a + b * b))%R).
  assert (FX : (IZR x1 + k * b - x = - d * a / n)%R). { rewrite <- DE. unfold k. replace (- ((a * (x - IZR x1) + b * (y - IZR y1)) / n) * a / n)%R with (- ((a * (x - IZR x1) + b * (y - IZR y1)) * a / (n * n)))%R by (field; lra). rewrite SQ. field. lra. }
  assert (FY : (IZR y1 + k * - a - y = - d * b / n)%R). { rewrite <- DE. unfold k. replace (- ((a * (x - IZR x1) + b * (y - IZR y1)) / n) * b / n)%R with (- ((a * (x - IZR x1) + b * (y - IZR y1)) * b / (n * n)))%R by (field; lra). rewrite SQ. field. lra. }
  assert (AB : (IZR y2 - IZR y1 = - a)%R) by (unfold a; ring). unfold view_azimuth, Rlt_bool. destruct (Rcompare_spec 0 d) as [P|P|P]; [|lra|].
  - split; [lra|]. exists k. cbv zeta. rewrite AB. fold b. split. { replace (x - (IZR x1 + k * b))%R with (- (- d * a / n))%R by lra. replace (y - (IZR y1 + k * - a))%R with (- (- d * b / n))%R by lra. field. lra. }
    rewrite FX, FY. exists d. replace (t + PI / 2 + PI / 2)%R with (t + PI)%R by field. rewrite neg_sin, neg_cos. split; [exact P|]. rewrite <- S1, <- (Ropp_involutive b), <- C1. split; field; lra.
  - set (w := (t + PI / 2 - PI / 2)%R). assert (W : w = t) by (unfold w; ring). clearbody w. subst w. pose proof PI_RGT_0 as PP.
    set (az := match Rcompare t 0 with Lt => true | _ => false end). assert (AZ : (0 <= (if az then t + 2 * PI else t) <= 2 * PI)%R /\ sin (if az then t + 2 * PI else t) = sin t /\ cos (if az then t + 2 * PI else t) = cos t).
    { unfold az. destruct (Rcompare_spec t 0) as [Q|Q|Q]; [rewrite sin_plus, cos_plus, sin_2PI, cos_2PI; repeat split; try lra; ring|repeat split; lra|repeat split; lra]. }
    destruct AZ as (R0 & RS & RC). split; [exact R0|]. exists k. cbv zeta. rewrite AB. fold b. split. { replace (x - (IZR x1 + k * b))%R with (- (- d * a / n))%R by lra. replace (y - (IZR y1 + k * - a))%R with (- (- d * b / n))%R by lra. field. lra. }
    rewrite FX, FY. exists (- d)%R. rewrite RS, RC. split; [lra|]. rewrite <- S1, <- (Ropp_involutive b), <- C1. split; field; lra.
Qed.
(** Pixels of a cell without angles are masked (10 m pixels, cells of 5 km)... *)
Theorem C144_masked_partial e i n : (0 <= e < 150)%Z -> (e * 500 <= i < (e + 1) * 500)%Z -> (i <= n - 1)%Z -> masked 10 5000 n e i.
Proof. apply masked_all. Qed.
(** ... but a row of the neighbouring cell may be, too. *)
Theorem C144_masked_only_refuted : ~ (forall e i, (0 <= e < 22)%Z -> masked 10 5000 10980 e i -> (e * 500 <= i < (e + 1) * 500)%Z).
Proof. intros H. specialize (H 1%Z 499%Z ltac:(lia) masked_extra). lia. Qed.
Example C144_example : find_corners 3 3 (fun p => (p =? 0) || (p =? 1) || (p =? 8))%Z = mkCorners 0 2 0 2 2 0 2 1 /\ masked 10 5000 10980 3 1600 /\
  distance (nadir_line (0, 0, 0, 10)%Z) 3 5 = Some (-3)%R /\ distance (nadir_line (0, 0, 0, 10)%Z) (-3) 5 = Some 3%R.
Proof.
  split; [reflexivity|]. split; [apply masked_all; lia|]. assert (Q : sqrt (IZR (0 - 10) * IZR (0 - 10) + IZR (0 - 0) * IZR (0 - 0)) = 10%R) by (replace (IZR (0 - 10) * IZR (0 - 10) + IZR (0 - 0) * IZR (0 - 0))%R with (10 * 10)%R by (cbn; lra); apply sqrt_square; lra).
  unfold distance, nadir_line. cbv beta iota zeta. change ((0 - 10 =? 0) && (0 - 0 =? 0))%Z with false. cbv iota. rewrite Q. split; f_equal; cbn; field.
Qed.

(** ** C145 *)
(** The clock shows the local time minus an hour per 15 degrees, to the second, inside of a year. *)
Theorem C145_gmt_partial d local lon : (1 < doy d < 365)%Z -> 0 <= local <= 24 -> -180 <= lon <= 180 -> let r := localtime2gmt d local lon in
  (0 <= hh r <= 24)%Z /\ (0 <= mm r <= 59)%Z /\ (0 <= ss r <= 59)%Z /\ year r = year d /\
  0 <= local - lon / 15 - (24 * IZR (doy r - doy d) + IZR (hh r) + IZR (mm r) / 60 + IZR (ss r) / 3600) < / 3600.
Proof. apply gmt_ok. Qed.
(** On the first of January the day before is lost: the time is a day late east of 150 degrees. *)
Theorem C145_new_year_refuted d lon : doy d = 1%Z -> 150 < lon <= 180 -> let r := localtime2gmt d 10 lon in doy r = 1%Z /\ year r = year d /\
  24 - / 3600 <= 24 * IZR (doy r - doy d) + IZR (hh r) + IZR (mm r) / 60 + IZR (ss r) / 3600 - (10 - lon / 15).
Proof. intros D L. destruct (gmt_new_year d lon D L) as (A & B & C). split; [exact A|]. split; [exact B|]. lra. Qed.
(** The overpass has a local time up to 81.38 degrees north and south, not nearer to the poles; it is within six hours of the time at the equator, and as early in the south as late in the north. *)
Theorem C145_overpass lat : Rabs lat < 90 -> ((exists t, localtime (lat * degree) = Some t) <-> Rabs lat <= 8138 / 100).
Proof.
  intros L. pose proof (overpass_def (982 / 10) (1018333333333 / 100000000000) lat ltac:(lra) L) as A. pose proof (overpass_def (9862 / 100) (105 / 10) lat ltac:(lra) L) as B. unfold localtime.
  destruct (overpass (lat * degree) (982 / 10 * degree) (1018333333333 / 100000000000)) as [a|], (overpass (lat * degree) (9862 / 100 * degree) (105 / 10)) as [b|]; split.
  - intros _. apply Rle_trans with (180 - 9862 / 100); [apply B; eauto|lra]. - eauto.
  - intros (t & H). discriminate. - intros K. exfalso. destruct B as (_ & B). destruct (B ltac:(lra)). discriminate.
  - intros (t & H). discriminate. - intros K. exfalso. destruct A as (_ & A). destruct (A ltac:(lra)). discriminate.
  - intros (t & H). discriminate. - intros K. exfalso. destruct A as (_ & A). destruct (A ltac:(lra)). discriminate.
Qed.
Theorem C145_overpass_time lat t : localtime lat = Some t -> Rabs (t - 1034166666666 / 100000000000) < 6001 / 1000 /\ exists u, localtime (- lat) = Some u /\ localtime 0 = Some ((t + u) / 2).
Proof.
  unfold localtime. destruct (overpass lat (982 / 10 * degree) (1018333333333 / 100000000000)) as [a|] eqn:A; [|discriminate]. destruct (overpass lat (9862 / 100 * degree) (105 / 10)) as [b|] eqn:B; [|discriminate]. intros E. injection E as <-.
  pose proof (overpass_near _ _ _ _ A) as NA. pose proof (overpass_near _ _ _ _ B) as NB. apply Rabs_le_inv in NA. apply Rabs_le_inv in NB. split; [apply Rabs_def1; lra|]. rewrite (overpass_opp _ _ _ _ A), (overpass_opp _ _ _ _ B). eexists. split; [reflexivity|].
  assert (Z : forall i e, overpass 0 i e = Some e). { intros i e. unfold overpass. rewrite tan_0. replace (0 / tan i) with 0 by (unfold Rdiv; ring). destruct (Rle_bool_spec (-1) 0); [|lra]. destruct (Rle_bool_spec 0 1); [|lra]. cbn [andb]. rewrite asin_0. f_equal. unfold Rdiv. ring. } rewrite !Z. f_equal. lra.
Qed.
(** The Julian date counts the days of the Gregorian calendar. *)
Theorem C145_julian : julian 2000 1 1 = 24515445 / 10 /\ forall y m d, is_date y m d -> let '(y', m', d') := next_day y m d in julian y' m' d' = julian y m d + 1.
Proof. split; [rewrite julian_int; change (jy (if (1 <=? 2)%Z then (2000 - 1)%Z else 2000%Z) + jm (if (1 <=? 2)%Z then (1 + 12)%Z else 1%Z) + 1 - 1524)%Z with 2451545%Z; lra|]. exact julian_next. Qed.
(** Stored in a float it only knows quarters of a day: all times of an ordinary overpass give the same number. *)
Theorem C145_float y m d j t : (1900 <= y <= 2199)%Z -> is_date y m d -> (0 <= j <= 4)%Z -> 6 * IZR j - 299 / 100 <= t <= 6 * IZR j + 299 / 100 -> 0 <= t <= 24 -> julian_now y m d t = julian y m d + IZR j / 4.
Proof. apply julian_now_step. Qed.
Theorem C145_time_refuted : ~ (forall y m d t u, (1900 <= y <= 2199)%Z -> is_date y m d -> 0 <= t -> u <= 24 -> t + 1 < u -> sunJC y m d t <> sunJC y m d u).
Proof.
  intros H. assert (D : is_date 2020 6 21) by (unfold is_date, month_length; cbn; lia). apply (H 2020%Z 6%Z 21%Z (91 / 10) (149 / 10) ltac:(lia) D ltac:(lra) ltac:(lra) ltac:(lra)). unfold sunJC. rewrite (C145_float 2020 6 21 2 (91 / 10)), (C145_float 2020 6 21 2 (149 / 10)); try lra; try lia; auto.
Qed.
Example C145_example : is_date 2020 2 29 /\ next_day 2020 2 29 = (2020, 3, 1)%Z /\ next_day 1900 2 28 = (1900, 3, 1)%Z /\ julian 2020 3 1 = julian 2020 2 28 + 2 /\ (exists t, localtime (50 * degree) = Some t) /\ ~ (exists t, localtime (82 * degree) = Some t).
Proof.
  split; [unfold is_date, month_length; cbn; lia|]. split; [reflexivity|]. split; [reflexivity|]. split.
  { destruct C145_julian as (_ & J). pose proof (J 2020%Z 2%Z 28%Z ltac:(unfold is_date, month_length; cbn; lia)) as A. pose proof (J 2020%Z 2%Z 29%Z ltac:(unfold is_date, month_length; cbn; lia)) as B. change (next_day 2020 2 28) with (2020, 2, 29)%Z in A. change (next_day 2020 2 29) with (2020, 3, 1)%Z in B. cbv iota beta in A, B. lra. }
  split; [apply C145_overpass; rewrite Rabs_pos_eq; lra|]. intros K. apply C145_overpass in K; rewrite Rabs_pos_eq in *; lra.
Qed.

Print Assumptions C144_corners.
Print Assumptions C144_zenith.
Print Assumptions C144_azimuth.
Print Assumptions C144_masked_partial.
Print Assumptions C144_masked_only_refuted.
Print Assumptions C145_gmt_partial.
Print Assumptions C145_new_year_refuted.
Print Assumptions C145_overpass.
Print Assumptions C145_overpass_time.
Print Assumptions C145_julian.
Print Assumptions C145_float.
Print Assumptions C145_time_refuted.
