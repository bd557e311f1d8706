(** Which observations may be used for a pixel, and which of them is the best. *)
From Coq Require Import Reals.
From Verif Require Import Base StatsSpec BapModel.
#[local] Open Scope Z_scope.

(** The observation is valid and in the season (or OFF_SEASON = TRUE). *)
Definition in_season (b : bap) (o : obs) (s : scores) : Prop :=
  o_valid o = true /\ (b_offsea b = true \/ forall d, s_d s = Some d -> (1 / 100 <= d)%R).

(** [hs]: the haze scores of the observations in the season. *)
Definition haze_scores (b : bap) (l : list (obs * scores)) (hs : list R) : Prop :=
  exists keep, Forall (fun p => keep p = true <-> in_season b (fst p) (snd p)) l /\ hs = map (fun p => s_h (snd p)) (filter keep l).
Definition sample_sd (hs : list R) : R := sqrt (dev 2 hs / (size hs - 1)).

(** Very hazy observations are left out if haze is scored, USE_HAZY = FALSE and the
    pixel is not always hazy; very cloudy ones likewise. *)
Definition too_hazy (b : bap) (hs : list R) (s : scores) : Prop :=
  b_hazy b = false /\ (0 < w_h b)%R /\ (s_h s < 1 / 100)%R /\ (2 <= length hs)%nat /\ (1 / 100 < mean hs)%R /\ (1 / 100 < sample_sd hs)%R.
Definition too_cloudy (b : bap) (s : scores) : Prop :=
  b_cloudy b = false /\ (0 < w_c b)%R /\ (s_c s < 1 / 100)%R.
Definition eligible (b : bap) (hs : list R) (o : obs) (s : scores) : Prop :=
  in_season b o s /\ ~ too_hazy b hs s /\ ~ too_cloudy b s.

(** [e] is the first of the eligible elements of [l] with the largest total score [x]. *)
Definition first_best (b : bap) (hs : list R) (l : list (obs * scores * Z)) (e : obs * scores * Z) (x : R) : Prop :=
  exists before after, l = before ++ e :: after /\ eligible b hs (fst (fst e)) (snd (fst e)) /\ s_t (snd (fst e)) = Some x /\
    (forall f y, In f before -> eligible b hs (fst (fst f)) (snd (fst f)) -> s_t (snd (fst f)) = Some y -> (y < x)%R) /\
    (forall f y, In f after -> eligible b hs (fst (fst f)) (snd (fst f)) -> s_t (snd (fst f)) = Some y -> (y <= x)%R).

(** [n] elements of [l] satisfy [P]. *)
Inductive counts {A} (P : A -> Prop) : list A -> Z -> Prop :=
| cnt_nil : counts P [] 0
| cnt_yes a l n : P a -> counts P l n -> counts P (a :: l) (n + 1)
| cnt_no a l n : ~ P a -> counts P l n -> counts P (a :: l) n.

(** ** Parameters *)

(** Weights between 0 and 1, not all 0 (param-hl.c accepts no others). *)
Definition weights_ok (b : bap) : Prop :=
  (0 <= w_d b <= 1 /\ 0 <= w_y b <= 1 /\ 0 <= w_c b <= 1 /\ 0 <= w_h b <= 1 /\ 0 <= w_r b <= 1 /\ 0 <= w_v b <= 1 /\ 0 < w_d b + w_y b + w_c b + w_h b + w_r b + w_v b)%R.

(** What the parameter file may contain: the ranges registered in param-hl.c:133-180. *)
Record accepted (b : bap) : Prop := {
  ac_weights : weights_ok b;
  ac_year : 1900 <= b_Yt b <= 2100;
  ac_num : 0 <= b_Yr b <= 100;
  ac_factor : (0 <= b_Yf b)%R;
  ac_days : 1 <= b_Dt0 b <= 365 /\ 1 <= b_Dt1 b <= 365 /\ 1 <= b_Dt2 b <= 365;
  ac_scores : (0 <= b_Ds0 b <= 1 /\ 0 <= b_Ds1 b <= 1 /\ 0 <= b_Ds2 b <= 1)%R;
  ac_req : (1 <= b_dreq b /\ -600 <= b_hreq b <= 600 /\ 1 <= b_vreq b <= 90)%R }.

(** A peak in the middle, a decline or a rise; a peak needs different days and
    positive scores on both sides. *)
Definition peak (b : bap) : Prop :=
  (0 < b_Ds0 b < b_Ds1 b)%R /\ (0 < b_Ds2 b < b_Ds1 b)%R /\ b_Dt0 b <> b_Dt1 b /\ b_Dt2 b <> b_Dt1 b.
Definition decline (b : bap) : Prop := (b_Ds2 b < b_Ds0 b /\ b_Ds1 b <= b_Ds0 b)%R.
Definition rise (b : bap) : Prop := (b_Ds0 b < b_Ds2 b /\ b_Ds1 b <= b_Ds2 b)%R.
Definition shaped (b : bap) : Prop := peak b \/ decline b \/ rise b.

Record sane (b : bap) : Prop := {
  sn_accepted : accepted b;
  sn_first : 1901 <= b_Yt b - b_Yr b;
  sn_factor : (1 <= b_Yf b)%R;
  sn_shape : shaped b }.

(** The observation is from within 100 years of the target year; its day is counted
    in years of 365 days. *)
Definition near (b : bap) (o : obs) : Prop :=
  Z.abs (o_year o - b_Yt b) <= 100 /\ o_year o * 365 + 1 <= o_ce o <= o_year o * 365 + 365.

(** [g] is the target of a year within YEAR_NUM of the target year that is closest to the day. *)
Definition closest_target (b : bap) (ce : Z) (g : target) : Prop :=
  (exists k, - b_Yr b <= k <= b_Yr b /\ t1 g = (b_Yt b + k) * 365 + b_Dt1 b) /\
  (forall k, - b_Yr b <= k <= b_Yr b -> Z.abs (ce - t1 g) <= Z.abs (ce - ((b_Yt b + k) * 365 + b_Dt1 b))) /\
  t1 g - 365 < t0 g <= t1 g /\ (t0 g - b_Dt0 b) mod 365 = 0 /\
  t1 g <= t2 g < t1 g + 365 /\ (t2 g - b_Dt2 b) mod 365 = 0.

(** ** Correlation with the other observations *)
Definition spectra (a b : obs) : list (R * R) := map (fun p => (IZR (fst p), IZR (snd p))) (combine (o_dat a) (o_dat b)).
Definition varies (l : list R) : Prop := dev 2 l <> 0%R.
Definition pearson (l : list (R * R)) : R := (codev l / sqrt (dev 2 (map fst l) * dev 2 (map snd l)))%R.
(** Two valid observations, neither of which has the same value in all bands. *)
Definition comparable (a b : obs) : Prop :=
  o_valid a = true /\ o_valid b = true /\ varies (map IZR (o_dat a)) /\ varies (map IZR (o_dat b)).
(** [l]: the absolute correlations of [a] with the comparable observations among [os]. *)
Inductive partners (a : obs) : list obs -> list R -> Prop :=
| par_nil : partners a [] []
| par_yes o os l : comparable a o -> partners a os l -> partners a (o :: os) (Rabs (pearson (spectra a o)) :: l)
| par_no o os l : ~ comparable a o -> partners a os l -> partners a (o :: os) l.

(** ** Scores *)

(** The Gaussian with the value [top] at 0 and [side] at [width]. *)
Definition bell (top side : R) (x width : Z) : R :=
  (top * exp (IZR x * IZR x / (IZR width * IZR width) * ln (side / top)))%R.
(** The logistic function: 1/2 at 0. *)
Definition sigmoid (x : R) : R := (1 / (1 + exp (- x)))%R.
(** One year counts as many days as the part of the season, divided by (YEAR_NUM+1)*Y_FACTOR. *)
Definition year_step (b : bap) (days k : Z) : Prop :=
  (IZR k <= IZR days / (IZR (b_Yr b + 1) * b_Yf b) < IZR k + 1)%R.

(** DOY score, year score and distance in days to the target. *)
Definition temporal_scores (b : bap) (o : obs) (d y : R) (dist : Z) : Prop :=
  exists g, closest_target b (o_ce o) g /\
    (peak b -> dist = o_ce o - t1 g /\
       (o_ce o < t1 g -> exists k, year_step b (t1 g - t0 g) k /\
          d = bell (b_Ds1 b) (b_Ds0 b) (o_ce o - t1 g) (t1 g - t0 g) /\ y = bell (b_Ds1 b) (b_Ds0 b) ((o_year o - b_Yt b) * k) (t1 g - t0 g)) /\
       (t1 g <= o_ce o -> exists k, year_step b (t2 g - t1 g) k /\
          d = bell (b_Ds1 b) (b_Ds2 b) (o_ce o - t1 g) (t2 g - t1 g) /\ y = bell (b_Ds1 b) (b_Ds2 b) ((o_year o - b_Yt b) * k) (t2 g - t1 g))) /\
    (decline b -> dist = o_ce o - t0 g /\ (o_ce o < t0 g -> d = 0%R /\ y = 0%R) /\ (t0 g <= o_ce o -> (0 < d < b_Ds0 b)%R /\ (0 < y < b_Ds0 b)%R)) /\
    (rise b -> dist = o_ce o - t2 g /\ (t2 g < o_ce o -> d = 0%R /\ y = 0%R) /\ (o_ce o <= t2 g -> (0 < d < b_Ds2 b)%R /\ (0 < y < b_Ds2 b)%R)).

(** A score with weight 0 is 0. *)
Definition weighed (w x s : R) : Prop := (w = 0%R -> s = 0%R) /\ (w <> 0%R -> s = x).
(** Sum resp. product of the weighed scores. *)
Definition sum_of_weights (b : bap) : R := (w_d b + w_y b + w_c b + w_h b + w_r b + w_v b)%R.
Definition factor (w s f : R) : Prop := (w = 0%R -> f = 1%R) /\ (w <> 0%R -> f = (w * s)%R).
Definition total_score (b : bap) (d y c h r v t : R) : Prop :=
  (b_mul b = false -> (t * sum_of_weights b = w_d b * d + w_y b * y + w_c b * c + w_h b * h + w_r b * r + w_v b * v)%R) /\
  (b_mul b = true -> exists fd fy fc fh fr fv, factor (w_d b) d fd /\ factor (w_y b) y fy /\ factor (w_c b) c fc /\
     factor (w_h b) h fh /\ factor (w_r b) r fr /\ factor (w_v b) v fv /\ (t = fd * fy * fc * fh * fr * fv)%R).

(** The mean absolute correlation with the other observations; without any, a value
    far below all correlations or 0. *)
Definition likeness (a : obs) (others : list obs) (c : R) : Prop :=
  exists l, partners a others l /\ (l <> [] -> c = (sum (fun r => r) l / size l)%R) /\ (l = [] -> (c <= 0)%R).

(** All scores but the total one. *)
Definition single_scores (b : bap) (o : obs) (others : list obs) (s : scores) (dist : Z) : Prop :=
  (exists d y d' y', temporal_scores b o d y dist /\ weighed (w_d b) d d' /\ weighed (w_y b) y y' /\ s_d s = Some d' /\ s_y s = Some y') /\
  weighed (w_c b) (sigmoid (10 / b_dreq b * (IZR (o_dst o) - b_dreq b / 2))) (s_c s) /\
  weighed (w_h b) (sigmoid ((b_hreq b - IZR (o_hot o)) / 20)) (s_h s) /\
  (exists c, (w_r b <> 0%R -> likeness o others c) /\ weighed (w_r b) (sigmoid (30 * (c - 2 / 3))) (s_r s)) /\
  (0 <= o_vzn o <= 18000 -> weighed (w_v b) (sigmoid (10 / b_vreq b * (b_vreq b / 2 - IZR (o_vzn o) / 100))) (s_v s)) /\
  (o_vzn o < 0 \/ 18000 < o_vzn o -> s_v s = 0%R).

(** Most of the valid observations are water. *)
Definition flagged_water (o : obs) : Prop := Z.testbit (o_qai o) 5 = true.
Definition water_pixel (os : list obs) : Prop :=
  exists n w, counts (fun o => o_valid o = true) os n /\ counts (fun o => o_valid o = true /\ flagged_water o) os w /\ 10 * w > 9 * n.
(** Over water: 1 minus the reflectance in SWIR2, half of it if that exceeds the one in NIR. *)
Definition water_total (scale : R) (nir sw2 : Z) (t : R) : Prop :=
  (sw2 <= nir -> t = (1 - IZR sw2 / scale)%R) /\ (nir < sw2 -> t = ((1 - IZR sw2 / scale) / 2)%R).

Definition pixel_scores (b : bap) (scale : R) (bands : option (Z * Z)) (os : list obs) (o : obs) (others : list obs) (s : scores) (dist : Z) : Prop :=
  single_scores b o others s dist /\
  exists t, s_t s = Some t /\
    (water_pixel os -> match bands with
       | Some (i, j) => exists nir sw2, get_at (o_dat o) i = Some nir /\ get_at (o_dat o) j = Some sw2 /\ water_total scale nir sw2 t
       | None => True end) /\
    (~ water_pixel os \/ bands = None -> exists d y, s_d s = Some d /\ s_y s = Some y /\ total_score b d y (s_c s) (s_h s) (s_r s) (s_v s) t).

(** An observation as the images deliver it, up to 80 years from the target year. *)
Record usable (b : bap) (nb : nat) (o : obs) : Prop := {
  us_bands : length (o_dat o) = nb;
  us_year : Z.abs (o_year o - b_Yt b) <= 80;
  us_day : o_ce o = o_year o * 365 + o_doy o;
  us_doy : 1 <= o_doy o <= 365;
  us_sensor : 0 <= o_sensor o < 100;
  us_qai : in_short (o_qai o) }.
(** The bands for water exist and SWIR2 is a reflectance between 0 and 1. *)
Definition water_bands (scale : R) (bands : option (Z * Z)) (os : list obs) : Prop :=
  match bands with
  | None => True
  | Some (i, j) => (0 < scale)%R /\ Forall (fun o => exists nir sw2, get_at (o_dat o) i = Some nir /\ get_at (o_dat o) j = Some sw2 /\ (0 <= IZR sw2 <= scale)%R) os
  end.

(** ** The products *)
Definition elements (os : list obs) (fin : list (scores * Z)) : list (obs * scores * Z) := combine (combine os (map fst fin)) (map snd fin).
Definition may_use (b : bap) (hs : list R) (e : obs * scores * Z) : Prop := eligible b hs (fst (fst e)) (snd (fst e)).
(** [v] is the score [x] in units of 1/10000, rounded down. *)
Definition in_tenthousandths (x : R) (v : Z) : Prop := (IZR v <= x * 10000 < IZR v + 1)%R.
Definition score_bands (os : list obs) (t d y c h r v : R) (l : list Z) : Prop :=
  exists a, in_tenthousandths t a /\
    (water_pixel os -> l = [a; 0; 0; 0; 0; 0; 0]) /\
    (~ water_pixel os -> exists l', l = a :: l' /\ Forall2 in_tenthousandths [d; y; c; h; r; v] l').

(** The products show the observation of [e]; [n] observations were usable. *)
Definition shows (b : bap) (os : list obs) (e : obs * scores * Z) (n : Z) (r : result) : Prop :=
  let '(o, s, dist) := e in
  r_bap r = (if out_bap b then Some (o_dat o) else None) /\
  r_inf r = (if out_inf b then Some [o_qai o; n; o_doy o; o_year o; dist; o_sensor o + 1] else None) /\
  (out_scr b = false -> r_scr r = None) /\
  (out_scr b = true -> exists l t d y, r_scr r = Some l /\ s_t s = Some t /\ s_d s = Some d /\ s_y s = Some y /\
     score_bands os t d y (s_c s) (s_h s) (s_r s) (s_v s) l).
(** The products show no observation. *)
Definition shows_nothing (b : bap) (nb : nat) (nodata : Z) (r : result) : Prop :=
  r_bap r = (if out_bap b then Some (repeat nodata nb) else None) /\
  r_inf r = (if out_inf b then Some [1; 0; nodata; nodata; nodata; nodata] else None) /\
  r_scr r = (if out_scr b then Some (repeat nodata 7) else None).

(** [us] are the elements of [l] that may be used, in their order. *)
Definition all_usable (b : bap) (hs : list R) (l us : list (obs * scores * Z)) : Prop :=
  exists keep, Forall (fun e => keep e = true <-> may_use b hs e) l /\ us = filter keep l.
Definition score_of (f : scores -> num) (e : obs * scores * Z) : R := match f (snd (fst e)) with Some x => x | None => 0%R end.
Definition band_of (k : Z) (e : obs * scores * Z) : R := match get_at (o_dat (fst (fst e))) k with Some v => IZR v | None => 0%R end.
(** The integer part (towards 0). *)
Definition integer_part (x : R) (v : Z) : Prop := ((0 <= x -> IZR v <= x < IZR v + 1) /\ (x < 0 -> IZR v - 1 < x <= IZR v))%R.
Definition averages (b : bap) (os : list obs) (nb : nat) (nodata : Z) (us : list (obs * scores * Z)) (r : result) : Prop :=
  let m f := (sum (score_of f) us / size us)%R in
  (exists l, r_bap r = Some l /\ length l = nb /\ forall k v, get_at l k = Some v ->
     integer_part (sum (fun e => score_of s_t e * band_of k e)%R us / sum (score_of s_t) us)%R v) /\
  (out_inf b = true -> exists q, r_inf r = Some [q; Z.of_nat (length us); nodata; nodata; nodata; nodata] /\
     (Z.testbit q 1 = true <-> m (fun s => Some (s_c s)) < 1 / 100)%R /\ (Z.testbit q 3 = true <-> m (fun s => Some (s_h s)) < 1 / 100)%R /\
     forall k, k <> 1 -> k <> 3 -> Z.testbit q k = false) /\
  (out_scr b = true -> exists l, r_scr r = Some l /\
     score_bands os (m s_t) (m s_d) (m s_y) (m (fun s => Some (s_c s))) (m (fun s => Some (s_h s))) (m (fun s => Some (s_r s))) (m (fun s => Some (s_v s))) l).
