(** Model of src/modules/lower-level/radtran-ll.c, of the Henyey-Greenstein
    constants of atc-ll.c, of ozone_amount (gas-ll.c) and of the per-pixel part of
    atmo-ll.c (interpolation of the coarse grids, surface reflectance, background
    reflectance).  Simplification: float and double arithmetic is real arithmetic;
    a division by zero is UB where its result is converted to an integer. *)
From Coq Require Import Reals.
From Flocq Require Import Core.
From Verif Require Import Base Loops QaiModel RoundModel.
#[local] Open Scope R_scope.

(** 36-42. *)
Definition molecular_optical_depth (wvl : R) : R := 0.0088 * Rpower wvl (-4.15 + 0.2 * wvl).
(** 50-53, 60-63, 75-78 and 90-93, 101-104. *)
Definition aod_elev_factor (z Hp : R) : R := exp (- z / Hp).
Definition mod_elev_factor (z : R) : R := exp (- 0.1188 * z - 0.0016 * z * z).
Definition elev_scale (od is_ to_ : R) : R := od / is_ * to_.
Definition optical_depth (aod mod_ : R) : R := aod + mod_.

(** 123-137. *)
Record transmitt := mkTr { T_s : R; T_v : R; t_sd : R; t_ss : R; t_vd : R; t_vs : R }.
Definition scatt_transmitt (aod mod_ od ms mv : R) : R * transmitt :=
  let tmp := -1.0 * (0.52 * mod_ + 0.167 * aod) in
  let Ts := exp (tmp / ms) in
  let Tv := exp (tmp / mv) in
  let tvd := exp (-1.0 * od / mv) in
  let tvs := Tv - tvd in
  let tsd := exp (-1.0 * od / ms) in
  let tss := Ts - tsd in
  (Ts * Tv, mkTr Ts Tv tsd tss tvd tvs).

(** 155-177. *)
Definition path_ref (multi : bool) (sob aod mod_ od Pa Pr tsd tvd ms mv : R) : R :=
  if multi then
    let xav := sob * aod / od in
    let phase := aod / od * Pa + mod_ / od * Pr in
    let rv := 1.0 + 1.5 * mv + (1.0 - 1.5 * mv) * tvd in
    let rs := 1.0 + 1.5 * ms + (1.0 - 1.5 * ms) * tsd in
    1.0 - rv * rs / (4.0 + (3.0 - xav) * od) +
      ((3.0 + xav) * mv * ms - 2.0 * (mv + ms) + phase) * (1.0 - exp (- od * (1.0 / mv + 1.0 / ms))) / (mv + ms) / 4.0
  else aod * Pa / (4.0 * mv * ms) + mod_ * Pr / (4.0 * mv * ms).

(** 186-192, 201-207, 216-222, 234-240. *)
Definition sphere_albedo (aod mod_ od : R) : R := exp (-1.0 * od) * (0.92 * mod_ + 0.333 * aod).
Definition env_weight_aerosol (r : R) : R := 1.0 - (0.375 * exp (-0.2 * r) + 0.625 * exp (-1.83 * r)).
Definition env_weight_molecular (r : R) : R := 1.0 - (0.930 * exp (-0.8 * r) + 0.070 * exp (-1.10 * r)).
Definition env_weight (aod mod_ Fa Fr : R) : R := (0.8333 * aod * Fa + 0.5 * mod_ * Fr) / (0.8333 * aod + 0.5 * mod_).

(** 250-256, 263-269. *)
Definition backscatter (ms mv sazi vazi : R) : R := -1.0 * mv * ms - sqrt ((1 - mv * mv) * (1 - ms * ms)) * cos (vazi - sazi).
Definition phase_molecular (cospsi : R) : R := 0.75 * (1.0 + cospsi * cospsi).
(** atc-ll.c:55-63. *)
Definition hg_g1 : R := 0.801.
Definition hg_g2 : R := 0.580.
Definition hg_alpha : R := 0.948.
Record hgpar := mkHg { hg0 : R; hg1 : R; hg2 : R; hg3 : R; hg4 : R; hg5 : R }.
Definition hg : hgpar := mkHg ((1.0 - hg_g1 * hg_g1) * hg_alpha) ((1.0 - hg_g2 * hg_g2) * (1.0 - hg_alpha))
  (1.0 + hg_g1 * hg_g1) (1.0 + hg_g2 * hg_g2) (2.0 * hg_g1) (2.0 * hg_g2).
Definition hg_sob : R := 3.0 * (hg_alpha * (hg_g1 + hg_g2) - hg_g2).
(** 279-286. *)
Definition phase_aerosol (cospsi : R) (h : hgpar) : R :=
  hg0 h / Rpower (hg2 h - hg4 h * cospsi) 1.5 + hg1 h / Rpower (hg3 h + hg5 h * cospsi) 1.5.

(** 297-315: [bands] is the list of (_RSR_[b][wvl], _AW_[wvl]). *)
Definition wvp_transmitt (w m : R) (bands : list (R * R)) : R :=
  let tmp := w / m in
  let '(a, s) := fold_left (fun acc ra =>
      let '(rsr, aw) := ra in
      let tmp2 := aw * tmp in
      (fst acc + rsr * exp (-1.2110662 * tmp2 / Rpower (1 + 24.1229127 * tmp2) 0.3669996), snd acc + rsr)) bands (0, 0) in
  a / s.
(** 324-339: (_RSR_[b][wvl], _AO_[wvl]). *)
Definition ozone_transmitt (o m : R) (bands : list (R * R)) : R :=
  let tmp := - o / m in
  let '(a, s) := fold_left (fun acc ra => let '(rsr, ao) := ra in (fst acc + rsr * exp (ao * tmp), snd acc + rsr)) bands (0, 0) in
  a / s.
(** 350-353. *)
Definition gas_transmitt (Tsw Tvw Tso Tvo : R) : R := Tsw * Tvw * Tso * Tvo.
(** 362-371. *)
Definition fresnel_reflection (i : R) : R :=
  let i' := asin (sin i / 1.3333) in
  0.5 * (sin (i - i') / sin (i + i') * (sin (i - i') / sin (i + i')) +
         tan (i - i') / tan (i + i') * (tan (i - i') / tan (i + i'))).
(** 383-389, 400-410, 427-433, 449-455. *)
Definition illumin (csz ssz ctz stz sa ta : R) : R := csz * ctz + ssz * stz * cos (sa - ta).
Definition c_factor_emp (b m : R) : R := if Rlt_dec b 0 then 0 else if Rle_dec m 0 then 0 else b / m.
Definition c_factor_com (h0 f ms : R) : R := h0 * f * ms.
Definition f_factor (tss tsd : R) : R := tss / tsd.

(** gas-ll.c:577-602; _D2R_CONV_ is pi/180. *)
Definition d2r : R := PI / 180.
Definition ozone_amount (lon lat : R) (doy : Z) : R :=
  let north := if Rlt_dec 0 lat then true else false in
  let A := if north then 150 else 100 in
  let H := if north then 3 else 2 in
  let beta := if north then 1.28 else 1.5 in
  let C := if north then 40 else 30 in
  let F := if north then -30 else 152.625 in
  let I := if north then (if Rlt_dec 0 lon then 20 else if Rlt_dec lon 0 then 0 else -75) else -75 in
  (235 + (A + C * sin (0.9856 * (IZR doy + F) * d2r) + 20 * sin (H * (lon + I) * d2r)) * sin (beta * lat * d2r) * sin (beta * lat * d2r)) / 1000.

(** ** Interpolation of the coarse grids: atmo-ll.c:72-178 *)
Record iweights := mkW { gul : Z; gur : Z; gll : Z; glr : Z; wul : R; wur : R; wll : R; wlr : R; wtop : R; wdown : R }.
(** 84-96: the two cells around a coordinate, for one axis. *)
Definition axis_cells (x : R) (n : Z) : Z * Z :=
  let c := Zfloor x in
  let '(lo, hi) := if Rlt_dec (x - IZR c) 0.5 then ((c - 1)%Z, c) else (c, (c + 1)%Z) in
  ((if (lo <? 0)%Z then c else lo), (if (hi >=? n)%Z then c else hi)).
(** 114-140: weights of two neighbours and whether one of them is valid. *)
Definition pair_weights (same va vb : bool) (x ca cb : R) : R * R * bool :=
  if same then (0.5, 0.5, true)
  else if va && vb then ((cb - x) / (cb - ca), (x - ca) / (cb - ca), true)
  else if va then (1, 0, true)
  else if vb then (0, 1, true)
  else (0, 0, false).
(** COARSE is a list of optional values: None is nodata (the comparison of
    fequal with -9999 is exact for other grids). *)
Definition interpolation_weights (x y : R) (nf ne : Z) (valid : Z -> bool) : iweights :=
  let '(gleft, gright) := axis_cells x nf in
  let '(gtop, gdown) := axis_cells y ne in
  let ul := (gtop * nf + gleft)%Z in
  let ur := (gtop * nf + gright)%Z in
  let ll := (gdown * nf + gleft)%Z in
  let lr := (gdown * nf + gright)%Z in
  let same := (gleft =? gright)%Z in
  let cl := IZR gleft + 0.5 in
  let cr := IZR gright + 0.5 in
  let '(w1, w2, vtop) := pair_weights same (valid ul) (valid ur) x cl cr in
  let '(w3, w4, vdown) := pair_weights same (valid ll) (valid lr) x cl cr in
  let '(wt, wd, _) := pair_weights (gtop =? gdown)%Z vtop vdown y (IZR gtop + 0.5) (IZR gdown + 0.5) in
  mkW ul ur ll lr w1 w2 w3 w4 wt wd.
(** 163-174. *)
Definition interpolate_coarse (w : iweights) (grid : list R) : outcome R :=
  ul <- of_option (get_at grid (gul w)) ;;
  ur <- of_option (get_at grid (gur w)) ;;
  ll <- of_option (get_at grid (gll w)) ;;
  lr <- of_option (get_at grid (glr w)) ;;
  Ret (wtop w * (wul w * ul + wur w * ur) + wdown w * (wll w * ll + wlr w * lr)).

(** ** Surface reflectance: atmo-ll.c:191-386 *)
(** The interpolated values of one pixel and band (278-289, 318-320). *)
Record atmosphere := mkAtm { a_T : R; a_Ts : R; a_tss : R; a_tsd : R; a_tvs : R; a_tvd : R; a_s : R; a_rho : R; a_tg : R; a_brdf : R }.
(** 306-337: the factor A; 286-287 interpolate the grids of the band itself, not
    those of SWIR2, so f0 = f.  E0*Tvo*Tso > 0 cancels. *)
Definition topographic_factor (E0_ : R) (at_ : atmosphere) (szen ill sky cf : R) : R :=
  if Rlt_dec 0 ill then
    let ms := cos szen in
    let f := E0_ * a_tss at_ / (E0_ * a_tsd at_) in
    let tss_sw2 := a_tss at_ in
    let tsd_sw2 := a_tsd at_ in
    let f0 := E0_ * tss_sw2 / (E0_ * tsd_sw2) in
    let h0 := (PI + 2 * szen) / (2.0 * PI) in
    let A := (ms + cf / f0 * f / h0) / (ill + sky * cf / f0 * f / h0) in
    if Rlt_dec A 0 then -10000 else A
  else 1.
(** 347-353 and 355-359. *)
Definition target_reflectance (at_ : atmosphere) (A toa bck : R) : option R :=
  let tmp := 1 - bck * a_s at_ in
  if Req_EM_T (a_tg at_) 0 then None else if Req_EM_T (a_Ts at_ * a_tvd at_) 0 then None
  else Some (A * a_brdf at_ * (toa / a_tg at_ * tmp - a_rho at_ * tmp - a_Ts at_ * a_tvs at_ * bck) / (a_Ts at_ * a_tvd at_)).
Definition homogeneous_reflectance (at_ : atmosphere) (A toa : R) : option R :=
  if Req_EM_T (a_tg at_) 0 then None
  else
    let tmp := (toa - a_rho at_) / a_tg at_ in
    if Req_EM_T (a_T at_ + a_s at_ * tmp) 0 then None else Some (A * a_brdf at_ * tmp / (a_T at_ + a_s at_ * tmp)).
(** 374-388: the stored value and the quality word. *)
Definition R_lt (x y : R) : bool := if Rlt_dec x y then true else false.
Definition store_reflectance (erase_cloud : bool) (ref : option R) (qai : Z) : outcome (Z * Z) :=
  match ref with
  | None => UB
  | Some r =>
    q1 <- (if R_lt r 0 then set_flag Subzero qai 1 else Ret qai) ;;
    q2 <- (if R_lt 1 r then set_flag Saturation q1 1 else Ret q1) ;;
    if erase_cloud && (get_flag Cloud q2 =? 2)%Z then Ret ((-9999)%Z, q2)
    else if R_lt r (-1) then q3 <- set_flag Off q2 1 ;; Ret ((-9999)%Z, q3)
    else if R_lt 32767 (r * 10000) then Ret (32767%Z, q2)
    else Ret (Ztrunc (r * 10000), q2)
  end.
(** The settings doatmo, doenv, dotopo and erase_cloud. *)
Record settings := mkSet { do_atmo : bool; do_env : bool; do_topo : bool; erase_cloud : bool }.
Record pixel_in := mkPix { p_toa : Z; p_qai : Z; p_bck : Z; p_ill : Z; p_sky : Z; p_cf : Z; p_szen : R; p_E0 : R; p_atm : atmosphere }.
(** 266-388. *)
Definition surface_pixel (st : settings) (p : pixel_in) : outcome (Z * Z) :=
  if negb (get_flag Off (p_qai p) =? 0)%Z then Ret ((-9999)%Z, p_qai p)
  else
    let toa := IZR (p_toa p) / 10000 in
    let A := if do_topo st then topographic_factor (p_E0 p) (p_atm p) (p_szen p) (IZR (p_ill p) / 10000) (IZR (p_sky p) / 10000) (IZR (p_cf p) / 10000) else 1 in
    let ref := if do_atmo st then
        (if do_env st then target_reflectance (p_atm p) A toa (IZR (p_bck p) / 10000) else homogeneous_reflectance (p_atm p) A toa)
      else Some toa in
    store_reflectance (erase_cloud st) ref (p_qai p).

(** ** Background reflectance: atmo-ll.c:401-664 *)
(** One step of an exponential moving average (538-549): off pixels are skipped,
    clouds take the running value. *)
Definition ema_step (alpha : R) (off cld : Z -> bool) (src : list R -> Z -> outcome R) (st : R * list R) (p : Z) : outcome (R * list R) :=
  let '(old, avg) := st in
  if off p then Ret st
  else if cld p then avg' <- of_option (set_at avg p old) ;; Ret (old, avg')
  else
    v <- src avg p ;;
    let new := alpha * v + (1 - alpha) * old in
    avg' <- of_option (set_at avg p new) ;;
    Ret (new, avg').
(** 488-512: mean of the clear pixels of a row or column; the array is zero-filled. *)
Definition clear_mean (off cld : Z -> bool) (ref : list Z) (ps : list Z) : outcome R :=
  sn <- ofold (fun sn p => if off p || cld p then Ret sn
                           else v <- of_option (get_at ref p) ;; Ret (fst sn + IZR v / 10000, (snd sn + 1)%Z)) ps (0, 0%Z) ;;
  Ret (if (0 <? snd sn)%Z then fst sn / IZR (snd sn) else 0).
Definition from_ref (ref : list Z) (_ : list R) (p : Z) : outcome R := v <- of_option (get_at ref p) ;; Ret (IZR v / 10000).
Definition from_avg (avg : list R) (p : Z) : outcome R := of_option (get_at avg p).
(** 528-570 and 575-617: there and back along a row or column. *)
Definition sweep_line (alpha : R) (off cld : Z -> bool) (src : list R -> Z -> outcome R) (ref : list Z) (avg : list R) (ps : list Z) : outcome (list R) :=
  m <- clear_mean off cld ref ps ;;
  a <- ofold (ema_step alpha off cld src) ps (m, avg) ;;
  b <- ofold (ema_step alpha off cld from_avg) (rev ps) a ;;
  Ret (snd b).
Definition row_of (nx i : Z) : list Z := map (fun j => (i * nx + j)%Z) (zupto nx).
Definition col_of (nx ny j : Z) : list Z := map (fun i => (i * nx + j)%Z) (zupto ny).
(** One ring. *)
Definition ring_average (alpha : R) (nx ny : Z) (off cld : Z -> bool) (ref : list Z) : outcome (list R) :=
  a <- ofold (fun avg i => sweep_line alpha off cld (from_ref ref) ref avg (row_of nx i)) (zupto ny) (repeat 0 (Z.to_nat (nx * ny))) ;;
  ofold (fun avg j => sweep_line alpha off cld from_avg ref avg (col_of nx ny j)) (zupto nx) a.
(** 452-460, 622-634: radii, smoothing factors and influence of the rings. *)
Definition rings : list R := [0.25; 1.00; 4.50].
Definition ring_alpha (res km : R) : R := 2.0 / (km * 1000 / res + 1.0).
Definition ring_weight (aod mod_ km : R) : R := env_weight aod mod_ (env_weight_aerosol km) (env_weight_molecular km).
(** 641-664: the background of one pixel. *)
Definition background_pixel (aod mod_ F ref avg0 avg1 avg2 : R) : Z :=
  let F0 := ring_weight aod mod_ 0.25 in
  let F1 := ring_weight aod mod_ 1.00 in
  let F2 := ring_weight aod mod_ 4.50 in
  let d0 := F0 in
  let d1 := F1 - F0 in
  let d2 := F2 - F1 in
  let sF := d0 + d1 + d2 in
  let w_avg := (d0 * avg0 + d1 * avg1 + d2 * avg2) / sF in
  Ztrunc ((ref * F + (1 - F) * w_avg) * 10000).
Definition background (aod mod_ res : R) (nx ny : Z) (off cld : Z -> bool) (F : Z -> R) (ref : list Z) : outcome (list Z) :=
  r0 <- ring_average (ring_alpha res 0.25) nx ny off cld ref ;;
  r1 <- ring_average (ring_alpha res 1.00) nx ny off cld ref ;;
  r2 <- ring_average (ring_alpha res 4.50) nx ny off cld ref ;;
  omap (fun p => if off p then Ret 0%Z
                 else
                   v <- of_option (get_at ref p) ;;
                   a <- of_option (get_at r0 p) ;; b <- of_option (get_at r1 p) ;; c <- of_option (get_at r2 p) ;;
                   let z := background_pixel aod mod_ (F p) (IZR v / 10000) a b c in
                   if in_shortb z then Ret z else UB) (zupto (nx * ny)).

(** atmo-ll.c:271, 365 and 388, without atmospheric correction, in the arithmetic
    of the machine: toa (short) is divided by the double 10000.0 into a float, the
    float is multiplied by the double 10000.0 and converted to short. *)
Definition stored_toa (t : Z) : Z := Ztrunc (rnd64 (rnd32 (rnd64 (IZR t / 10000)) * 10000)).
