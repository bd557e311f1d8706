(** Model of src/modules/higher-level/polar-hl.c: the polar-transformed time series,
    the phenological seasons and the polarmetrics of one pixel (the loop over the
    pixels is parallel and independent; the array [polar] of a thread is overwritten
    from its first to its last entry for every pixel).  float is binary32, double
    binary64, computed bit by bit.  The mathematical library (cos, sin, atan2) is a
    parameter: nothing is assumed about it here. *)
From Flocq Require Import Core IEEE754.BinarySingleNaN.
From Verif Require Import Base Loops Float InterpModel.

(** (double)x of a float x and (float)x of a double x. *)
Definition widen (x : f32) : f64 :=
  match x with
  | B754_zero s => B754_zero s
  | B754_infinity s => B754_infinity s
  | B754_nan => B754_nan
  | B754_finite s m e _ => binary_normalize 53 1024 prec53 emax53 mode_NE (if s then Zneg m else Zpos m) e s
  end.
Definition narrow (x : f64) : f32 :=
  match x with
  | B754_zero s => B754_zero s
  | B754_infinity s => B754_infinity s
  | B754_nan => B754_nan
  | B754_finite s m e _ => binary_normalize 24 128 prec24 emax24 mode_NE (if s then Zneg m else Zpos m) e s
  end.

(** M_PI of math.h: the double nearest to pi. *)
Definition pi64 : f64 := binary_normalize 53 1024 prec53 emax53 mode_NE 7074237752028440 (-51) false.
Definition two_pi64 : f64 := f64_mul (f64_of_Z 2) pi64.

(** cos, sin and atan2 of the C library. *)
Record libm := mkLibm { m_cos : f64 -> f64; m_sin : f64 -> f64; m_atan2 : f64 -> f64 -> f64 }.

(** polar_t: 32-42. *)
Record polar := mkPolar {
  p_rad : f32; p_val : f32; p_cum : f32; p_pcx : f32; p_pcy : f32;
  p_doy : Z; p_year : Z; p_season : Z; p_ce : Z }.
Definition zero32 : f32 := B754_zero false.
Definition zero64 : f64 := B754_zero false.
(** memset(..., 0): 455. *)
Definition polar0 : polar := mkPolar zero32 zero32 zero32 zero32 zero32 0 0 0 0.
Definition with_season (p : polar) (s : Z) : polar :=
  mkPolar (p_rad p) (p_val p) (p_cum p) (p_pcx p) (p_pcy p) (p_doy p) (p_year p) s (p_ce p).
Definition with_cum (p : polar) (c : f32) : polar :=
  mkPolar (p_rad p) (p_val p) c (p_pcx p) (p_pcy p) (p_doy p) (p_year p) (p_season p) (p_ce p).

(** doy2ce: cross-level/date-cl.c:261-264. *)
Definition doy2ce (doy y : Z) : outcome Z := a <- chk_int (y * 365) ;; chk_int (a + doy).

(** r*365.0/(2.0*M_PI) in double (186, 443) and stored as float (71, 93). *)
Definition doy64_of_rad (r : f32) : f64 := f64_div (f64_mul (widen r) (f64_of_Z 365)) two_pi64.
Definition doy_of_rad (r : f32) : f32 := narrow (doy64_of_rad r).
(** doy/365.0*2.0*M_PI stored as float: 413. *)
Definition rad_of_doy (d : Z) : f32 :=
  narrow (f64_mul (f64_mul (f64_div (f64_of_Z d) (f64_of_Z 365)) (f64_of_Z 2)) pi64).

(** polar_coords: 67-82.  The fields cum and season are set later for every entry. *)
Definition polar_coords (L : libm) (r v : f32) (yr : f32) : outcome polar :=
  let doy := doy_of_rad r in
  y <- int_of yr ;;
  d <- int_of doy ;;
  c <- doy2ce d y ;;
  Ret (mkPolar r v zero32 (narrow (f64_mul (widen v) (m_cos L (widen r)))) (narrow (f64_mul (widen v) (m_sin L (widen r)))) d y 0 c).

(** A mean vector: the fields of polar_t set by polar_vector and ce_from_polar_vector. *)
Record vec := mkVec { v_rad : f32; v_val : f32; v_doy : Z; v_ce : Z }.

(** polar_vector: 85-103. *)
Definition vector_rad (L : libm) (x y : f32) : f32 :=
  let r := narrow (m_atan2 L (widen y) (widen x)) in
  if fle r zero32 then narrow (f64_add (widen r) two_pi64) else r.
Definition vector_val (x y : f32) : f32 :=
  narrow (Bsqrt mode_NE (widen (f32_add (f32_mul x x) (f32_mul y y)))).
Definition polar_vector (L : libm) (x y : f32) : outcome vec :=
  let r := vector_rad L x y in
  d <- int_of (doy_of_rad r) ;;
  Ret (mkVec r (vector_val x y) d 0).

(** ce_from_polar_vector: 107-119 ([s] is the season, small enough to be exact as float). *)
Definition ce_from_vector (s : Z) (theta : vec) (v : vec) : outcome vec :=
  c <- (if v_doy theta <? v_doy v then doy2ce (v_doy v) s else doy2ce (v_doy v) (s + 1)) ;;
  Ret (mkVec (v_rad v) (v_val v) (v_doy v) c).

(** The diametric opposite of a direction: 179-183, 438-442. *)
Definition opposite (r : f32) : f32 :=
  if flt (widen r) pi64 then narrow (f64_add (widen r) pi64) else narrow (f64_sub (widen r) pi64).

(** identify_regular_seasons: 122-139; [s] and [y] are the local variables. *)
Fixpoint regular (step tdoy s y : Z) (l : list polar) : outcome (list polar) :=
  match l with
  | [] => Ret []
  | p :: r =>
    t <- doy2ce tdoy y ;;
    b <- (if t <=? p_ce p then d <- chk_int (p_ce p - t) ;; Ret (d <=? step) else Ret false) ;;
    let s' := if b : bool then s + 1 else s in
    let y' := if b : bool then y + 1 else y in
    ps <- regular step tdoy s' y' r ;;
    Ret (with_season p s' :: ps)
  end.

(** identify_variable_seasons, the mean of a season: 161-176.  [l] is the series from
    i0 on; the second component is the series from the new i0 on if it moved. *)
Fixpoint season_mean (s : Z) (l : list polar) (x y n : f32) : (f32 * f32 * f32) * option (list polar) :=
  match l with
  | [] => ((x, y, n), None)
  | p :: r =>
    if p_season p <? s then season_mean s r x y n
    else if s <? p_season p then ((x, y, n), Some l)
    else season_mean s r (f32_add x (p_pcx p)) (f32_add y (p_pcy p)) (f32_add n (f32_of_Z 1))
  end.

(** The fine-tuned start of a season: 179-198. *)
Definition tune_start (s : Z) (theta_rad alpha : f32) : outcome vec :=
  let t := opposite alpha in
  let opp := narrow (f64_sub (widen alpha) pi64) in
  d <- int_of (doy64_of_rad t) ;;
  let yr := if flt opp zero32 && fle zero32 (f32_sub alpha theta_rad) then s - 1
            else if flt zero32 opp && flt (f32_sub alpha theta_rad) zero32 then s + 1 else s in
  c <- doy2ce d yr ;;
  Ret (mkVec t zero32 d c).

(** 159-199: the starts of the seasons [s], [s]+1, ... ([k] of them). *)
Fixpoint tune_starts (L : libm) (k : nat) (s : Z) (theta_rad : f32) (l : list polar) : outcome (list vec) :=
  match k with
  | O => Ret []
  | S k' =>
    let '((x, y, n), mv) := season_mean s l zero32 zero32 zero32 in
    a <- polar_vector L (f32_div x n) (f32_div y n) ;;
    t <- tune_start s theta_rad (v_rad a) ;;
    ts <- tune_starts L k' (s + 1) theta_rad (match mv with Some l' => l' | None => l end) ;;
    Ret (t :: ts)
  end.

(** 217: floor(abs(ce_shift)/(float)istep). *)
Definition shift_steps (ce_shift step : Z) : outcome Z :=
  a <- chk_int (Z.abs ce_shift) ;;
  int_of_floor (widen (f32_div (f32_of_Z a) (f32_of_Z step))).

(** 220-236: marking the entries to be moved to the previous or next season. *)
Definition mark (ce_shift k ni i : Z) (diff : list Z) : list Z :=
  if 0 <? ce_shift
  then fold_left (fun d ii => if ni <=? i + ii then d else list_set d (Z.to_nat (i + ii)) (-1)) (zupto k) diff
  else fold_left (fun d ii => if i - ii - 1 <? 0 then d else list_set d (Z.to_nat (i - ii - 1)) 1) (zupto k) diff.

(** 202-243: [i] is the index of the head of [l]; [s] the season before it. *)
Fixpoint shifts (tdoy step ns ni : Z) (t0 : list vec) (s i : Z) (l : list polar) (diff : list Z) : outcome (list Z) :=
  match l with
  | [] => Ret diff
  | p :: r =>
    if p_season p =? s then shifts tdoy step ns ni t0 s (i + 1) r diff
    else if ns <=? p_season p then Ret diff
    else
      tc <- doy2ce tdoy (p_season p) ;;
      v <- of_option (get_at t0 (p_season p)) ;;
      sh <- chk_int (v_ce v - tc) ;;
      k <- shift_steps sh step ;;
      shifts tdoy step ns ni t0 (p_season p) (i + 1) r (mark sh k ni i diff)
  end.

Definition apply_diff (l : list polar) (diff : list Z) : list polar :=
  map (fun q => with_season (fst q) (p_season (fst q) + snd q)) (combine l diff).

(** identify_variable_seasons: 142-251: the series with the new seasons and the starts. *)
Definition variable (L : libm) (adaptive : bool) (ns step : Z) (theta : vec) (l : list polar)
  : outcome (list polar * list vec) :=
  if negb adaptive then Ret (l, repeat (mkVec zero32 zero32 0 0) (Z.to_nat ns))
  else
    t0 <- tune_starts L (Z.to_nat ns) 0 (v_rad theta) l ;;
    match l with
    | [] => UB
    | p :: r =>
      diff <- shifts (v_doy theta) step ns (zlen l) t0 (p_season p) 1 r (repeat 0 (length l)) ;;
      Ret (apply_diff l diff, t0)
    end.

(** accumulate_seasons, running sums: 259-271. *)
Fixpoint running (s : Z) (c : f32) (l : list polar) : list polar :=
  match l with
  | [] => []
  | p :: r =>
    let c' := if p_season p =? s then f32_add c (p_val p) else p_val p in
    with_cum p c' :: running (p_season p) c' r
  end.
(** 273-286: shares of the sum of the season, from the last entry to the first ([l] reversed). *)
Fixpoint shares (s : Z) (sum : f32) (l : list polar) : list polar :=
  match l with
  | [] => []
  | p :: r =>
    let sum' := if p_season p =? s then sum else p_cum p in
    with_cum p (f32_div (p_cum p) sum') :: shares (p_season p) sum' r
  end.
(** accumulate_seasons: 254-289. *)
Definition accumulate (l : list polar) : outcome (list polar) :=
  match l with
  | [] => UB
  | p :: r =>
    let up := with_cum p (p_val p) :: running (p_season p) (p_val p) r in
    match rev up with
    | [] => UB
    | q :: _ => Ret (rev (shares (p_season q) (p_cum q) (rev up)))
    end
  end.

(** An interpolated observation: value, day of year, year and day since 0000. *)
Record obs := mkObs { o_val : Z; o_doy : Z; o_year : Z; o_ce : Z }.

(** 388-394: the next observation with data. *)
Fixpoint next_valid (nodata : Z) (l : list obs) (none : f32 * f32) : f32 * f32 :=
  match l with
  | [] => none
  | o :: r => if o_val o =? nodata then next_valid nodata r none else (f32_of_Z (o_ce o), f32_of_Z (o_val o))
  end.

(** The value of one observation: 373-411; [left] is the nearest observation with data
    before it (found by scanning backwards in the code), (INT_MIN, nodata) if there is none. *)
Definition fill (nodata : Z) (left : f32 * f32) (o : obs) (r : list obs) : f32 * bool :=
  if o_val o =? nodata then
    let right := next_valid nodata r (f32_of_Z INT_MIN, f32_of_Z nodata) in
    let ce := f32_of_Z (o_ce o) in
    let l_ok := flt zero32 (fst left) in
    let r_ok := flt zero32 (fst right) in
    if l_ok && r_ok then
      (f32_div (f32_add (f32_mul (snd left) (f32_sub (fst right) ce)) (f32_mul (snd right) (f32_sub ce (fst left))))
               (f32_sub (fst right) (fst left)), true)
    else if l_ok then (snd left, true)
    else if r_ok then (snd right, true)
    else (f32_of_Z nodata, false)
  else (f32_of_Z (o_val o), true).

(** The loop 371-425: the polar coordinates and whether all values could be filled.
    414: negative values become 0. *)
Fixpoint coords (L : libm) (nodata year_min : Z) (left : f32 * f32) (l : list obs) : outcome (list polar * bool) :=
  match l with
  | [] => Ret ([], true)
  | o :: r =>
    let '(v, ok) := fill nodata left o r in
    let v' := if flt v zero32 then zero32 else v in
    yr <- chk_int (o_year o - year_min) ;;
    p <- polar_coords L (rad_of_doy (o_doy o)) v' (f32_of_Z yr) ;;
    q <- coords L nodata year_min
           (if o_val o =? nodata then left else (f32_of_Z (o_ce o), f32_of_Z (o_val o))) r ;;
    Ret (p :: fst q, ok && snd q)
  end.

(** 422-432: the mean of all polar coordinates. *)
Definition mean_of (f : polar -> f32) (l : list polar) : f32 :=
  f32_div (fold_left (fun a p => f32_add a (f p)) l zero32) (f32_of_Z (zlen l)).

(** Parameters: POL_START_THRESHOLD, POL_MID_THRESHOLD, POL_END_THRESHOLD, POL_ADAPTIVE, the
    number of years, INT_DAY. *)
Record pol_par := mkPar { k_start : f32; k_mid : f32; k_end : f32; k_adaptive : bool; k_ny : Z; k_step : Z }.
(** pol.ns: param-hl.c:1081. *)
Definition k_ns (k : pol_par) : Z := k_ny k - 1.

(** The local variables of a season: timing, mean_window, n_window, max_rate, mean_rate, recurrence. *)
Record season_st := mkSt {
  t_left : polar; t_start : polar; t_mid : polar; t_peak : polar; t_end : polar; t_right : polar;
  g_mean : f64; g_var : f64; n_grow : Z; x_grow : f32; y_grow : f32;
  n_early : Z; x_early : f32; y_early : f32; mean_rise : f32; max_rise : f32;
  n_late : Z; x_late : f32; y_late : f32; mean_fall : f32; max_fall : f32 }.
Definition season_st0 : season_st :=
  mkSt polar0 polar0 polar0 polar0 polar0 polar0 zero64 zero64 0 zero32 zero32
       0 zero32 zero32 zero32 zero32 0 zero32 zero32 zero32 zero32.

(** var_recurrence: cross-level/stats-cl.c:198-207. *)
Definition var_mean (x m n : f64) : f64 := f64_add m (f64_div (f64_sub x m) n).
Definition var_var (x m m' v : f64) : f64 := f64_add v (f64_mul (f64_sub x m) (f64_sub x m')).

(** timing[...]: the first entry meeting a condition; cum == 0 marks an event not yet found. *)
Definition first_hit (t : polar) (hit : bool) (p : polar) : polar :=
  if hit && feq (p_cum t) zero32 then p else t.
(** cum >= threshold. *)
Definition reached (p : polar) (t : f32) : bool := fle t (p_cum p).
(** start <= cum < end: the growing season, and its early and late parts. *)
Definition within (p : polar) (a b : f32) : bool := reached p a && flt (p_cum p) b.

(** The change from the previous entry: i > 0 && polar[i].val - polar[i-1].val > 0 (or < 0). *)
Definition rise (prev : option polar) (p : polar) : option f32 :=
  match prev with
  | Some q => let d := f32_sub (p_val p) (p_val q) in if flt zero32 d then Some d else None
  | None => None
  end.
Definition fall (prev : option polar) (p : polar) : option f32 :=
  match prev with
  | Some q => if flt (f32_sub (p_val p) (p_val q)) zero32 then Some (f32_sub (p_val q) (p_val p)) else None
  | None => None
  end.

(** 471-536: one entry [p] of the season; [prev], [next] are its neighbours in the series. *)
Definition season_step (k : pol_par) (prev : option polar) (p : polar) (next : option polar) (st : season_st) : season_st :=
  let grow := within p (k_start k) (k_end k) in
  let early := within p (k_start k) (k_mid k) in
  let late := within p (k_mid k) (k_end k) in
  let one := f32_of_Z 1 in
  let ng := n_grow st + 1 in
  let m' := var_mean (widen (p_val p)) (g_mean st) (f64_of_Z ng) in
  let v' := var_var (widen (p_val p)) (g_mean st) m' (g_var st) in
  let up := match rise prev p with Some d => Some (f32_div d (f32_of_Z (k_step k))) | None => None end in
  let down := match fall prev p with Some d => Some (f32_div d (f32_of_Z (k_step k))) | None => None end in
  let addr a o := match o with Some d => f32_add a d | None => a end in
  let maxr a o := match o with Some d => if flt a d then d else a | None => a end in
  mkSt
    (first_hit (t_left st) (flt zero32 (p_cum p)) p)
    (first_hit (t_start st) (reached p (k_start k)) p)
    (first_hit (t_mid st) (reached p (k_mid k)) p)
    (if grow && flt (p_val (t_peak st)) (p_val p) then p else t_peak st)
    (first_hit (t_end st) (reached p (k_end k)) p)
    (if feq (p_cum p) one then match next with Some q => q | None => p end else t_right st)
    (if grow then m' else g_mean st)
    (if grow then v' else g_var st)
    (if grow then ng else n_grow st)
    (if grow then f32_add (x_grow st) (p_pcx p) else x_grow st)
    (if grow then f32_add (y_grow st) (p_pcy p) else y_grow st)
    (if early then n_early st + 1 else n_early st)
    (if early then f32_add (x_early st) (p_pcx p) else x_early st)
    (if early then f32_add (y_early st) (p_pcy p) else y_early st)
    (if early then addr (mean_rise st) up else mean_rise st)
    (if early then maxr (max_rise st) up else max_rise st)
    (if late then n_late st + 1 else n_late st)
    (if late then f32_add (x_late st) (p_pcx p) else x_late st)
    (if late then f32_add (y_late st) (p_pcy p) else y_late st)
    (if late then addr (mean_fall st) down else mean_fall st)
    (if late then maxr (max_fall st) down else max_fall st).

Definition head {A} (l : list A) : option A := match l with a :: _ => Some a | [] => None end.

(** The first loop over a season: 466-538, from i0 on. *)
Fixpoint season_pass (k : pol_par) (s : Z) (prev : option polar) (l : list polar) (st : season_st) : season_st :=
  match l with
  | [] => st
  | p :: r =>
    if p_season p <? s then season_pass k s (Some p) r st
    else if s <? p_season p then st
    else season_pass k s (Some p) r (season_step k prev p (head r) st)
  end.

(** The integrals of a season (double). *)
Record integrals := mkInt { i_green : f64; i_season : f64; i_latent : f64; i_total : f64; i_rise : f64; i_fall : f64 }.
Definition integrals0 : integrals := mkInt zero64 zero64 zero64 zero64 zero64 zero64.

(** 569-599: one entry; val-green_val etc. times the step is computed in float, the sum in double. *)
Definition integral_step (k : pol_par) (green base : f32) (prev : option polar) (p : polar) (a : integrals) : integrals :=
  let st := f32_of_Z (k_step k) in
  let add x d := f64_add x (widen (f32_mul d st)) in
  mkInt
    (if within p (k_start k) (k_end k) && flt green (p_val p) then add (i_green a) (f32_sub (p_val p) green) else i_green a)
    (if flt base (p_val p) then add (i_season a) (f32_sub (p_val p) base) else i_season a)
    (if flt base (p_val p) then add (i_latent a) base else add (i_latent a) (p_val p))
    (add (i_total a) (p_val p))
    (match rise prev p with Some d => add (i_rise a) d | None => i_rise a end)
    (match fall prev p with Some d => add (i_fall a) d | None => i_fall a end).

(** The second loop: 564-601; it also moves i0 to the first entry of a later season. *)
Fixpoint integral_pass (k : pol_par) (s : Z) (green base : f32) (prev : option polar) (l : list polar) (a : integrals)
  : integrals * option (option polar * list polar) :=
  match l with
  | [] => (a, None)
  | p :: r =>
    if p_season p <? s then integral_pass k s green base (Some p) r a
    else if s <? p_season p then (a, Some (prev, l))
    else integral_pass k s green base (Some p) r (integral_step k green base prev p a)
  end.

(** (a+b)/2.0: 559, 560. *)
Definition middle (a b : f32) : f32 := narrow (f64_div (widen (f32_add a b)) (f64_of_Z 2)).

(** The results of a season from which the metrics are written. *)
Record season_res := mkRes {
  r_st : season_st; r_grow : vec; r_early : vec; r_late : vec; r_green : f32; r_base : f32;
  r_rise : f32; r_fall : f32; r_int : integrals; r_theta : Z; r_theta0 : Z }.

(** The metrics: enum in cross-level/enum-cl.h:192-198. *)
Inductive metric :=
| DEM | DLM | DPS | DSS | DMS | DES | DEV | DAV | DLV | LTS | LGS | LGV | VEM | VLM | VPS | VSS | VMS | VES
| VEV | VAV | VLV | VBL | VGA | VSA | VPA | VGM | VGV | DPY | DPV | IST | IBL | IBT | IGS | IRR | IFR | RAR
| RAF | RMR | RMF.

(** (short) of an int, of a difference of ints, of a float or double divided or multiplied. *)
Definition sub_short (a b : Z) : outcome Z := d <- chk_int (a - b) ;; Ret (to_short d).
Definition per (x : f64) (d : Z) : outcome Z := short_of_float (f64_div x (f64_of_Z d)).
Definition times30 (x : f32) : outcome Z := short_of_float (f32_mul x (f32_of_Z 30)).

(** The value stored for a metric: 604-653. *)
Definition stored (r : season_res) (m : metric) : outcome Z :=
  let t := r_st r in
  match m with
  | DEM => Ret (to_short (p_ce (t_left t)))
  | DSS => Ret (to_short (p_ce (t_start t)))
  | DMS => Ret (to_short (p_ce (t_mid t)))
  | DPS => Ret (to_short (p_ce (t_peak t)))
  | DES => Ret (to_short (p_ce (t_end t)))
  | DLM => Ret (to_short (p_ce (t_right t)))
  | DEV => Ret (to_short (v_ce (r_early r)))
  | DAV => Ret (to_short (v_ce (r_grow r)))
  | DLV => Ret (to_short (v_ce (r_late r)))
  | DPY => Ret (to_short (r_theta r))
  | DPV => sub_short (r_theta0 r) (r_theta r)
  | LGS => sub_short (p_ce (t_end t)) (p_ce (t_start t))
  | LGV => sub_short (v_ce (r_late r)) (v_ce (r_early r))
  | LTS => sub_short (p_ce (t_right t)) (p_ce (t_left t))
  | VEM => short_of_float (p_val (t_left t))
  | VSS => short_of_float (p_val (t_start t))
  | VMS => short_of_float (p_val (t_mid t))
  | VPS => short_of_float (p_val (t_peak t))
  | VLM => short_of_float (p_val (t_right t))
  | VES => short_of_float (p_val (t_end t))
  | VEV => short_of_float (v_val (r_early r))
  | VAV => short_of_float (v_val (r_grow r))
  | VLV => short_of_float (v_val (r_late r))
  | VBL => short_of_float (r_base r)
  | VGM => short_of_float (g_mean t)
  | VGV => short_of_float (Bsqrt mode_NE (f64_div (g_var t) (f64_sub (f64_of_Z (n_grow t)) (f64_of_Z 1))))
  | VGA => short_of_float (f32_sub (p_val (t_peak t)) (r_green r))
  | VPA => short_of_float (f32_sub (p_val (t_peak t)) (p_val (t_mid t)))
  | VSA => short_of_float (f32_sub (p_val (t_peak t)) (r_base r))
  | IST => per (i_season (r_int r)) 365
  | IBL => per (i_latent (r_int r)) 365
  | IBT => per (i_total (r_int r)) 365
  | IGS => per (i_green (r_int r)) 365
  | IRR => per (i_rise (r_int r)) 30
  | IFR => per (i_fall (r_int r)) 30
  | RAR => times30 (r_rise r)
  | RAF => times30 (r_fall r)
  | RMR => times30 (max_rise t)
  | RMF => times30 (max_fall t)
  end.

(** One season: 455-601; [prev], [l] are the series around i0. *)
Definition season_run (L : libm) (k : pol_par) (theta : vec) (theta0 : Z) (s : Z) (prev : option polar) (l : list polar)
  : outcome (season_res * option (option polar * list polar)) :=
  tc <- doy2ce (v_doy theta) s ;;
  let st := season_pass k s prev l season_st0 in
  let ng := f32_of_Z (n_grow st) in
  let ne := f32_of_Z (n_early st) in
  let nl := f32_of_Z (n_late st) in
  g <- polar_vector L (f32_div (x_grow st) ng) (f32_div (y_grow st) ng) ;;
  e <- polar_vector L (f32_div (x_early st) ne) (f32_div (y_early st) ne) ;;
  w <- polar_vector L (f32_div (x_late st) nl) (f32_div (y_late st) nl) ;;
  g' <- ce_from_vector s theta g ;;
  e' <- ce_from_vector s theta e ;;
  w' <- ce_from_vector s theta w ;;
  let green := middle (p_val (t_start st)) (p_val (t_end st)) in
  let base := middle (p_val (PolModel.t_left st)) (p_val (t_right st)) in
  let '(a, mv) := integral_pass k s green base prev l integrals0 in
  Ret (mkRes st g' e' w' green base (f32_div (mean_rise st) ne) (f32_div (mean_fall st) nl) a tc theta0, mv).

(** 462: the year of a season. *)
Definition band_of (theta : vec) (s : Z) : Z := if v_doy theta <? 182 then s else s + 1.

(** Writing the requested metrics of a season: ts->pol_[m][y][p] = ...; [bands] holds, per
    requested metric, one value per year. *)
Fixpoint write_metrics (r : season_res) (y : Z) (ms : list metric) (bands : list (list Z)) : outcome (list (list Z)) :=
  match ms, bands with
  | m :: ms', b :: bs =>
    v <- stored r m ;;
    b' <- of_option (set_at b y v) ;;
    bs' <- write_metrics r y ms' bs ;;
    Ret (b' :: bs')
  | _, _ => Ret bands
  end.

(** The loop over the seasons: 453-655. *)
Fixpoint season_loop (L : libm) (k : pol_par) (theta : vec) (t0 : list vec) (ms : list metric)
    (n : nat) (s : Z) (prev : option polar) (l : list polar) (bands : list (list Z)) : outcome (list (list Z)) :=
  match n with
  | O => Ret bands
  | S n' =>
    v <- of_option (get_at t0 s) ;;
    q <- season_run L k theta (v_ce v) s prev l ;;
    b <- write_metrics (fst q) (band_of theta s) ms bands ;;
    let '(prev', l') := match snd q with Some x => x | None => (prev, l) end in
    season_loop L k theta t0 ms n' (s + 1) prev' l' b
  end.

(** The direction of the mean of the whole series and the start of the phenological year: 430-443. *)
Definition start_of_year (L : libm) (l : list polar) : outcome vec :=
  a <- polar_vector L (mean_of p_pcx l) (mean_of p_pcy l) ;;
  let t := opposite (v_rad a) in
  d <- int_of (doy64_of_rad t) ;;
  Ret (mkVec t zero32 d 0).

(** The three passes over the series: 446-450. *)
Definition seasons (L : libm) (k : pol_par) (theta : vec) (l : list polar) : outcome (list polar * list vec) :=
  a <- regular (k_step k) (v_doy theta) (-1) 0 l ;;
  b <- variable L (k_adaptive k) (k_ns k) (k_step k) theta a ;;
  c <- accumulate (fst b) ;;
  Ret (c, snd b).

(** nodata in every year of every requested metric: 354-359. *)
Definition empty_bands (k : pol_par) (nodata : Z) (ms : list metric) : list (list Z) :=
  map (fun _ => repeat nodata (Z.to_nat (k_ny k))) ms.

(** The metrics of a pixel from its coordinates: 427-658. *)
Definition metrics (L : libm) (k : pol_par) (nodata : Z) (ms : list metric) (l : list polar) : outcome (list (list Z)) :=
  theta <- start_of_year L l ;;
  q <- seasons L k theta l ;;
  season_loop L k theta (snd q) ms (Z.to_nat (k_ns k)) 0 None (fst q) (empty_bands k nodata ms).

(** One pixel: 354-660.  [ms] are the requested metrics; the result are the polar-transformed
    series (PCX, PCY; None if it is not requested or not written) and the metrics. *)
Definition pixel (L : libm) (k : pol_par) (opct : bool) (nodata year_min : Z) (masked : bool) (ms : list metric)
    (l : list obs) : outcome (option (list Z * list Z) * list (list Z)) :=
  if masked then Ret (None, empty_bands k nodata ms)
  else
    c <- coords L nodata year_min (f32_of_Z INT_MIN, f32_of_Z nodata) l ;;
    pct <- (if opct then
              xs <- omap (fun p => short_of_float (p_pcx p)) (fst c) ;;
              ys <- omap (fun p => short_of_float (p_pcy p)) (fst c) ;;
              Ret (Some (xs, ys))
            else Ret None) ;;
    if snd c then m <- metrics L k nodata ms (fst c) ;; Ret (pct, m)
    else Ret (pct, empty_bands k nodata ms).

(** polar_ts before the loop over the pixels: 334-339: without a requested metric nothing is
    computed and the function returns CANCEL, which tsa_polar turns into SUCCESS. *)
Definition polar_ts (L : libm) (k : pol_par) (opct : bool) (nodata year_min : Z) (masked : bool) (ms : list metric)
    (l : list obs) : outcome (rc * (option (list Z * list Z) * list (list Z))) :=
  match ms with
  | [] => Ret (CANCEL, (None, []))
  | _ => r <- pixel L k opct nodata year_min masked ms l ;; Ret (SUCCESS, r)
  end.
