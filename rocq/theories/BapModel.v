(** Best available pixel compositing of one pixel: src/modules/higher-level/bap-hl.c,
    the pixel loop of level3-hl.c:308-342, and the choice of the score function in
    param-hl.c:1125-1155.

    Simplified: float and double are the real numbers, without rounding; NaN is
    None.  The fit of the sigmoids by GSL (optimize_logistic_target) is a parameter.
    Output arrays are zero when the pixel is reached (calloc). *)
From Coq Require Import Reals.
From Flocq Require Import Core.
From Verif Require Import Base Loops StatsModel DateModel QaiModel AggModel.
#[local] Open Scope Z_scope.

(** Numbers that may be NaN; comparisons with NaN are false. *)
Definition num := option R.
Definition num_lt (a : num) (b : R) : bool := match a with Some x => if Rlt_dec x b then true else false | None => false end.
Definition num_gt (a : num) (b : R) : bool := match a with Some x => if Rlt_dec b x then true else false | None => false end.
Definition num_mul (c : R) (a : num) : num := option_map (Rmult c) a.
Definition num_op (f : R -> R -> R) (a b : num) : num := match a, b with Some x, Some y => Some (f x y) | _, _ => None end.
Definition positive (x : R) : bool := if Rlt_dec 0 x then true else false.
Definition isnull (x : R) : bool := if Req_EM_T x 0 then true else false.

(** (int)x of a real; None: NaN. *)
Definition int_of_real (x : R) : outcome Z := if in_intb (Ztrunc x) then Ret (Ztrunc x) else UB.

(** par_scr_t: param-hl.h:75-83.  Only t, d and y can become NaN. *)
Record scores := mkScores { s_t : num; s_d : num; s_y : num; s_c : R; s_h : R; s_r : R; s_v : R }.

(** par_bap_t: param-hl.h:94-122.  [w_*]: the weights. *)
Record bap := mkBap {
  b_Yt : Z; b_Yr : Z; b_Yf : R; b_Dt0 : Z; b_Dt1 : Z; b_Dt2 : Z; b_Ds0 : R; b_Ds1 : R; b_Ds2 : R;
  b_offsea : bool; b_cloudy : bool; b_hazy : bool; b_select : bool; b_mul : bool;
  w_d : R; w_y : R; w_c : R; w_h : R; w_r : R; w_v : R; b_dreq : R; b_hreq : R; b_vreq : R;
  out_bap : bool; out_inf : bool; out_scr : bool;
  b_fit : Z -> Z -> R * R }.

(** w.t: param-hl.c:1128-1136. *)
Definition pos (w : R) : R := if positive w then w else 0%R.
Definition w_total (b : bap) : R := (0 + pos (w_d b) + pos (w_y b) + pos (w_c b) + pos (w_h b) + pos (w_r b) + pos (w_v b))%R.
(** 1148-1155; the structure is zeroed, and 0 is _SCR_TYPE_GAUSS_. *)
Inductive stype := Gauss | Descending | Ascending.
Definition score_type (b : bap) : stype :=
  if (if Rlt_dec (b_Ds0 b) (b_Ds1 b) then true else false) && (if Rlt_dec (b_Ds2 b) (b_Ds1 b) then true else false) then Gauss
  else if Rlt_dec (b_Ds2 b) (b_Ds0 b) then Descending
  else if Rlt_dec (b_Ds0 b) (b_Ds2 b) then Ascending
  else Gauss.

(** ** Temporal target *)

(** Width of a tail of the Gaussian. *)
Inductive width := Fin (s : R) | Infinite | NotANumber.
Record target := mkTarget { t0 : Z; t1 : Z; t2 : Z; t_a : width; t_b : width; t_fit : R * R }.

(** fabs(dist/sqrt(-2*log(s/s1))): bap-hl.c:140-141. *)
Definition tail_width (dist : Z) (s s1 : R) : width :=
  if isnull s1 then NotANumber
  else if isnull s then Fin 0                                     (* log(0) is -inf *)
  else
    let l := ln (s / s1) in
    if Rlt_dec 0 l then NotANumber                                 (* sqrt of a negative number *)
    else if isnull l then if dist =? 0 then NotANumber else Infinite
    else Fin (Rabs (IZR dist / sqrt (-2 * l))).

(** compile_target_static: bap-hl.c:167-193, and target_function 119-151. *)
Definition static_target (b : bap) (y : Z) : target :=
  let year := b_Yt b - b_Yr b + y in
  let c0 := doy2ce (b_Dt0 b) (if b_Dt0 b >? b_Dt1 b then year - 1 else year) in
  let c1 := doy2ce (b_Dt1 b) year in
  let c2 := doy2ce (b_Dt2 b) (if b_Dt2 b <? b_Dt1 b then year + 1 else year) in
  mkTarget c0 c1 c2 (tail_width (c0 - c1) (b_Ds0 b) (b_Ds1 b)) (tail_width (c2 - c1) (b_Ds2 b) (b_Ds1 b)) (b_fit b (c0 - c1) (c2 - c1)).
Definition static_targets (b : bap) : list target := map (static_target b) (zupto (2 * b_Yr b + 1)).

(** ** Observations and scores *)

(** One observation of the pixel: valid (msk), bands, QAI, day, year, day of the year
    and sensor id, and the auxiliary bands. *)
Record obs := mkObs { o_valid : bool; o_dat : list Z; o_qai : Z; o_ce : Z; o_year : Z; o_doy : Z; o_sensor : Z; o_dst : Z; o_hot : Z; o_vzn : Z }.

(** pixel_is_water: bap-hl.c:322-337 (the quotient is exact here). *)
Definition is_water (os : list obs) : bool :=
  let valid := filter o_valid os in
  let n := zlen valid in
  let nwater := zlen (filter (fun o => negb (get_flag Water (o_qai o) =? 0)) valid) in
  (0 <? n) && (10 * nwater >? 9 * n).

(** corr_matrix: bap-hl.c:352-403.  -9999: no correlation. *)
Definition no_cor : R := (-9999)%R.
Definition dsum (f : Z -> Z -> R) (x y : list Z) : R := fold_left (fun a p => (a + f (fst p) (snd p))%R) (combine x y) 0%R.
Definition pair_cor (x y : list Z) : R :=
  let nb := IZR (zlen x) in
  let xm := (dsum (fun a _ => IZR a) x y / nb)%R in
  let ym := (dsum (fun _ c => IZR c) x y / nb)%R in
  let cv := dsum (fun a c => (IZR a - xm) * (IZR c - ym))%R x y in
  let xv := dsum (fun a _ => (IZR a - xm) * (IZR a - xm))%R x y in
  let yv := dsum (fun _ c => (IZR c - ym) * (IZR c - ym))%R x y in
  if isnull (sqrt (xv * yv)) then no_cor else (cv / sqrt (xv * yv))%R.
(** 357-386: the matrix; the diagonal keeps 0. *)
Definition cor_cell (t u : Z) (a b : obs) : R :=
  if t =? u then 0%R else if o_valid a && o_valid b then (if t <? u then pair_cor (o_dat a) (o_dat b) else pair_cor (o_dat b) (o_dat a)) else no_cor.
(** 388-399: one row; the mean overwrites the first column as the loop goes. *)
Definition mean_step (t : Z) (st : list R * R * R) (u : Z) : outcome (list R * R * R) :=
  let '(row, xm, ym) := st in
  c <- of_option (get_at row u) ;;
  if (t =? u) || (if Req_EM_T c no_cor then true else false) then Ret st
  else
    let xm := (xm + Rabs c)%R in
    let ym := (ym + 1)%R in
    row <- of_option (set_at row 0 (xm / ym)%R) ;; Ret (row, xm, ym).
Definition cor_mean (os : list obs) (t : Z) (a : obs) : outcome R :=
  let row := map (fun p => cor_cell t (fst p) a (snd p)) (combine (zupto (zlen os)) os) in
  st <- ofold (mean_step t) (zupto (zlen os)) (row, 0%R, 0%R) ;;
  of_option (get_at (fst (fst st)) 0).

(** 518-522: the closest target. *)
Definition closest (ts : list target) (ce : Z) : option target :=
  snd (fold_left (fun st g => if Z.abs (ce - t1 g) <? fst st then (Z.abs (ce - t1 g), Some g) else st) ts (2147483647, hd_error ts)).

(** bap->Ds[1] * exp(num/(-2*s*s)): 540-562. *)
Definition gauss (s1 : R) (dist2 : Z) (w : width) : num :=
  match w with
  | NotANumber => None
  | Infinite => Some (s1 * 1)%R
  | Fin s => if isnull s then if dist2 =? 0 then None else Some (s1 * 0)%R
             else Some (s1 * exp (IZR dist2 / (-2 * s * s)))%R
  end.
(** slice = days/((Yr+1)*Yf): 548, 558, 580, 601; days of the tail. *)
Definition slice (b : bap) (days : Z) : outcome Z :=
  if isnull (IZR (b_Yr b + 1) * b_Yf b) then UB else int_of_real (IZR days / (IZR (b_Yr b + 1) * b_Yf b))%R.
(** dy*slice*dy*slice as int. *)
Definition square (dy s : Z) : outcome Z := a <- chk_int (dy * s) ;; b <- chk_int (a * dy) ;; chk_int (b * s).
Definition logistic (s : R) (fit : R * R) (x : Z) : R := (s / (1 + exp (fst fit * IZR x + snd fit)))%R.

(** DOY and year score and the distance to the target: 527-612. *)
Definition temporal (b : bap) (g : target) (o : obs) : outcome (num * num * Z) :=
  let dist := o_ce o - t1 g in
  let dy := Z.abs (o_year o - b_Yt b) in
  match score_type b with
  | Gauss =>
      d2 <- chk_int (dist * dist) ;;
      if o_ce o <? t1 g then
        s <- slice b (t1 g - t0 g) ;; y2 <- square dy s ;;
        Ret (gauss (b_Ds1 b) d2 (t_a g), gauss (b_Ds1 b) y2 (t_a g), dist)
      else
        s <- slice b (t2 g - t1 g) ;; y2 <- square dy s ;;
        Ret (gauss (b_Ds1 b) d2 (t_b g), gauss (b_Ds1 b) y2 (t_b g), dist)
  | Descending =>
      if o_ce o <? t0 g then Ret (Some 0%R, Some 0%R, o_ce o - t0 g)
      else
        s <- slice b (t1 g - t0 g) ;; k <- chk_int (dy * s) ;;
        Ret (Some (logistic (b_Ds0 b) (t_fit g) dist), Some (logistic (b_Ds0 b) (t_fit g) (t0 g + k - t1 g)), o_ce o - t0 g)
  | Ascending =>
      if o_ce o >? t2 g then Ret (Some 0%R, Some 0%R, o_ce o - t2 g)
      else
        s <- slice b (t2 g - t1 g) ;; k <- chk_int (dy * s) ;;
        Ret (Some (logistic (b_Ds2 b) (t_fit g) dist), Some (logistic (b_Ds2 b) (t_fit g) (t2 g - k - t1 g)), o_ce o - t2 g)
  end.

(** 622-650: the auxiliary scores. *)
Definition cloud_score (b : bap) (o : obs) : R :=
  if positive (w_c b) then (1 / (1 + exp ((-10 / b_dreq b) * (IZR (o_dst o) - b_dreq b / 2))))%R else 0%R.
Definition haze_score (b : bap) (o : obs) : R :=
  if positive (w_h b) then (1 / (1 + exp ((10 / 200) * (IZR (o_hot o) + b_hreq b * (-1)))))%R else 0%R.
Definition cor_score (b : bap) (cor : R) : R :=
  if positive (w_r b) then (1 / (1 + exp ((-10 / (5 / 10 * 2 / 3)) * (cor - (5 / 10 * 4 / 3)))))%R else 0%R.
Definition view_score (b : bap) (o : obs) : R :=
  if positive (w_v b) then
    let vz := (IZR (o_vzn o) / 100)%R in
    if (if Rlt_dec vz 0 then true else false) || (if Rlt_dec 180 vz then true else false) then 0%R
    else (1 / (1 + exp (10 / b_vreq b * (vz - b_vreq b / 2))))%R
  else 0%R.

(** Total score: 657-674. *)
Definition combine_with (f : R -> R -> R) (w : R) (s t : num) : num := if positive w then num_op f t (num_mul w s) else t.
Definition total (b : bap) (s : scores) : num :=
  let f := if b_mul b then Rmult else Rplus in
  let t := combine_with f (w_v b) (Some (s_v s)) (combine_with f (w_r b) (Some (s_r s)) (combine_with f (w_h b) (Some (s_h s))
             (combine_with f (w_c b) (Some (s_c s)) (combine_with f (w_y b) (s_y s) (combine_with f (w_d b) (s_d s) (Some (if b_mul b then 1%R else 0%R))))))) in
  if b_mul b then t else option_map (fun x => x / w_total b)%R t.

(** parametric_score, 500-690, one observation.  [old]: the scores left by the
    previous pixel of the thread; they stay if the target is not usable (524-527).
    693500 = 1900*365. *)
Definition score_one (b : bap) (ts : list target) (o : obs) (cor : R) (old : scores * Z) : outcome (scores * Z) :=
  let start := if b_mul b then 1%R else 0%R in
  let with_t s x := mkScores (Some x) (s_d s) (s_y s) (s_c s) (s_h s) (s_r s) (s_v s) in
  if negb (o_valid o) then Ret (with_t (fst old) 0%R, snd old)
  else
    g <- of_option (closest ts (o_ce o)) ;;
    if (t0 g <? 693500) || (t1 g <? 693500) || (t2 g <? 693500) then Ret (with_t (fst old) start, snd old)
    else
      r <- temporal b g o ;;
      let '(d, y, dist) := r in
      let d := if isnull (w_d b) then Some 0%R else d in
      let y := if isnull (w_y b) then Some 0%R else y in
      let s := mkScores None d y (cloud_score b o) (haze_score b o) (cor_score b cor) (view_score b o) in
      Ret (mkScores (total b s) d y (s_c s) (s_h s) (s_r s) (s_v s), dist).

(** water_score: 447-477; [bands]: those of NIR and SWIR2 if there are both (the
    FAILURE otherwise is ignored, level3-hl.c:330). *)
Definition water_one (scale : R) (bands : option (Z * Z)) (o : obs) (s : scores) : outcome scores :=
  if negb (o_valid o) then Ret s
  else match bands with None => Ret s | Some (nir, sw2) =>
    a <- of_option (get_at (o_dat o) nir) ;;
    c <- of_option (get_at (o_dat o) sw2) ;;
    let t := ((scale - IZR c) / scale)%R in
    Ret (mkScores (Some (if a <? c then t / 2 else t)%R) (s_d s) (s_y s) (s_c s) (s_h s) (s_r s) (s_v s))
  end.

(** haze_stats: 417-444.  0.01 is 1/100. *)
Definition off_season (b : bap) (s : scores) : bool := negb (b_offsea b) && num_lt (s_d s) (1 / 100).
Definition haze_stats (b : bap) (l : list (obs * scores)) : num * num :=
  let hs := map (fun p => s_h (snd p)) (filter (fun p => o_valid (fst p) && negb (off_season b (snd p))) l) in
  match hs with
  | [] => (Some (-1)%R, Some (-1)%R)
  | _ => let v := feed var_recurrence hs 0 (mkVar 0 0) in
         (Some (r_mx v), standdev_o (r_vx v) (zlen hs))
  end.

(** ** Composite *)

(** 722-728, 818-824: observations that are left out. *)
Definition skipped (b : bap) (hz : num * num) (o : obs) (s : scores) : bool :=
  negb (o_valid o) || off_season b s
  || (negb (b_hazy b) && positive (w_h b) && num_lt (Some (s_h s)) (1 / 100) && num_gt (fst hz) (1 / 100) && num_gt (snd hz) (1 / 100))
  || (negb (b_cloudy b) && positive (w_c b) && num_lt (Some (s_c s)) (1 / 100)).

(** The three products of a pixel; None: not requested. *)
Record result := mkResult { r_bap : option (list Z); r_inf : option (list Z); r_scr : option (list Z) }.
Definition when {A} (c : bool) (x : outcome A) : outcome (option A) := if c then a <- x ;; Ret (Some a) else Ret None.
Definition nothing (b : bap) (nb : nat) (nodata : Z) : result :=
  mkResult (if out_bap b then Some (repeat nodata nb) else None)
           (if out_inf b then Some [1; 0; nodata; nodata; nodata; nodata] else None)
           (if out_scr b then Some (repeat nodata 7) else None).
Definition tenthousand (x : num) : outcome Z := short_of_real (option_map (fun r => r * 10000)%R x).
Definition all_scores (t d y c h r v : num) (water : bool) : outcome (list Z) :=
  a <- tenthousand t ;;
  if water then Ret [a; 0; 0; 0; 0; 0; 0]
  else l <- omap tenthousand [d; y; c; h; r; v] ;; Ret (a :: l).

(** bap_compositing: 711-786.  Element: observation, scores, distance to the target. *)
Definition select_step (b : bap) (hz : num * num) (st : R * option (obs * scores * Z) * Z) (e : obs * scores * Z) : R * option (obs * scores * Z) * Z :=
  let '(best, which, n) := st in
  if skipped b hz (fst (fst e)) (snd (fst e)) then st
  else match s_t (snd (fst e)) with
       | Some x => if Rlt_dec best x then (x, Some e, n + 1) else (best, which, n + 1)
       | None => (best, which, n + 1)
       end.
Definition compositing (b : bap) (hz : num * num) (water : bool) (nb : nat) (nodata : Z) (l : list (obs * scores * Z)) : outcome result :=
  let '(_, which, n) := fold_left (select_step b hz) l ((-1)%R, None, 0) in
  if 0 <? n then
    match which with
    | None => if out_scr b || out_inf b || out_bap b then UB else Ret (mkResult None None None)   (* index -1 *)
    | Some (o, s, dist) =>
        scr <- when (out_scr b) (all_scores (s_t s) (s_d s) (s_y s) (Some (s_c s)) (Some (s_h s)) (Some (s_r s)) (Some (s_v s)) water) ;;
        Ret (mkResult (if out_bap b then Some (firstn nb (o_dat o)) else None)
               (if out_inf b then Some [o_qai o; to_short n; to_short (o_doy o); to_short (o_year o); to_short dist; to_short (o_sensor o + 1)] else None) scr)
    end
  else Ret (nothing b nb nodata).

(** bap_weighting: 802-906.  The bands are written without a check of l3->bap (900). *)
Definition nsum (l : list num) : num := fold_left (num_op Rplus) l (Some 0%R).
Definition weighting (b : bap) (hz : num * num) (water : bool) (nb : nat) (nodata : Z) (l : list (obs * scores * Z)) : outcome result :=
  let used := filter (fun e => negb (skipped b hz (fst (fst e)) (snd (fst e)))) l in
  let sc f := map (fun e => f (snd (fst e))) used in
  let n := zlen used in
  let sum_total := nsum (sc s_t) in
  let mean f := option_map (fun x => x / IZR n)%R (nsum (sc f)) in
  if negb (out_bap b) then UB
  else if num_gt sum_total 0 then
    bands <- omap (fun k => short_of_real (num_op Rdiv (nsum (map (fun e => num_mul (IZR (match get_at (o_dat (fst (fst e))) k with Some v => v | None => 0 end)) (s_t (snd (fst e)))) used)) sum_total))
                  (zupto (Z.of_nat nb)) ;;
    let mc := mean (fun s => Some (s_c s)) in
    let mh := mean (fun s => Some (s_h s)) in
    scr <- when (out_scr b) (all_scores (mean s_t) (mean s_d) (mean s_y) mc mh (mean (fun s => Some (s_r s))) (mean (fun s => Some (s_v s))) water) ;;
    Ret (mkResult (Some bands)
           (if out_inf b then Some [Z.lor (if num_lt mc (1 / 100) then 2 else 0) (if num_lt mh (1 / 100) then 8 else 0); to_short n; nodata; nodata; nodata; nodata] else None) scr)
  else Ret (nothing b nb nodata).

(** One pixel: level3-hl.c:313-342. *)
Definition pixel (b : bap) (ts : list target) (scale : R) (bands : option (Z * Z)) (nb : nat) (nodata : Z) (os : list obs) (old : list (scores * Z)) : outcome (result * list (scores * Z)) :=
  let water := is_water os in
  cors <- (if positive (w_r b) then omap (fun p => cor_mean os (fst p) (snd p)) (combine (zupto (zlen os)) os) else Ret (map (fun _ => 0%R) os)) ;;
  new <- omap (fun p => score_one b ts (fst (fst p)) (snd (fst p)) (snd p)) (combine (combine os cors) old) ;;
  fin <- (if water then omap (fun p => s <- water_one scale bands (fst p) (fst (snd p)) ;; Ret (s, snd (snd p))) (combine os new) else Ret new) ;;
  let hz := haze_stats b (combine os (map fst fin)) in
  let l := combine (combine os (map fst fin)) (map snd fin) in
  r <- (if b_select b then compositing b hz water nb nodata l else weighting b hz water nb nodata l) ;;
  Ret (r, fin).
