(** Model of src/modules/higher-level/interpolate-hl.c: interpolate_none,
    interpolate_linear and interpolate_moving for one pixel (the loops over the
    pixels p are independent and run in parallel).  A series is the list of
    (day since 0000, value) of the observations, the grid the list of days to
    interpolate.  float is binary32, double binary64. *)
From Verif Require Import Base Loops Float.

(** (short)x: a value outside short is undefined behaviour. *)
Definition short_of_float {p e} (x : Flocq.IEEE754.BinarySingleNaN.binary_float p e) : outcome Z :=
  z <- of_option (trunc_of x) ;; if in_shortb z then Ret z else UB.

(** interpolate_none: 57-74. *)
Definition none_pixel (s : list (Z * Z)) : list Z := map snd s.

(** The local variables of interpolate_linear. *)
Record lin := mkLin { x_left : f32; y_left : f32; x_right : f32; y_right : f32; t_left : Z }.

(** Find previous and next point: 114-133; [s] is the series from index [t] on. *)
Fixpoint lin_scan (nodata : Z) (x : f32) (t : Z) (s : list (Z * Z)) (v : lin) : lin :=
  match s with
  | [] => v
  | (c, y) :: r =>
    if y =? nodata then lin_scan nodata x (t + 1) r v
    else if flt (f32_of_Z c) x
    then lin_scan nodata x (t + 1) r (mkLin (f32_of_Z c) (f32_of_Z y) (x_right v) (y_right v) t)
    else if feq (f32_of_Z c) x then mkLin x (f32_of_Z y) x (f32_of_Z y) t
    else if flt x (f32_of_Z c) then mkLin (x_left v) (y_left v) (f32_of_Z c) (f32_of_Z y) (t_left v)
    else lin_scan nodata x (t + 1) r v
  end.

(** 136-146.  (y_left+y_right)/2.0 is computed in double and stored as float; the
    halving is exact in both, so the model divides in binary32. *)
Definition lin_value (nodata : Z) (x : f32) (v : lin) : f32 :=
  let zero := f32_of_Z 0 in
  if flt (x_left v) zero && flt (x_right v) zero then f32_of_Z nodata
  else if flt (x_left v) zero then y_right v
  else if flt (x_right v) zero then y_left v
  else if feq (x_left v) (x_right v) then f32_div (f32_add (y_left v) (y_right v)) (f32_of_Z 2)
  else f32_div (f32_add (f32_mul (y_left v) (f32_sub (x_right v) x)) (f32_mul (y_right v) (f32_sub x (x_left v))))
               (f32_sub (x_right v) (x_left v)).

(** The loop over the grid: 105-150; t_left is carried over. *)
Definition INT_MIN : Z := -2147483648.
Fixpoint lin_loop (nodata : Z) (s : list (Z * Z)) (tl : Z) (grid : list Z) : outcome (list Z) :=
  match grid with
  | [] => Ret []
  | g :: r =>
    let x := f32_of_Z g in
    let v := lin_scan nodata x tl (skipn (Z.to_nat tl) s)
               (mkLin (f32_of_Z INT_MIN) (f32_of_Z nodata) (f32_of_Z INT_MIN) (f32_of_Z nodata) tl) in
    y <- short_of_float (lin_value nodata x v) ;;
    ys <- lin_loop nodata s (t_left v) r ;;
    Ret (y :: ys)
  end.

(** interpolate_linear for one pixel: 96-152; [masked] is mask_ != NULL && !mask_[p]. *)
Definition linear_pixel (nodata : Z) (masked : bool) (s : list (Z * Z)) (grid : list Z) : outcome (list Z) :=
  if masked then Ret (map (fun _ => nodata) grid) else lin_loop nodata s 0 grid.

(** interpolate_moving: the scan 198-214 (sum, num, t_left). *)
Fixpoint mov_scan (nodata : Z) (mov_max : Z) (x : f32) (t : Z) (s : list (Z * Z)) (sum num : f64) (tl : Z) : f64 * f64 * Z :=
  match s with
  | [] => (sum, num, tl)
  | (c, y) :: r =>
    if y =? nodata then mov_scan nodata mov_max x (t + 1) r sum num tl
    else
      let x_ := f32_of_Z c in
      if flt (f32_of_Z mov_max) (f32_sub x x_) then mov_scan nodata mov_max x (t + 1) r sum num t
      else if flt (f32_of_Z mov_max) (f32_sub x_ x) then (sum, num, tl)
      else mov_scan nodata mov_max x (t + 1) r (f64_add sum (f64_of_Z y)) (f64_add num (f64_of_Z 1)) tl
  end.

Fixpoint mov_loop (nodata mov_max : Z) (s : list (Z * Z)) (tl : Z) (grid : list Z) : outcome (list Z) :=
  match grid with
  | [] => Ret []
  | g :: r =>
    let '(sum, num, tl') := mov_scan nodata mov_max (f32_of_Z g) tl (skipn (Z.to_nat tl) s)
                              (f64_of_Z 0) (f64_of_Z 0) tl in
    y <- (if flt (f64_of_Z 0) num then short_of_float (f64_div sum num) else Ret nodata) ;;
    ys <- mov_loop nodata mov_max s tl' r ;;
    Ret (y :: ys)
  end.

(** interpolate_moving for one pixel: 181-225. *)
Definition moving_pixel (nodata mov_max : Z) (masked : bool) (s : list (Z * Z)) (grid : list Z) : outcome (list Z) :=
  if masked then Ret (map (fun _ => nodata) grid) else mov_loop nodata mov_max s 0 grid.
