(** Model of clear_sky_observations and of the window dates in compile_cso,
    src/modules/higher-level/cso-hl.c:86-112, 238-411.  Simplified as in AggModel:
    double and float are real numbers; GSL by its documentation (the quantile of
    no value is 0).  Every requested metric has its own band, so a window yields
    one value per requested metric. *)
From Coq Require Import Reals.
From Flocq Require Import Core.
From Verif Require Import Base Loops StatsModel ModeModel AggModel DateModel.
#[local] Open Scope Z_scope.

(** 238-250: number of windows. *)
Fixpoint count_windows (fuel : nat) (y m y2 m2 step nw : Z) : outcome Z :=
  if (y <? y2) || ((y <=? y2) && (m <? m2)) then
    match fuel with
    | O => UB
    | S f => let m' := m + step in
             if m' >? 12 then count_windows f (y + 1) (m' - 12) y2 m2 step (nw + 1)
             else count_windows f y m' y2 m2 step (nw + 1)
    end
  else Ret nw.
Definition number_windows (d1 d2 : date) (step : Z) : outcome Z :=
  count_windows (Z.to_nat (12 * (year d2 - year d1) + 12)) (year d1) (month d1) (year d2) (month d2) step 0.

(** 94-112: the nw+1 window borders. *)
Fixpoint borders (k : nat) (y m step : Z) (d : date) : list date :=
  match k with
  | O => []
  | S k' =>
    let '(y, m) := if m >? 12 then (y + 1, m - 12) else (y, m) in
    let d := set_date d y m 1 in
    d :: borders k' y (m + step) step d
  end.
Definition window_dates (d1 : date) (nw step : Z) : list date := borders (S (Z.to_nat nw)) (year d1) (month d1) step init_date.

(** 266-288: first and last acquisition of a window, searching from [t]. *)
Fixpoint find_range (ces : list Z) (t lo hi t0 t1 : Z) : Z * Z :=
  match ces with
  | [] => (t0, t1)
  | ce :: rest =>
    if (lo <=? ce) && (ce <? hi) then find_range rest (t + 1) lo hi (if t0 <? 0 then t else t0) t
    else if hi <=? ce then (t0, t1)
    else find_range rest (t + 1) lo hi t0 t1
  end.
Fixpoint ranges (ces : list Z) (t_left : Z) (bs : list Z) : list (Z * Z) :=
  match bs with
  | lo :: ((hi :: _) as rest) =>
    let r := find_range (skipn (Z.to_nat t_left) ces) t_left lo hi (-1) (-1) in
    r :: ranges ces (if 0 <=? snd r then snd r else t_left) rest
  | _ => []
  end.

(** The accumulators: mean, var, skew, kurt; n; k; q_array; minimum; maximum; ce_left. *)
Record gacc := mkG { g_kurt : kurt; g_n : Z; g_k : Z; g_q : list Z; g_min : Z; g_max : Z; g_left : Z }.

(** A gap of d days: 330-334 and 346-349. *)
Definition add_gap (useq : bool) (d : Z) (a : gacc) : outcome gacc :=
  q <- (if useq then of_option (set_at (g_q a) (g_k a) d) else Ret (g_q a)) ;;
  Ret (mkG (kurt_recurrence (IZR d) (g_kurt a) (IZR (g_k a + 1))) (g_n a) (g_k a + 1) q
           (if d <? g_min a then to_short d else g_min a) (if d >? g_max a then to_short d else g_max a) (g_left a)).

(** 318-340. *)
Definition one_obs (useq : bool) (ces : list Z) (msk : list bool) (a : gacc) (t : Z) : outcome gacc :=
  m <- of_option (get_at msk t) ;;
  if negb m then Ret a
  else
    c <- of_option (get_at ces t) ;;
    a <- (if c >? g_left a then
            d <- chk_int (c - g_left a) ;;
            a <- add_gap useq d a ;;
            Ret (mkG (g_kurt a) (g_n a) (g_k a) (g_q a) (g_min a) (g_max a) c)
          else Ret a) ;;
    Ret (mkG (g_kurt a) (g_n a + 1) (g_k a) (g_q a) (g_min a) (g_max a) (g_left a)).

(** 305-357: one pixel and window; q is the content left in q_array. *)
Definition window_stats (useq : bool) (ces : list Z) (msk : list bool) (lo hi : Z) (r : Z * Z) (q : list Z) : outcome gacc :=
  if fst r >? -1 then
    a <- ofold (one_obs useq ces msk) (zrange (fst r) (snd r)) (mkG (mkKurt 0 0 0 0) 0 0 q 32767 (-32768) lo) ;;
    d <- chk_int (hi - g_left a) ;;
    if d >? 0 then add_gap useq d a else Ret a
  else
    d <- chk_int (hi - lo) ;;
    Ret (mkG (mkKurt (IZR d) 0 0 0) 0 0 q (to_short d) (to_short d) lo).

(** 360-367: with n, not k. *)
Definition g_scaled (x : R) (a : gacc) : option R :=
  if g_n a >? 0 then if Req_EM_T (k_vx (g_kurt a)) 0 then None else Some (clamp (x * 1000)) else Some 0%R.
Definition g_quantile (a : gacc) (p : R) : outcome R := if g_n a =? 0 then Ret 0%R else quantile (g_q a) (g_n a) p.

(** 368-391. *)
Definition cso_value (a : gacc) (m : metric) : outcome Z :=
  match m with
  | NUM => Ret (to_short (g_n a))
  | MIN => Ret (g_min a)
  | MAX => Ret (g_max a)
  | RNG => Ret (to_short (g_max a - g_min a))
  | AVG => short_of_real (Some (k_mx (g_kurt a)))
  | STD => short_of_real (standdev_o (k_vx (g_kurt a)) (g_n a))
  | SKW => short_of_real (g_scaled (skewness (k_vx (g_kurt a)) (k_sx (g_kurt a)) (IZR (g_n a))) a)
  | KRT => short_of_real (g_scaled (kurtosis (k_vx (g_kurt a)) (k_kx (g_kurt a)) (IZR (g_n a)) - 3)%R a)
  | Q k => h <- g_quantile a (percent k) ;; short_of_real (Some h)
  | IQR => h <- g_quantile a (percent 25) ;; l <- short_of_real (Some h) ;;
           h <- g_quantile a (percent 75) ;; u <- short_of_real (Some h) ;; Ret (to_short (u - l))
  end.

Definition is_q (m : metric) : bool := match m with Q _ | IQR => true | _ => false end.
(** quantile() leaves the first n elements of q_array sorted. *)
Definition leave_q (useq : bool) (a : gacc) : list Z :=
  if useq then isort (firstn (Z.to_nat (g_n a)) (g_q a)) ++ skipn (Z.to_nat (g_n a)) (g_q a) else g_q a.

(** 296-396: all windows of one pixel; the result and the q_array left behind. *)
Fixpoint cso_windows (ms : list metric) (ces : list Z) (msk : list bool) (bs : list Z) (rs : list (Z * Z)) (q : list Z)
  : outcome (list (list Z) * list Z) :=
  match bs, rs with
  | lo :: ((hi :: _) as rest), r :: rs' =>
    a <- window_stats (existsb is_q ms) ces msk lo hi r q ;;
    v <- omap (cso_value a) ms ;;
    more <- cso_windows ms ces msk rest rs' (leave_q (existsb is_q ms) a) ;;
    Ret (v :: fst more, snd more)
  | _, _ => Ret ([], q)
  end.
Definition cso_pixel (ms : list metric) (masked : bool) (ces : list Z) (msk : list bool) (bs : list Z) (q : list Z)
  : outcome (list (list Z) * list Z) :=
  let rs := ranges ces 0 bs in
  if masked then Ret (map (fun _ => map (fun _ => -32768) ms) rs, q) else cso_windows ms ces msk bs rs q.
