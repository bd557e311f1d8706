(** Model of the per-pixel statistics in src/modules/higher-level/fold-hl.c
    (fold), stm-hl.c (tsa_stm) and of parse_sta in param-hl.c.  Simplified:
    double and float are real numbers (a division by zero is None); see mean64
    for the running mean in binary64.  GSL's gsl_sort and
    gsl_stats_quantile_from_sorted_data are modelled by their documentation. *)
From Coq Require Import Reals.
From Flocq Require Import Core.
From Verif Require Import Base Loops Float StatsModel ModeModel.
#[local] Open Scope Z_scope.

(** _STA_*_: enum-cl.h:162-183; Q k is _STA_Q01_ + k - 1. *)
Inductive metric := NUM | MIN | MAX | RNG | IQR | AVG | STD | SKW | KRT | Q (k : Z).
Definition metric_eq (a b : metric) : {a = b} + {a <> b}.
Proof. decide equality; apply Z.eq_dec. Defined.

(** The accumulators: stm-hl.c:76-78, fold-hl.c:80-81. *)
Record acc := mkAcc { a_min : Z; a_max : Z; a_q : list Z; a_n : Z; a_k : kurt }.
Definition acc0 : acc := mkAcc 32767 (-32768) [] 0 (mkKurt 0 0 0 0).

(** One value: stm-hl.c:82-95, fold-hl.c:112-130; q_array has [ni] elements and
    is only filled if [useq]. *)
Definition collect1 (nodata ni : Z) (useq : bool) (a : acc) (v : Z) : outcome acc :=
  if v =? nodata then Ret a
  else
    q <- (if useq then if a_n a <? ni then Ret (a_q a ++ [v]) else UB else Ret (a_q a)) ;;
    Ret (mkAcc (if v <? a_min a then v else a_min a) (if v >? a_max a then v else a_max a)
           q (a_n a + 1) (kurt_recurrence (IZR v) (a_k a) (IZR (a_n a + 1)))).
Definition collect (nodata : Z) (useq : bool) (ni : Z) (l : list Z) : outcome acc := ofold (collect1 nodata ni useq) l acc0.

(** quantile: stats-cl.c:669-678. *)
Definition quantile (x : list Z) (n : Z) (p : R) : outcome R :=
  let s := isort (firstn (Z.to_nat n) x) in
  let index := (p * IZR (n - 1))%R in
  let lhs := Ztrunc index in
  let delta := (index - IZR lhs)%R in
  if lhs =? n - 1 then a <- of_option (get_at s lhs) ;; Ret (IZR a)
  else a <- of_option (get_at s lhs) ;; b <- of_option (get_at s (lhs + 1)) ;;
       Ret ((1 - delta) * IZR a + delta * IZR b)%R.

(** (short)x of a double; None is NaN or infinite. *)
Definition short_of_real (x : option R) : outcome Z :=
  match x with
  | Some r => if in_shortb (Ztrunc r) then Ret (Ztrunc r) else UB
  | None => UB
  end.
(** standdev(var, n): 0/0 for n = 1. *)
Definition standdev_o (v : R) (n : Z) : option R := if n =? 1 then None else Some (standdev v (IZR n)).
(** skewness and kurtosis: 0/0 for var = 0; scaling and clamping stm-hl.c:99-104,
    fold-hl.c:157-168 (comparisons with NaN are false). *)
Definition clamp (x : R) : R :=
  let y := if Rlt_dec x (-30000) then (-30000)%R else x in if Rlt_dec 30000 y then 30000%R else y.
Definition skewscaled (a : acc) : option R :=
  if Req_EM_T (k_vx (a_k a)) 0 then None
  else Some (clamp (skewness (k_vx (a_k a)) (k_sx (a_k a)) (IZR (a_n a)) * 1000)).
Definition kurtscaled (a : acc) : option R :=
  if Req_EM_T (k_vx (a_k a)) 0 then None
  else Some (clamp ((kurtosis (k_vx (a_k a)) (k_kx (a_k a)) (IZR (a_n a)) - 3) * 1000)).
Definition percent (k : Z) : R := (IZR k / 100)%R.

(** ** fold: fold-hl.c:50-198 for one pixel and one period *)
Definition fold_useq (type : metric) : bool := match type with Q _ | IQR => true | _ => false end.
Definition fold_value (type : metric) (a : acc) : outcome Z :=
  match type with
  | NUM => Ret (to_short (a_n a))
  | AVG => short_of_real (Some (k_mx (a_k a)))
  | MIN => Ret (a_min a)
  | MAX => Ret (a_max a)
  | RNG => Ret (to_short (a_max a - a_min a))
  | STD => short_of_real (standdev_o (k_vx (a_k a)) (a_n a))
  | SKW => short_of_real (skewscaled a)
  | KRT => short_of_real (kurtscaled a)
  | IQR => h <- quantile (a_q a) (a_n a) (percent 75) ;; l <- quantile (a_q a) (a_n a) (percent 25) ;;
           short_of_real (Some (h - l)%R)
  | Q k => h <- quantile (a_q a) (a_n a) (percent k) ;; short_of_real (Some h)
  end.

(** The comparison 86-111 of one date field; [s] is the interpolated series with
    the field (year, quarter, month, week or doy) of each date. *)
Definition fold_period (nodata : Z) (type : metric) (s : list (Z * Z)) (period : Z) : outcome Z :=
  a <- ofold (fun a o => if negb (fst o =? period) then Ret a
                         else collect1 nodata (zlen s) (fold_useq type) a (snd o)) s acc0 ;;
  if 0 <? a_n a then fold_value type a else Ret nodata.

(** fold for one pixel: 69-191. *)
Definition fold_pixel (nodata : Z) (type : metric) (masked : bool) (s : list (Z * Z)) (periods : list Z) : outcome (list Z) :=
  if masked then Ret (map (fun _ => nodata) periods) else omap (fold_period nodata type s) periods.

(** ** parse_sta: param-hl.c:591-635.  par_sta_t: param-hl.h:214-229; num is not
    initialised by parse_sta and is 0 because the structure comes from calloc. *)
Record sta := mkSta { i_num : Z; i_min : Z; i_max : Z; i_rng : Z; i_iqr : Z; i_avg : Z;
  i_std : Z; i_skw : Z; i_krt : Z; i_qs : list (Z * Z) }.
Definition sta0 : sta := mkSta 0 (-1) (-1) (-1) (-1) (-1) (-1) (-1) (-1) [].
Definition parse_sta1 (s : sta) (im : Z * metric) : outcome sta :=
  let '(i, m) := im in
  let '(mkSta a b c d e f g h k q) := s in
  match m with
  | NUM => Ret (mkSta i b c d e f g h k q)
  | MIN => Ret (mkSta a i c d e f g h k q)
  | MAX => Ret (mkSta a b i d e f g h k q)
  | RNG => Ret (mkSta a b c i e f g h k q)
  | IQR => Ret (mkSta a b c d i f g h k q)
  | AVG => Ret (mkSta a b c d e i g h k q)
  | STD => Ret (mkSta a b c d e f i h k q)
  | SKW => Ret (mkSta a b c d e f g i k q)
  | KRT => Ret (mkSta a b c d e f g h i q)
  | Q p => if zlen q <? 100 then Ret (mkSta a b c d e f g h k (q ++ [(i, p)])) else UB
  end.
Definition parse_sta (metrics : list metric) : outcome sta :=
  ofold parse_sta1 (combine (zupto (zlen metrics)) metrics) sta0.

(** ** tsa_stm: stm-hl.c:44-140 for one pixel *)
Definition put (out : list Z) (i : Z) (v : outcome Z) : outcome (list Z) :=
  if i >? -1 then x <- v ;; of_option (set_at out i x) else Ret out.
(** 115-122: bands, q25_, q75_. *)
Definition put_q (a : acc) (st : list Z * Z * Z) (bk : Z * Z) : outcome (list Z * Z * Z) :=
  let '(out, q25, q75) := st in
  h <- quantile (a_q a) (a_n a) (percent (snd bk)) ;;
  v <- short_of_real (Some h) ;;
  out' <- of_option (set_at out (fst bk) v) ;;
  Ret (out', (if snd bk =? 25 then v else q25), (if snd bk =? 75 then v else q75)).
Definition stm_value (s : sta) (a : acc) (out : list Z) : outcome (list Z) :=
  o <- put out (i_num s) (Ret (to_short (a_n a))) ;;
  o <- put o (i_min s) (Ret (a_min a)) ;;
  o <- put o (i_max s) (Ret (a_max a)) ;;
  o <- put o (i_rng s) (Ret (to_short (a_max a - a_min a))) ;;
  o <- put o (i_avg s) (short_of_real (Some (k_mx (a_k a)))) ;;
  o <- put o (i_std s) (short_of_real (standdev_o (k_vx (a_k a)) (a_n a))) ;;
  o <- put o (i_skw s) (short_of_real (skewscaled a)) ;;
  o <- put o (i_krt s) (short_of_real (kurtscaled a)) ;;
  st <- ofold (put_q a) (i_qs s) (o, -32768, -32768) ;;
  let '(o, q25, q75) := st in
  if i_iqr s >? -1 then
    q25 <- (if q25 =? -32768 then h <- quantile (a_q a) (a_n a) (percent 25) ;; short_of_real (Some h) else Ret q25) ;;
    q75 <- (if q75 =? -32768 then h <- quantile (a_q a) (a_n a) (percent 75) ;; short_of_real (Some h) else Ret q75) ;;
    put o (i_iqr s) (Ret (to_short (q75 - q25)))
  else Ret o.
Definition stm_useq (s : sta) : bool := negb (zlen (i_qs s) =? 0) || (i_iqr s >? -1).

(** [bands] is the previous (zeroed) content of the pixel's metric bands. *)
Definition stm_pixel (nodata : Z) (metrics : list metric) (masked : bool) (series : list Z) (bands : list Z) : outcome (list Z) :=
  s <- parse_sta metrics ;;
  if masked then Ret (map (fun _ => nodata) bands)
  else
    a <- collect nodata (stm_useq s) (zlen series) series ;;
    if a_n a >? 0 then stm_value s a bands else Ret (map (fun _ => nodata) bands).

(** ** The running mean of kurt_recurrence in binary64: stats-cl.c:134-140. *)
Fixpoint mean64 (l : list Z) (n : Z) (mx : f64) : f64 :=
  match l with
  | [] => mx
  | v :: t => mean64 t (n + 1) (f64_add mx (f64_div (f64_sub (f64_of_Z v) mx) (f64_of_Z (n + 1))))
  end.
