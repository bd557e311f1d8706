(** Model of trend: src/modules/higher-level/trend-hl.c:50-198, one pixel, in exact
    real arithmetic (C: double).  The significance test (slope_significant and the
    t-score approximation, stats-cl.c:412-657) is an arbitrary function here. *)
From Coq Require Import Reals List ZArith.
From Flocq Require Import Core.Raux.
From Verif Require Import Base StatsModel.
Import ListNotations.
Open Scope R_scope.

(** Division whose result is not a finite number (0/0, x/0) is [None]. *)
Definition rdiv (a b : R) : option R := if Req_EM_T b 0 then None else Some (a / b).
(** (short)x: truncation; undefined for NaN, infinities and values out of range. *)
Definition short_of (r : option R) : outcome Z :=
  match r with
  | Some x => if in_shortb (Ztrunc x) then Ret (Ztrunc x) else UB
  | None => UB
  end.

(** The folded bands of the pixel: time coordinate (year, quarter, ... relative to
    the first band, trend-hl.c:83-99) and value. *)
Definition series := list (Z * Z).
Definition valid (nodata : Z) (s : series) : list (R * R) :=
  map (fun p => (IZR (fst p), IZR (snd p))) (filter (fun p => negb (snd p =? nodata)%Z) s).

(** The accumulation loop, trend-hl.c:101-107: the first value initializes the
    means directly. *)
Fixpoint accumulate (l : list (R * R)) (k : nat) (s : covar) : covar * nat :=
  match l with
  | [] => (s, k)
  | p :: t =>
    let k' := S k in
    accumulate t k'
      (if Nat.eqb k' 1 then mkCovar (fst p) (snd p) (c_vx s) (c_vy s) (c_cv s)
       else covar_recurrence (fst p) (snd p) s (INR k'))
  end.

(** Residual loop, trend-hl.c:126-155: sums of e^2, |e|, (x-mx)^2 and max |e|. *)
Record resid := mkResid { ssqe : R; sae : R; sxsq : R; maxe : R }.
Definition residuals (mx slp off : R) (l : list (R * R)) : resid :=
  fold_left (fun a p =>
    let e := snd p - linreg_predict (fst p) slp off in
    mkResid (ssqe a + e * e) (sae a + Rabs e) (sxsq a + (fst p - mx) * (fst p - mx))
            (if Rlt_dec (maxe a) (Rabs e) then Rabs e else maxe a)) l (mkResid 0 0 0 (-32768)).

Record trd := mkTrd {
  t_mean : Z; t_offset : Z; t_slope : Z; t_prc : Z; t_abs : Z; t_rsq : Z; t_sig : Z;
  t_rmse : Z; t_mae : Z; t_maxe : Z; t_num : Z; t_len : Z }.

(** [sig] : slope and its standard error -> significance. *)
Definition trend_pixel (sig : nat -> R -> option R -> Z) (nodata : Z) (in_ce : bool) (s : series)
  : outcome trd :=
  let nf := zlen s in
  let l := valid nodata s in
  let '(m, k) := accumulate l 0 (mkCovar 0 0 0 0 0) in
  if (k <? 3)%nat then
    Ret (mkTrd nodata nodata nodata nodata nodata nodata nodata nodata nodata nodata nodata nodata)
  else
    let kr := INR k in
    let cv := covariance (c_cv m) kr in
    let vx := variance (c_vx m) kr in
    let vy := variance (c_vy m) kr in
    match rdiv cv vx with
    | None => UB     (* slope NaN or infinite *)
    | Some slp =>
      let off := linreg_intercept slp (c_mx m) (c_my m) in
      let rsq := match rdiv (cv * cv) (vx * vy) with Some r => Some (r * 10000) | None => None end in
      let r := residuals (c_mx m) slp off l in
      let my := if in_ce then c_my m - IZR (Z.quot (365 * (nf - 1)) 2) else c_my m in
      let slp1 := if in_ce then slp - 365 else slp in
      let seb := rdiv (sqrt (1 / (kr - 2) * ssqe r)) (sqrt (sxsq r)) in
      let sg := sig k slp1 seb in
      let slp2 := if in_ce then slp1 * 1000 else slp1 in
      let rmse := sqrt (ssqe r / kr) in
      let mae := sae r / kr in
      o_mean <- short_of (Some my) ;;
      o_off <- short_of (Some off) ;;
      o_slp <- short_of (Some slp2) ;;
      o_prc <- (if Rlt_dec 0 off then short_of (Some (slp2 * IZR nf / off * 100)) else Ret 0%Z) ;;
      o_abs <- short_of (Some (slp2 * IZR nf)) ;;
      o_rsq <- short_of rsq ;;
      o_rmse <- short_of (Some rmse) ;;
      o_mae <- short_of (Some mae) ;;
      o_maxe <- short_of (Some (maxe r)) ;;
      Ret (mkTrd o_mean o_off o_slp o_prc o_abs o_rsq (to_short sg) o_rmse o_mae o_maxe
                 (to_short (Z.of_nat k)) (to_short nf))
    end.
