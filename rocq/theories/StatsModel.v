(** Model of the one-pass statistics of src/modules/cross-level/stats-cl.c in
    exact real arithmetic (the C code uses double; rounding is not modelled). *)
From Coq Require Import Reals List.
Import ListNotations.
Open Scope R_scope.

(** covar_recurrence: stats-cl.c:64-79. *)
Record covar := mkCovar { c_mx : R; c_my : R; c_vx : R; c_vy : R; c_cv : R }.
Definition covar_recurrence (x y : R) (s : covar) (n : R) : covar :=
  let mx := c_mx s + (x - c_mx s) / n in
  let my := c_my s + (y - c_my s) / n in
  mkCovar mx my
    (c_vx s + (x - c_mx s) * (x - mx))
    (c_vy s + (y - c_my s) * (y - my))
    (c_cv s + (n - 1) / n * (x - c_mx s) * (y - c_my s)).

(** cov_recurrence: stats-cl.c:99-110. *)
Record cov := mkCov { v_mx : R; v_my : R; v_cv : R }.
Definition cov_recurrence (x y : R) (s : cov) (n : R) : cov :=
  mkCov (v_mx s + (x - v_mx s) / n) (v_my s + (y - v_my s) / n)
        (v_cv s + (n - 1) / n * (x - v_mx s) * (y - v_my s)).

(** kurt_recurrence: stats-cl.c:131-147. *)
Record kurt := mkKurt { k_mx : R; k_vx : R; k_sx : R; k_kx : R }.
Definition kurt_recurrence (x : R) (s : kurt) (n : R) : kurt :=
  let delta := x - k_mx s in
  let delta_n := delta / n in
  let delta_n2 := delta_n * delta_n in
  let tmp := delta * delta_n * (n - 1) in
  let mx := k_mx s + delta_n in
  let kx := k_kx s + tmp * delta_n2 * (n * n - 3 * n + 3) + 6 * delta_n2 * k_vx s - 4 * delta_n * k_sx s in
  let sx := k_sx s + tmp * delta_n * (n - 2) - 3 * delta_n * k_vx s in
  let vx := k_vx s + tmp in
  mkKurt mx vx sx kx.

(** skew_recurrence: stats-cl.c:166-180. *)
Record skew := mkSkew { s_mx : R; s_vx : R; s_sx : R }.
Definition skew_recurrence (x : R) (s : skew) (n : R) : skew :=
  let delta := x - s_mx s in
  let delta_n := delta / n in
  let tmp := delta * delta_n * (n - 1) in
  let mx := s_mx s + delta_n in
  let sx := s_sx s + tmp * delta_n * (n - 2) - 3 * delta_n * s_vx s in
  let vx := s_vx s + tmp in
  mkSkew mx vx sx.

(** var_recurrence: stats-cl.c:198-207. *)
Record var := mkVar { r_mx : R; r_vx : R }.
Definition var_recurrence (x : R) (s : var) (n : R) : var :=
  let mx := r_mx s + (x - r_mx s) / n in
  mkVar mx (r_vx s + (x - r_mx s) * (x - mx)).

(** The callers' loop: n is incremented before each call, everything starts at 0
    (e.g. stm-hl.c:79-95, trend-hl.c:96-110). *)
Fixpoint feed {A St} (f : A -> St -> R -> St) (l : list A) (n : nat) (s : St) : St :=
  match l with
  | [] => s
  | x :: t => feed f t (S n) (f x s (INR (S n)))
  end.
Definition run_var (l : list R) : var := feed var_recurrence l 0 (mkVar 0 0).
Definition run_skew (l : list R) : skew := feed skew_recurrence l 0 (mkSkew 0 0 0).
Definition run_kurt (l : list R) : kurt := feed kurt_recurrence l 0 (mkKurt 0 0 0 0).
Definition run_cov (l : list (R * R)) : cov :=
  feed (fun p => cov_recurrence (fst p) (snd p)) l 0 (mkCov 0 0 0).
Definition run_covar (l : list (R * R)) : covar :=
  feed (fun p => covar_recurrence (fst p) (snd p)) l 0 (mkCovar 0 0 0 0 0).

(** stats-cl.c:260-263, 278-281, 242-245, 223-226, 296-299. *)
Definition variance (v n : R) : R := v / (n - 1).
Definition standdev (v n : R) : R := sqrt (variance v n).
Definition skewness (v sk n : R) : R := sk / (n * (standdev v (n + 1)) ^ 3).
Definition kurtosis (v ku n : R) : R := ku / (n * variance v (n + 1) * variance v (n + 1)).
Definition covariance (c n : R) : R := c / (n - 1).

(** stats-cl.c:309-398. *)
Definition linreg_slope (cv varx : R) : R := cv / varx.
Definition linreg_intercept (slope mx my : R) : R := my - slope * mx.
Definition linreg_coefs (mx my cv varx : R) : R * R :=
  let slope := linreg_slope cv varx in (slope, linreg_intercept slope mx my).
Definition linreg_r (cv varx vary : R) : R := cv / sqrt (varx * vary).
Definition linreg_rsquared (cv varx vary : R) : R := cv * cv / (varx * vary).
Definition linreg_predict (x slope intercept : R) : R := intercept + slope * x.
