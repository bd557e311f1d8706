(** C20, C21: one-pass statistics and regression (exact arithmetic). *)
From Coq Require Import Reals List Lra.
Import ListNotations.
From Verif Require Import StatsModel StatsSpec StatsProofs.
Open Scope R_scope.

Theorem C20_mean_variance : forall l, l <> [] ->
  r_mx (run_var l) = mean l /\ r_vx (run_var l) = dev 2 l.
Proof. exact run_var_spec. Qed.

Theorem C20_skew : forall l, l <> [] -> let s := run_skew l in
  s_mx s = mean l /\ s_vx s = dev 2 l /\ s_sx s = dev 3 l.
Proof. exact run_skew_spec. Qed.

Theorem C20_kurt : forall l, l <> [] -> let s := run_kurt l in
  k_mx s = mean l /\ k_vx s = dev 2 l /\ k_sx s = dev 3 l /\ k_kx s = dev 4 l.
Proof. exact run_kurt_spec. Qed.

Theorem C20_covariance : forall l, l <> [] -> let s := run_cov l in
  v_mx s = mean (map fst l) /\ v_my s = mean (map snd l) /\ v_cv s = codev l.
Proof. exact run_cov_spec. Qed.

Theorem C20_covar : forall l, l <> [] -> let s := run_covar l in
  c_mx s = mean (map fst l) /\ c_my s = mean (map snd l) /\
  c_vx s = dev 2 (map fst l) /\ c_vy s = dev 2 (map snd l) /\ c_cv s = codev l.
Proof. exact run_covar_spec. Qed.

(** variance() is the unbiased sample variance, skewness() and kurtosis() the
    population coefficients. *)
Theorem C20_variance : forall l, (2 <= length l)%nat ->
  variance (r_vx (run_var l)) (size l) = dev 2 l / (size l - 1).
Proof. exact variance_spec. Qed.

Theorem C20_standdev : forall l, (2 <= length l)%nat ->
  standdev (r_vx (run_var l)) (size l) = sqrt (dev 2 l / (size l - 1)).
Proof. intros l H. unfold standdev. now rewrite variance_spec. Qed.

Theorem C20_sample_covariance : forall l, l <> [] ->
  covariance (v_cv (run_cov l)) (size l) = codev l / (size l - 1).
Proof. intros l H. destruct (run_cov_spec l H) as (_ & _ & ->). reflexivity. Qed.

Theorem C20_skewness : forall l, l <> [] ->
  skewness (s_vx (run_skew l)) (s_sx (run_skew l)) (size l) = dev 3 l / size l / pop_sd l ^ 3.
Proof. exact skewness_spec. Qed.

Theorem C20_kurtosis : forall l, l <> [] ->
  kurtosis (k_vx (run_kurt l)) (k_kx (run_kurt l)) (size l) = dev 4 l / size l / (dev 2 l / size l) ^ 2.
Proof. exact kurtosis_spec. Qed.

Example C20_example : k_mx (run_kurt [1; 2; 6]) = 3 /\ k_vx (run_kurt [1; 2; 6]) = 14 /\
  k_sx (run_kurt [1; 2; 6]) = 18 /\ k_kx (run_kurt [1; 2; 6]) = 98.
Proof. unfold run_kurt, kurt_recurrence; cbn. repeat split; field. Qed.

(** C21 *)
Theorem C21_least_squares : forall l, l <> [] -> dev 2 (map fst l) <> 0 ->
  let s := run_covar l in let co := linreg_coefs (c_mx s) (c_my s) (c_cv s) (c_vx s) in
  forall a b, ssr (snd co) (fst co) l <= ssr a b l.
Proof. exact linreg_best. Qed.

Theorem C21_residuals_sum_to_zero : forall l, l <> [] ->
  let s := run_covar l in let co := linreg_coefs (c_mx s) (c_my s) (c_cv s) (c_vx s) in
  sum (fun p => snd p - linreg_predict (fst p) (fst co) (snd co)) l = 0.
Proof. exact linreg_residuals. Qed.

Theorem C21_rsquared_partial : forall l, l <> [] -> dev 2 (map fst l) <> 0 -> dev 2 (map snd l) <> 0 ->
  let s := run_covar l in let co := linreg_coefs (c_mx s) (c_my s) (c_cv s) (c_vx s) in
  let r := linreg_rsquared (c_cv s) (c_vx s) (c_vy s) in
  0 <= r <= 1 /\ r = 1 - ssr (snd co) (fst co) l / dev 2 (map snd l).
Proof. exact linreg_rsq. Qed.

(** The correlation coefficient. *)
Theorem C21_correlation : forall l, l <> [] -> dev 2 (map fst l) <> 0 -> dev 2 (map snd l) <> 0 ->
  let s := run_covar l in let r := linreg_r (c_cv s) (c_vx s) (c_vy s) in
  r = codev l / sqrt (dev 2 (map fst l) * dev 2 (map snd l)) /\ -1 <= r <= 1 /\
  r ^ 2 = linreg_rsquared (c_cv s) (c_vx s) (c_vy s).
Proof.
  intros l NE V1 V2 s r. destruct (linreg_rsq l NE V1 V2) as ((A & B) & _).
  unfold r, s, linreg_r, linreg_rsquared in *. destruct (run_covar_spec l NE) as (_ & _ & E1 & E2 & E3). rewrite E1, E2, E3 in *.
  assert (P1 : 0 < dev 2 (map fst l)) by (pose proof (dev2_nonneg (map fst l)); lra).
  assert (P2 : 0 < dev 2 (map snd l)) by (pose proof (dev2_nonneg (map snd l)); lra).
  set (q := dev 2 (map fst l) * dev 2 (map snd l)) in *. set (c := codev l) in *.
  assert (Q : 0 < q) by (apply Rmult_lt_0_compat; auto). pose proof (sqrt_lt_R0 q Q) as S. pose proof (sqrt_sqrt q ltac:(lra)) as SS.
  assert (E : (c / sqrt q) ^ 2 = c * c / q) by (replace (c * c / q) with (c * c / (sqrt q * sqrt q)) by (now rewrite SS); field; lra).
  split; [reflexivity|]. split; [|exact E].
  assert (F : (c / sqrt q) ^ 2 <= 1) by lra. split; nra.
Qed.

Example C21_example : let l := [(1, 2); (2, 3); (3, 7)] in
  dev 2 (map fst l) = 2 /\ dev 2 (map snd l) = 14 /\
  linreg_coefs (c_mx (run_covar l)) (c_my (run_covar l)) (c_cv (run_covar l)) (c_vx (run_covar l)) = (5 / 2, -1).
Proof.
  cbv zeta. unfold run_covar, covar_recurrence, linreg_coefs, linreg_slope, linreg_intercept, dev, mean, size; cbn.
  repeat split; [field|field|]. f_equal; field.
Qed.

Print Assumptions C20_mean_variance.
Print Assumptions C20_skew.
Print Assumptions C20_kurt.
Print Assumptions C20_covariance.
Print Assumptions C20_covar.
Print Assumptions C20_variance.
Print Assumptions C20_standdev.
Print Assumptions C20_sample_covariance.
Print Assumptions C21_correlation.
Print Assumptions C20_skewness.
Print Assumptions C20_kurtosis.
Print Assumptions C21_least_squares.
Print Assumptions C21_residuals_sum_to_zero.
Print Assumptions C21_rsquared_partial.
