From Coq Require Import Reals List Lra Lia.
Import ListNotations.
From Verif Require Import StatsModel StatsSpec.
Open Scope R_scope.

Lemma sum_app {A} (f : A -> R) l1 l2 : sum f (l1 ++ l2) = sum f l1 + sum f l2.
Proof. induction l1 as [|x l IH]; cbn [app sum]; [lra|rewrite IH; lra]. Qed.

Lemma sum_map {A B} (g : A -> B) (f : B -> R) l : sum f (map g l) = sum (fun x => f (g x)) l.
Proof. induction l as [|x l IH]; cbn [map sum]; [auto|now rewrite IH]. Qed.

Lemma size_cons {A} (x : A) l : size (x :: l) = size l + 1.
Proof. unfold size; cbn [length]; rewrite S_INR; auto. Qed.
Lemma size_snoc {A} (x : A) l : size (l ++ [x]) = size l + 1.
Proof. unfold size; rewrite app_length; cbn [length]; rewrite Nat.add_1_r, S_INR; auto. Qed.
Lemma size_nonneg {A} (l : list A) : 0 <= size l.
Proof. apply pos_INR. Qed.
Lemma size_pos {A} (l : list A) : l <> [] -> 0 < size l.
Proof. destruct l; [congruence|]. intros _. rewrite size_cons. pose proof (size_nonneg l). lra. Qed.
Lemma size_map {A B} (f : A -> B) l : size (map f l) = size l.
Proof. unfold size; now rewrite map_length. Qed.

Lemma feed_snoc {A St} (f : A -> St -> R -> St) : forall l n s x,
  feed f (l ++ [x]) n s = f x (feed f l n s) (INR (n + length l) + 1).
Proof.
  induction l as [|y l IH]; intros n s x; cbn [app feed length].
  - rewrite Nat.add_0_r, S_INR. auto.
  - rewrite IH. rewrite Nat.add_succ_comm. auto.
Qed.

Definition P1 (l : list R) := sum (fun x => x) l.
Definition Pk k (l : list R) := sum (fun x => x ^ k) l.

(** Expansion of the power sums around any centre. *)
Lemma expand2 c l : sum (fun x => (x - c) ^ 2) l = Pk 2 l - 2 * c * P1 l + size l * c ^ 2.
Proof.
  unfold Pk, P1. induction l as [|x l IH]; [cbn [sum]; unfold size; cbn [length INR]; ring|].
  cbn [sum]. rewrite IH, size_cons. ring.
Qed.
Lemma expand3 c l : sum (fun x => (x - c) ^ 3) l =
  Pk 3 l - 3 * c * Pk 2 l + 3 * c ^ 2 * P1 l - size l * c ^ 3.
Proof.
  unfold Pk, P1. induction l as [|x l IH]; [cbn [sum]; unfold size; cbn [length INR]; ring|].
  cbn [sum]. rewrite IH, size_cons. ring.
Qed.
Lemma expand4 c l : sum (fun x => (x - c) ^ 4) l =
  Pk 4 l - 4 * c * Pk 3 l + 6 * c ^ 2 * Pk 2 l - 4 * c ^ 3 * P1 l + size l * c ^ 4.
Proof.
  unfold Pk, P1. induction l as [|x l IH]; [cbn [sum]; unfold size; cbn [length INR]; ring|].
  cbn [sum]. rewrite IH, size_cons. ring.
Qed.
Lemma expandxy c d l : sum (fun p => (fst p - c) * (snd p - d)) l =
  sum (fun p => fst p * snd p) l - c * P1 (map snd l) - d * P1 (map fst l) + size l * c * d.
Proof.
  unfold P1. induction l as [|x l IH]; [cbn [sum map]; unfold size; cbn [length INR]; ring|].
  cbn [sum map]. rewrite IH, size_cons. ring.
Qed.

Lemma mean_P1 l : l <> [] -> P1 l = size l * mean l.
Proof. intros H. pose proof (size_pos l H). unfold mean, P1. field. lra. Qed.

(** Running sums. *)
Lemma run_kurt_inv l : let s := run_kurt l in
  P1 l = size l * k_mx s /\
  k_vx s = Pk 2 l - k_mx s * P1 l /\
  k_sx s = Pk 3 l - 3 * k_mx s * Pk 2 l + 2 * (k_mx s) ^ 2 * P1 l /\
  k_kx s = Pk 4 l - 4 * k_mx s * Pk 3 l + 6 * (k_mx s) ^ 2 * Pk 2 l - 3 * (k_mx s) ^ 3 * P1 l.
Proof.
  induction l as [|x l IH] using rev_ind.
  - cbn. unfold P1, Pk, size; cbn. repeat split; ring.
  - cbv zeta in *. unfold run_kurt in *. rewrite feed_snoc. cbn [Nat.add]. fold (size l).
    destruct (feed kurt_recurrence l 0 (mkKurt 0 0 0 0)) as [m v s k].
    cbn [k_mx k_vx k_sx k_kx] in IH. destruct IH as (H1 & H2 & H3 & H4).
    unfold kurt_recurrence; cbn [k_mx k_vx k_sx k_kx].
    rewrite size_snoc. unfold P1, Pk in *. rewrite !sum_app. cbn [sum].
    pose proof (size_nonneg l) as N. set (n := size l) in *.
    rewrite H1 in *. rewrite H2, H3, H4.
    repeat split; field; lra.
Qed.

Lemma run_skew_kurt l : let s := run_skew l in let k := run_kurt l in
  s_mx s = k_mx k /\ s_vx s = k_vx k /\ s_sx s = k_sx k.
Proof.
  induction l as [|x l IH] using rev_ind; [cbn; auto|].
  cbv zeta in *. unfold run_skew, run_kurt in *. rewrite !feed_snoc.
  destruct (feed skew_recurrence l 0 _) as [a1 a2 a3], (feed kurt_recurrence l 0 _) as [b1 b2 b3 b4]; cbn in IH.
  destruct IH as (-> & -> & ->). cbn. auto.
Qed.

Lemma run_var_kurt l : let s := run_var l in let k := run_kurt l in r_mx s = k_mx k /\ r_vx s = k_vx k.
Proof.
  induction l as [|x l IH] using rev_ind; [cbn; auto|].
  cbv zeta in *. unfold run_var, run_kurt in *. rewrite !feed_snoc.
  destruct (feed var_recurrence l 0 _) as [a1 a2], (feed kurt_recurrence l 0 _) as [b1 b2 b3 b4]; cbn [r_mx r_vx k_mx k_vx] in IH.
  destruct IH as (-> & ->). unfold var_recurrence, kurt_recurrence; cbn [r_mx r_vx k_mx k_vx].
  pose proof (pos_INR (0 + length l)). split; [auto|field; lra].
Qed.

Lemma run_covar_parts l : let s := run_covar l in
  mkVar (c_mx s) (c_vx s) = run_var (map fst l) /\
  mkVar (c_my s) (c_vy s) = run_var (map snd l) /\
  mkCov (c_mx s) (c_my s) (c_cv s) = run_cov l.
Proof.
  induction l as [|x l IH] using rev_ind; [cbn; auto|].
  cbv zeta in *. unfold run_covar, run_var, run_cov in *. rewrite !map_app. cbn [map]. rewrite !feed_snoc, !map_length.
  destruct IH as (H1 & H2 & H3). rewrite <- H1, <- H2, <- H3.
  unfold covar_recurrence, var_recurrence, cov_recurrence. cbn. auto.
Qed.

Lemma run_cov_inv l : let s := run_cov l in
  P1 (map fst l) = size l * v_mx s /\ P1 (map snd l) = size l * v_my s /\
  v_cv s = sum (fun p => fst p * snd p) l - v_mx s * P1 (map snd l).
Proof.
  induction l as [|x l IH] using rev_ind.
  - cbn. unfold P1, size; cbn. repeat split; ring.
  - cbv zeta in *. unfold run_cov in *. rewrite feed_snoc. cbn [Nat.add]. fold (size l).
    destruct (feed _ l 0 (mkCov 0 0 0)) as [m m2 c]. cbn [v_mx v_my v_cv] in IH. destruct IH as (H1 & H2 & H3).
    unfold cov_recurrence; cbn [v_mx v_my v_cv].
    rewrite size_snoc, !map_app. unfold P1 in *. rewrite !sum_app. cbn [sum map].
    pose proof (size_nonneg l) as N. set (n := size l) in *. rewrite H1, H2, H3, H2.
    repeat split; field; lra.
Qed.

(** ** Results *)
Lemma run_kurt_spec l : l <> [] -> let s := run_kurt l in
  k_mx s = mean l /\ k_vx s = dev 2 l /\ k_sx s = dev 3 l /\ k_kx s = dev 4 l.
Proof.
  intros NE. destruct (run_kurt_inv l) as (H1 & H2 & H3 & H4). cbv zeta in *.
  pose proof (size_pos l NE) as SP.
  assert (k_mx (run_kurt l) = mean l) as M.
  { rewrite (mean_P1 l NE) in H1. apply Rmult_eq_reg_l in H1; lra. }
  rewrite M in *. unfold dev. rewrite expand2, expand3, expand4. rewrite H2, H3, H4, H1. repeat split; ring.
Qed.

Lemma run_skew_spec l : l <> [] -> let s := run_skew l in
  s_mx s = mean l /\ s_vx s = dev 2 l /\ s_sx s = dev 3 l.
Proof.
  intros NE. destruct (run_kurt_spec l NE) as (H1 & H2 & H3 & H4), (run_skew_kurt l) as (E1 & E2 & E3).
  cbv zeta in *. repeat split; congruence.
Qed.

Lemma run_var_spec l : l <> [] -> let s := run_var l in r_mx s = mean l /\ r_vx s = dev 2 l.
Proof.
  intros NE. destruct (run_kurt_spec l NE) as (H1 & H2 & H3 & H4), (run_var_kurt l) as (E1 & E2).
  cbv zeta in *. split; congruence.
Qed.

Lemma map_nonnil {A B} (f : A -> B) l : l <> [] -> map f l <> [].
Proof. destruct l; cbn; congruence. Qed.

Lemma run_cov_spec l : l <> [] -> let s := run_cov l in
  v_mx s = mean (map fst l) /\ v_my s = mean (map snd l) /\ v_cv s = codev l.
Proof.
  intros NE. destruct (run_cov_inv l) as (H1 & H2 & H3). cbv zeta in *.
  pose proof (size_pos l NE) as SP.
  assert (v_mx (run_cov l) = mean (map fst l)) as M.
  { rewrite (mean_P1 _ (map_nonnil fst l NE)), size_map in H1. apply Rmult_eq_reg_l in H1; lra. }
  assert (v_my (run_cov l) = mean (map snd l)) as M2.
  { rewrite (mean_P1 _ (map_nonnil snd l NE)), size_map in H2. apply Rmult_eq_reg_l in H2; lra. }
  rewrite M, M2 in *. split; [auto|]. split; [auto|]. unfold codev. rewrite expandxy, H3, H1, H2. ring.
Qed.

Lemma run_covar_spec l : l <> [] -> let s := run_covar l in
  c_mx s = mean (map fst l) /\ c_my s = mean (map snd l) /\
  c_vx s = dev 2 (map fst l) /\ c_vy s = dev 2 (map snd l) /\ c_cv s = codev l.
Proof.
  intros NE. destruct (run_covar_parts l) as (E1 & E2 & E3).
  destruct (run_var_spec _ (map_nonnil fst l NE)) as (A1 & A2).
  destruct (run_var_spec _ (map_nonnil snd l NE)) as (B1 & B2).
  destruct (run_cov_spec l NE) as (C1 & C2 & C3). cbv zeta in *.
  rewrite <- E1 in A1, A2. rewrite <- E2 in B1, B2. rewrite <- E3 in C1, C2, C3. cbn in *. auto.
Qed.

Lemma variance_spec l : (2 <= length l)%nat ->
  variance (r_vx (run_var l)) (size l) = dev 2 l / (size l - 1).
Proof. intros H. destruct (run_var_spec l) as (_ & ->); [destruct l; cbn in *; [lia|congruence]|]. reflexivity. Qed.

Lemma skewness_spec l : l <> [] ->
  skewness (s_vx (run_skew l)) (s_sx (run_skew l)) (size l) = dev 3 l / size l / pop_sd l ^ 3.
Proof.
  intros NE. destruct (run_skew_spec l NE) as (_ & H1 & H2). cbv zeta in *. rewrite H1, H2.
  unfold skewness, standdev, variance, pop_sd. replace (size l + 1 - 1) with (size l) by ring.
  unfold Rdiv. rewrite Rinv_mult. ring.
Qed.

Lemma kurtosis_spec l : l <> [] ->
  kurtosis (k_vx (run_kurt l)) (k_kx (run_kurt l)) (size l) = dev 4 l / size l / (dev 2 l / size l) ^ 2.
Proof.
  intros NE. destruct (run_kurt_spec l NE) as (_ & H1 & _ & H2). cbv zeta in *. rewrite H1, H2.
  unfold kurtosis, variance. replace (size l + 1 - 1) with (size l) by ring.
  unfold Rdiv. rewrite !Rinv_mult. cbn [pow]. rewrite !Rinv_mult, Rinv_1. ring.
Qed.

(** ** Regression *)
Lemma sum_nonneg {A} (f : A -> R) l : (forall x, 0 <= f x) -> 0 <= sum f l.
Proof. intros H; induction l as [|x l IH]; cbn [sum]; [lra|]. specialize (H x). lra. Qed.

Lemma ssr_expand a b l : l <> [] ->
  ssr a b l = dev 2 (map snd l) - 2 * b * codev l + b ^ 2 * dev 2 (map fst l)
    + size l * (mean (map snd l) - a - b * mean (map fst l)) ^ 2.
Proof.
  intros NE. unfold dev, codev. rewrite !expand2, expandxy, !size_map.
  rewrite (mean_P1 _ (map_nonnil fst l NE)), (mean_P1 _ (map_nonnil snd l NE)), !size_map.
  set (mx := mean (map fst l)). set (my := mean (map snd l)).
  assert (forall l, ssr a b l = Pk 2 (map snd l) + b ^ 2 * Pk 2 (map fst l) + size l * a ^ 2
     - 2 * b * sum (fun p => fst p * snd p) l - 2 * a * P1 (map snd l) + 2 * a * b * P1 (map fst l)) as E.
  { clear. unfold ssr, Pk, P1. induction l as [|x l IH]; [cbn [sum map]; unfold size; cbn [length INR]; ring|].
    cbn [sum map]. rewrite IH, size_cons. ring. }
  rewrite E. rewrite (mean_P1 _ (map_nonnil fst l NE)), (mean_P1 _ (map_nonnil snd l NE)), !size_map.
  fold mx my. ring.
Qed.

Lemma dev2_nonneg l : 0 <= dev 2 l.
Proof. apply sum_nonneg. intros; apply pow2_ge_0. Qed.

Section Reg.
Context (l : list (R * R)) (NE : l <> []) (VX : dev 2 (map fst l) <> 0).
Let s := run_covar l.
Let co := linreg_coefs (c_mx s) (c_my s) (c_cv s) (c_vx s).

Lemma vx_pos : 0 < dev 2 (map fst l).
Proof. pose proof (dev2_nonneg (map fst l)). lra. Qed.

Lemma linreg_best : forall a b, ssr (snd co) (fst co) l <= ssr a b l.
Proof.
  intros a b. rewrite !ssr_expand by auto. unfold co, linreg_coefs, linreg_slope, linreg_intercept; cbn [fst snd].
  unfold s. destruct (run_covar_spec l NE) as (-> & -> & -> & _ & ->).
  set (mx := mean (map fst l)). set (my := mean (map snd l)). pose proof vx_pos as V.
  set (vx := dev 2 (map fst l)) in *. set (vy := dev 2 (map snd l)). set (cv := codev l). set (n := size l).
  pose proof (size_nonneg l) as N. fold n in N.
  assert (0 <= vx * (b - cv / vx) ^ 2) as Q1 by (apply Rmult_le_pos; [lra|apply pow2_ge_0]).
  assert (0 <= n * (my - a - b * mx) ^ 2) as Q2 by (apply Rmult_le_pos; [lra|apply pow2_ge_0]).
  replace (vx * (b - cv / vx) ^ 2) with (b ^ 2 * vx - 2 * b * cv + cv * cv / vx) in Q1 by (field; lra).
  replace (vy - 2 * (cv / vx) * cv + (cv / vx) ^ 2 * vx + n * (my - (my - cv / vx * mx) - cv / vx * mx) ^ 2)
    with (vy - cv * cv / vx) by (field; lra).
  lra.
Qed.

Lemma linreg_residuals : sum (fun p => snd p - linreg_predict (fst p) (fst co) (snd co)) l = 0.
Proof.
  assert (forall a b l, sum (fun p => snd p - linreg_predict (fst p) b a) l
    = P1 (map snd l) - b * P1 (map fst l) - size l * a) as E.
  { clear. intros a b l0. unfold linreg_predict, P1. 
    induction l0 as [|x m IH]; [cbn [sum map]; unfold size; cbn [length INR]; ring|].
    cbn [sum map]. rewrite IH, size_cons. ring. }
  rewrite E. unfold co, linreg_coefs, linreg_slope, linreg_intercept; cbn [fst snd].
  unfold s. destruct (run_covar_spec l NE) as (-> & -> & -> & _ & ->).
  rewrite (mean_P1 _ (map_nonnil fst l NE)), (mean_P1 _ (map_nonnil snd l NE)), !size_map. ring.
Qed.

Lemma linreg_ssr : ssr (snd co) (fst co) l = dev 2 (map snd l) - codev l * codev l / dev 2 (map fst l).
Proof.
  rewrite !ssr_expand by auto. unfold co, linreg_coefs, linreg_slope, linreg_intercept; cbn [fst snd].
  unfold s. destruct (run_covar_spec l NE) as (-> & -> & -> & _ & ->). field. exact VX.
Qed.

Lemma linreg_rsq : dev 2 (map snd l) <> 0 ->
  let r := linreg_rsquared (c_cv s) (c_vx s) (c_vy s) in
  0 <= r <= 1 /\ r = 1 - ssr (snd co) (fst co) l / dev 2 (map snd l).
Proof.
  intros VY r. pose proof linreg_ssr as E.
  assert (0 <= ssr (snd co) (fst co) l) as P by (apply sum_nonneg; intros; apply pow2_ge_0).
  rewrite E in *. unfold r, linreg_rsquared, s. destruct (run_covar_spec l NE) as (_ & _ & -> & -> & ->).
  pose proof vx_pos as V1. pose proof (dev2_nonneg (map snd l)) as V2.
  set (vx := dev 2 (map fst l)) in *. set (vy := dev 2 (map snd l)) in *. set (cv := codev l) in *.
  assert (0 < vy) as VP by lra.
  assert (0 <= cv * cv / (vx * vy)) as A.
  { apply Rmult_le_pos; [apply Rle_0_sqr|]. left. apply Rinv_0_lt_compat. apply Rmult_lt_0_compat; lra. }
  assert (cv * cv / (vx * vy) = 1 - (vy - cv * cv / vx) / vy) as B by (field; lra).
  repeat split; auto.
  rewrite B. assert (0 <= (vy - cv * cv / vx) / vy); [|lra].
  apply Rmult_le_pos; [lra|]. left. apply Rinv_0_lt_compat. lra.
Qed.
End Reg.
