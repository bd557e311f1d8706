(** C21 (continued): the trend product. *)
From Coq Require Import Reals List ZArith Lra Lia.
From Flocq Require Import Core.Raux.
From Verif Require Import Base BaseFacts StatsModel StatsSpec StatsProofs TrendModel TrendProofs.
Import ListNotations.
Open Scope R_scope.

(** With at least three valid values at not all equal times, all bands of the
    trend product of the pixel (values not in continuous days) are the truncated
    statistics of the least-squares line with slope b and offset a. *)
Theorem C21_trend_values : forall sig nodata s t,
  let l := valid nodata s in
  let b := codev l / dev 2 (map fst l) in
  let a := mean (map snd l) - b * mean (map fst l) in
  (3 <= length l)%nat -> dev 2 (map fst l) <> 0 ->
  trend_pixel sig nodata false s = Ret t ->
  (forall a' b', ssr a b l <= ssr a' b' l) /\
  t_mean t = Ztrunc (mean (map snd l)) /\ t_offset t = Ztrunc a /\ t_slope t = Ztrunc b /\
  t_rsq t = Ztrunc ((1 - ssr a b l / dev 2 (map snd l)) * 10000) /\
  t_rmse t = Ztrunc (sqrt (ssr a b l / size l)) /\
  t_mae t = Ztrunc (sum (fun p => Rabs (snd p - (a + b * fst p))) l / size l) /\
  (exists p, In p l /\ t_maxe t = Ztrunc (Rabs (snd p - (a + b * fst p))) /\
     forall q, In q l -> Rabs (snd q - (a + b * fst q)) <= Rabs (snd p - (a + b * fst p))) /\
  t_num t = to_short (zlen l) /\ t_len t = to_short (zlen s).
Proof.
  intros sig nodata s t l b a K V E. split; [exact (trend_least_squares sig nodata s K V)|].
  exact (trend_values sig nodata s t K V E).
Qed.

(** Fewer than three valid values: all bands are nodata. *)
Theorem C21_trend_few_values : forall sig nodata s, (length (valid nodata s) < 3)%nat -> forall in_ce,
  trend_pixel sig nodata in_ce s =
  Ret (mkTrd nodata nodata nodata nodata nodata nodata nodata nodata nodata nodata nodata nodata).
Proof. exact trend_few. Qed.

(** A pixel whose valid values are all equal has no R-squared (0/0): converting it
    to short is undefined. *)
Theorem C21_constant_series_refuted : forall sig nodata s c,
  (forall p, In p (valid nodata s) -> snd p = c) -> (3 <= length (valid nodata s))%nat ->
  forall in_ce, trend_pixel sig nodata in_ce s = UB.
Proof. exact trend_constant. Qed.

Example C21_trend_example : let s := [(0, 10); (1, -9999); (1, 20); (2, 30)]%Z in
  let sig := fun _ _ _ => 1%Z in
  (3 <= length (valid (-9999) s))%nat /\ dev 2 (map fst (valid (-9999) s)) <> 0 /\
  trend_pixel sig (-9999) false s = Ret (mkTrd 20 10 10 400 40 10000 1 0 0 0 3 4).
Proof.
  cbv zeta.
  assert (valid (-9999) [(0, 10); (1, -9999); (1, 20); (2, 30)]%Z = [(0, 10); (1, 20); (2, 30)]) as V by reflexivity.
  rewrite V. cbn [length map fst]. split; [lia|]. split.
  { unfold dev, mean, size. cbn [sum length INR]. intros H.
    replace ((0 - (0 + (1 + (2 + 0))) / (1 + 1 + 1)) ^ 2 +
      ((1 - (0 + (1 + (2 + 0))) / (1 + 1 + 1)) ^ 2 +
       ((2 - (0 + (1 + (2 + 0))) / (1 + 1 + 1)) ^ 2 + 0))) with 2 in H by field. lra. }
  unfold trend_pixel. rewrite V, accumulate_run. cbn [length Nat.ltb Nat.leb].
  assert (run_covar [(0, 10); (1, 20); (2, 30)] = mkCovar 1 20 2 200 20) as ->.
  { unfold run_covar; cbn [feed]. unfold covar_recurrence; cbn. f_equal; field. }
  cbn [c_mx c_my c_vx c_vy c_cv]. rewrite slope_scaled, rsq_scaled by (lia || lra).
  unfold linreg_intercept, linreg_rsquared, residuals. rewrite residuals_gen. cbn [ssqe sae sxsq maxe].
  change (zlen [(0, 10); (1, -9999); (1, 20); (2, 30)]%Z) with 4%Z.
  unfold ssr; cbn [sum fst snd fold_left].
  replace (20 / 2) with 10 by field. replace (20 - 10 * 1) with 10 by ring.
  replace (10 - (10 + 10 * 0)) with 0 by ring. replace (20 - (10 + 10 * 1)) with 0 by ring.
  replace (30 - (10 + 10 * 2)) with 0 by ring.
  rewrite Rabs_R0. rewrite (Rmax_right (-32768) 0) by lra. rewrite !(Rmax_right 0 0) by lra.
  replace (0 + (0 ^ 2 + (0 ^ 2 + (0 ^ 2 + 0)))) with 0 by ring.
  replace (0 + (0 + (0 + (0 + 0)))) with 0 by ring.
  replace (0 / INR 3) with 0 by (cbn [INR]; field). rewrite sqrt_0.
  replace (20 * 20 / (2 * 200) * 10000) with 10000 by field.
  replace (10 * 4 / 10 * 100) with 400 by field. replace (10 * 4) with 40 by ring.
  destruct (Rlt_dec 0 10) as [_|H]; [|exfalso; lra].
  unfold short_of. rewrite !Ztrunc_IZR. reflexivity.
Qed.

Print Assumptions C21_trend_values.
Print Assumptions C21_trend_few_values.
Print Assumptions C21_constant_series_refuted.
