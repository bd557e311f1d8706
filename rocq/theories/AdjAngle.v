(** Lemmas about the spectral angle. *)
From Coq Require Import Reals Lra Lia ZifyBool.
From Flocq Require Import Core.
From Verif Require Import Base BaseFacts RoundModel RoundFacts AdjModel AdjSpec.
#[local] Open Scope R_scope.

(** ** The root of a rounded square *)
Lemma root_square n : (0 < n < 2 ^ 53)%Z -> IZR n <= rnd64 (sqrt (rnd64 (IZR n * IZR n))).
Proof.
  intros B. assert (N0 : 0 < IZR n) by (apply IZR_lt; lia).
  destruct (mag radix2 (IZR n)) as (k, K). specialize (K ltac:(lra)). rewrite Rabs_pos_eq in K by lra.
  assert (1 <= k <= 53)%Z as KB.
  { split.
    - destruct (Z_lt_le_dec k 1) as [L|L]; auto. exfalso. assert (bpow radix2 k <= bpow radix2 0) by (apply bpow_le; lia). assert (1 <= IZR n) by (apply IZR_le; lia). cbn [bpow] in *. lra.
    - destruct (Z_lt_le_dec 53 k) as [L|L]; auto. exfalso. assert (bpow radix2 53 <= bpow radix2 (k - 1)) by (apply bpow_le; lia).
      assert (IZR n < IZR (2 ^ 53)) by (apply IZR_lt; lia). change (bpow radix2 53) with (IZR (2 ^ 53)) in *. lra. }
  set (m := (n * 2 ^ (53 - k))%Z). set (e := (k - 53)%Z).
  assert (E1 : IZR n = IZR m * bpow radix2 e).
  { unfold m, e. rewrite mult_IZR. change 2%Z with (radix_val radix2) at 1. rewrite IZR_Zpower by lia. rewrite Rmult_assoc, <- bpow_plus. replace (53 - k + (k - 53))%Z with 0%Z by lia. cbn [bpow]. ring. }
  assert (M : (2 ^ 52 <= m < 2 ^ 53)%Z).
  { assert (EP : 0 < bpow radix2 e) by apply bpow_gt_0. split.
    - apply le_IZR. apply Rmult_le_reg_r with (bpow radix2 e); auto. rewrite <- E1. change (IZR (2 ^ 52)) with (bpow radix2 52). rewrite <- bpow_plus. unfold e. replace (52 + (k - 53))%Z with (k - 1)%Z by lia. apply K.
    - apply lt_IZR. apply Rmult_lt_reg_r with (bpow radix2 e); auto. rewrite <- E1. change (IZR (2 ^ 53)) with (bpow radix2 53). rewrite <- bpow_plus. unfold e. replace (53 + (k - 53))%Z with k by lia. apply K. }
  assert (NR : rnd64 (IZR n) = IZR n) by (apply rnd64_int; lia).
  destruct (Z.eq_dec m (2 ^ 52)) as [Q|Q].
  - (* a power of two *)
    assert (IZR n = bpow radix2 (k - 1)) as P. { rewrite E1, Q. change (IZR (2 ^ 52)) with (bpow radix2 52). rewrite <- bpow_plus. unfold e. f_equal. lia. }
    assert (rnd64 (IZR n * IZR n) = IZR n * IZR n) as ->.
    { rewrite P, <- bpow_plus. replace (bpow radix2 (k - 1 + (k - 1))) with (IZR 1 * bpow radix2 (k - 1 + (k - 1))) by lra. apply rnd64_dyadic; lia. }
    rewrite sqrt_square by lra. lra.
  - set (y := sqrt (rnd64 (IZR n * IZR n))). set (b := bpow radix2 e). assert (B0 : 0 < b) by apply bpow_gt_0.
    assert (ER : Rabs (rnd64 (IZR n * IZR n) - IZR n * IZR n) <= bpow radix2 (2 * e + 52)).
    { unfold rnd64. eapply Rle_trans; [apply error_le_half_ulp; apply FLT_exp_valid; reflexivity|].
      assert (ulp radix2 (FLT_exp (-1074) 53) (IZR n * IZR n) <= bpow radix2 (2 * e + 53)) as U.
      { rewrite ulp_neq_0 by nra. apply bpow_le. unfold cexp, FLT_exp. assert (mag radix2 (IZR n * IZR n) <= 2 * k)%Z.
        { apply mag_le_bpow; [nra|]. rewrite Rabs_pos_eq by nra. replace (2 * k)%Z with (k + k)%Z by lia. rewrite bpow_plus. destruct K. nra. }
        unfold e in *. lia. }
      replace (2 * e + 53)%Z with (1 + (2 * e + 52))%Z in U by lia. rewrite bpow_plus in U. change (bpow radix2 1) with 2 in U. lra. }
    assert (R0 : 0 <= rnd64 (IZR n * IZR n)). { replace 0 with (rnd64 0) by apply rnd64_0. apply rnd64_le. nra. }
    assert (Y0 : 0 <= y) by apply sqrt_pos.
    assert (Y2 : y * y = rnd64 (IZR n * IZR n)) by (unfold y; apply sqrt_sqrt; auto).
    assert (EE : bpow radix2 (2 * e + 52) = bpow radix2 52 * (b * b)). { replace (2 * e + 52)%Z with (52 + (e + e))%Z by lia. rewrite !bpow_plus. reflexivity. }
    assert (MM : bpow radix2 52 + 1 <= IZR m). { change (bpow radix2 52) with (IZR (2 ^ 52)). rewrite <- plus_IZR. apply IZR_le. lia. }
    assert (LOW : IZR n - / 2 * b < y).
    { destruct (Rle_or_lt y (IZR n - / 2 * b)) as [L|L]; auto. exfalso.
      assert (y * y <= (IZR n - / 2 * b) * (IZR n - / 2 * b)) by nra. rewrite Y2 in H. apply Rabs_le_inv in ER. rewrite EE in ER. rewrite E1 in H. fold b in H.
      rewrite E1 in ER. fold b in ER. clear - ER H MM B0. set (r := rnd64 _) in *. clearbody r. set (c := bpow radix2 52) in *. clearbody c. clearbody b.
      assert (0 < b * b) by nra. assert ((IZR m - / 4) * (b * b) <= c * (b * b)) by nra. nra. }
    destruct (Rle_or_lt (IZR n) y) as [L|L]; [rewrite <- NR; apply rnd64_le; auto|].
    assert (rnd64 y = IZR n) as ->; [|lra]. rewrite E1. fold b. assert (E2 : IZR n = IZR m * b) by exact E1. apply rnd64_near; [lia|unfold e; lia|]. fold b. rewrite <- E2. rewrite Rabs_left by lra. lra.
Qed.

(** ** Sums of products *)
Lemma sum_prod_sq x : (0 <= sum_prod x x)%Z.
Proof. induction x as [|a x IH]; cbn [sum_prod]; [lia|nia]. Qed.
Lemma cauchy x : forall y, (sum_prod x y * sum_prod x y <= sum_prod x x * sum_prod y y)%Z.
Proof.
  induction x as [|a x IH]; intros [|b y]; cbn [sum_prod]; try lia; try (pose proof (sum_prod_sq x); pose proof (sum_prod_sq y); nia).
  specialize (IH y). pose proof (sum_prod_sq x) as X. pose proof (sum_prod_sq y) as Y. set (xy := sum_prod x y) in *. set (xx := sum_prod x x) in *. set (yy := sum_prod y y) in *. clearbody xy xx yy.
  assert (2 * (a * b) * xy <= a * a * yy + b * b * xx)%Z; [|lia].
  destruct (Z_le_gt_dec 0 ((a * b) * xy)) as [P|P]; [|nia].
  (* (2 a b xy)^2 <= 4 a^2 b^2 xx yy <= (a^2 yy + b^2 xx)^2 *)
  assert (0 <= a * a * yy + b * b * xx)%Z by nia.
  apply Z.square_le_simpl_nonneg; auto.
  assert ((a * b) * (a * b) * (xy * xy) <= (a * b) * (a * b) * (xx * yy))%Z by (apply Z.mul_le_mono_nonneg_l; nia).
  assert (0 <= (a * a * yy - b * b * xx) * (a * a * yy - b * b * xx))%Z by apply Z.square_nonneg. lia.
Qed.
Lemma sum_prod_bound x : forall y, Forall (fun v => -32768 <= v <= 32767)%Z x -> Forall (fun v => -32768 <= v <= 32767)%Z y ->
  (Z.abs (sum_prod x y) <= 1073741824 * Z.of_nat (length x))%Z.
Proof.
  induction x as [|a x IH]; intros [|b y] FX FY; cbn [sum_prod length]; try lia. inversion FX; inversion FY; subst. specialize (IH y ltac:(auto) ltac:(auto)).
  assert (Z.abs (a * b) <= 1073741824)%Z by (rewrite Z.abs_mul; apply (Z.mul_le_mono_nonneg (Z.abs a) 32768 (Z.abs b) 32768); lia). lia.
Qed.
Lemma sum_prod_zero x : sum_prod x x = 0%Z -> forall y, sum_prod x y = 0%Z.
Proof. intros H y. pose proof (cauchy x y) as C. rewrite H in C. nia. Qed.

(** ** The quotient *)
Definition quotient (x y : list Z) : R := rnd64 (IZR (sum_prod x y) / rnd64 (sqrt (rnd64 (IZR (sum_prod x x) * IZR (sum_prod y y))))).
Lemma rnd64_opp x : rnd64 (- x) = - rnd64 x.
Proof. apply round_NE_opp. Qed.
Lemma rnd64_1 : rnd64 1 = 1.
Proof. apply (rnd64_int 1). lia. Qed.
Lemma quotient_unit x y : spectrum x -> spectrum y -> (0 < sum_prod x x)%Z -> (0 < sum_prod y y)%Z -> -1 <= quotient x y <= 1.
Proof.
  intros (LX & FX) (LY & FY) X Y. unfold quotient. set (xy := sum_prod x y). set (d := rnd64 (sqrt _)).
  assert (D : IZR (Z.abs xy) <= d /\ 0 < d).
  { assert (forall n, (0 < n < 2 ^ 53)%Z -> (n * n <= sum_prod x x * sum_prod y y)%Z -> IZR n <= d) as G.
    { intros n B L. eapply Rle_trans; [apply root_square; auto|]. apply rnd64_le, sqrt_le_1_alt, rnd64_le. rewrite <- !mult_IZR. apply IZR_le, L. }
    assert (1 <= d) as D1 by (apply (G 1%Z); [lia|nia]). split; [|lra].
    destruct (Z.eq_dec xy 0) as [E|E]; [rewrite E; cbn; lra|]. apply G.
    - pose proof (sum_prod_bound x y FX FY) as B. fold xy in B. assert (2 ^ 53 = 9007199254740992)%Z by reflexivity. lia.
    - rewrite <- Z.abs_mul, Z.abs_eq by nia. apply cauchy. }
  destruct D as (D & P). assert (- d <= IZR xy <= d) as Q.
  { rewrite abs_IZR in D. apply Rabs_le_inv in D. auto. }
  split; [rewrite <- (rnd64_int (-1)) by lia|rewrite <- (rnd64_int 1) by lia]; apply rnd64_le.
  - apply Rmult_le_reg_r with d; auto. unfold Rdiv. rewrite Rmult_assoc, Rinv_l by lra. lra.
  - apply Rmult_le_reg_r with d; auto. unfold Rdiv. rewrite Rmult_assoc, Rinv_l by lra. lra.
Qed.
Lemma angle_def x y : spectrum x -> spectrum y ->
  angle x y = Some (if (0 <? sum_prod x x)%Z && (0 <? sum_prod y y)%Z then rnd64 (acos (quotient x y)) else 1).
Proof.
  intros SX SY. unfold angle. destruct (Z.ltb_spec 0 (sum_prod x x)) as [X|X]; [|reflexivity]. destruct (Z.ltb_spec 0 (sum_prod y y)) as [Y|Y]; [|reflexivity].
  cbn [andb]. cbv zeta. fold (quotient x y). destruct (quotient_unit x y SX SY X Y). rewrite !Rle_bool_true by auto. reflexivity.
Qed.

(** How close the quotient is to the cosine. *)
Lemma rel x : / 1000 <= Rabs x -> Rabs (rnd64 x - x) <= / 9007199254740992 * Rabs x.
Proof. intros H. apply rnd64_rel. eapply Rle_trans; [|apply H]. apply Rle_trans with (bpow radix2 (-10)); [apply bpow_le; lia|]. change (bpow radix2 (-10)) with (/ 1024). lra. Qed.
Lemma quotient_close x y : spectrum x -> spectrum y -> (0 < sum_prod x x)%Z -> (0 < sum_prod y y)%Z ->
  Rabs (quotient x y - IZR (sum_prod x y) / sqrt (IZR (sum_prod x x * sum_prod y y))) <= / 1000000000000.
Proof.
  intros (LX & FX) (LY & FY) X Y. unfold quotient. set (xy := sum_prod x y). rewrite <- mult_IZR. set (P := (sum_prod x x * sum_prod y y)%Z).
  assert (1 <= P)%Z as P1 by (unfold P; nia). assert (1 <= IZR P) as PR by (apply IZR_le; auto).
  set (t := sqrt (IZR P)). assert (T1 : 1 <= t) by (unfold t; rewrite <- sqrt_1; apply sqrt_le_1_alt; auto). assert (T2 : t * t = IZR P) by (apply sqrt_sqrt; lra).
  assert (C : Rabs (IZR xy) <= t).
  { apply Rsqr_incr_0_var; [|lra]. rewrite <- Rsqr_abs. unfold Rsqr. rewrite T2, <- mult_IZR. apply IZR_le, cauchy. }
  set (u := / 9007199254740992).
  assert (D1 : Rabs (rnd64 (IZR P) - IZR P) <= u * IZR P). { rewrite <- (Rabs_pos_eq (IZR P)) at 3 by lra. apply rel. rewrite Rabs_pos_eq; lra. }
  set (r := rnd64 (IZR P)) in *. assert (U0 : 0 < u < / 1000000000000000) by (unfold u; lra). apply Rabs_le_inv in D1.
  set (s := sqrt r). assert (S2 : s * s = r) by (apply sqrt_sqrt; nra). assert (S0 : 0 <= s) by apply sqrt_pos.
  assert (D2 : (1 - u) * t <= s <= (1 + u) * t).
  { rewrite <- T2 in D1. assert (0 < t * t) as TT by nra. split; apply Rsqr_incr_0_var; try nra; unfold Rsqr; rewrite S2.
    - apply Rle_trans with ((1 - u) * (t * t)); [|lra]. replace ((1 - u) * t * ((1 - u) * t)) with ((1 - u) * (1 - u) * (t * t)) by ring. apply Rmult_le_compat_r; [lra|]. nra.
    - apply Rle_trans with ((1 + u) * (t * t)); [lra|]. replace ((1 + u) * t * ((1 + u) * t)) with ((1 + u) * (1 + u) * (t * t)) by ring. apply Rmult_le_compat_r; [lra|]. nra. }
  assert (D3 : Rabs (rnd64 s - s) <= u * s). { rewrite <- (Rabs_pos_eq s) at 3 by auto. apply rel. rewrite Rabs_pos_eq by auto. nra. }
  set (d := rnd64 s) in *. apply Rabs_le_inv in D3. assert (D4 : (1 - 3 * u) * t <= d <= (1 + 3 * u) * t) by (split; nra).
  assert (D0 : / 2 <= d) by nra.
  assert (Q : Rabs (IZR xy / d - IZR xy / t) <= 4 * u).
  { replace (IZR xy / d - IZR xy / t) with ((IZR xy / t) * ((t - d) / d)) by (field; lra). rewrite Rabs_mult. assert (Rabs (IZR xy / t) <= 1) as A.
    { unfold Rdiv. rewrite Rabs_mult, (Rabs_pos_eq (/ t)) by (left; apply Rinv_0_lt_compat; lra). apply Rmult_le_reg_r with t; [lra|]. rewrite Rmult_assoc, Rinv_l by lra. lra. }
    assert (Rabs ((t - d) / d) <= 4 * u) as B.
    { unfold Rdiv. rewrite Rabs_mult, (Rabs_pos_eq (/ d)) by (left; apply Rinv_0_lt_compat; lra). apply Rmult_le_reg_r with d; [lra|]. rewrite Rmult_assoc, Rinv_l by lra. rewrite Rmult_1_r. apply Rabs_le. split; nra. }
    pose proof (Rabs_pos (IZR xy / t)). pose proof (Rabs_pos ((t - d) / d)). nra. }
  assert (Q1 : Rabs (IZR xy / d) <= 2).
  { assert (Rabs (IZR xy / t) <= 1) as A.
    { unfold Rdiv. rewrite Rabs_mult, (Rabs_pos_eq (/ t)) by (left; apply Rinv_0_lt_compat; lra). apply Rmult_le_reg_r with t; [lra|]. rewrite Rmult_assoc, Rinv_l by lra. lra. }
    apply Rabs_le_inv in A. apply Rabs_le_inv in Q. apply Rabs_le. lra. }
  assert (E : Rabs (rnd64 (IZR xy / d) - IZR xy / d) <= 2 * u).
  { destruct (Rle_or_lt (/ 1000) (Rabs (IZR xy / d))) as [L|L]; [pose proof (rel _ L) as RL; fold u in RL; eapply Rle_trans; [apply RL|]; rewrite (Rmult_comm 2); apply Rmult_le_compat_l; lra|].
    assert (xy = 0%Z \/ / 1000 < Rabs (IZR xy / d) \/ bpow radix2 (-1000) <= Rabs (IZR xy / d)) as [Z|[Z|Z]].
    { destruct (Z.eq_dec xy 0) as [Z|Z]; auto. right; right. assert (1 <= Rabs (IZR xy)) by (rewrite <- abs_IZR; apply IZR_le; lia).
      unfold Rdiv. rewrite Rabs_mult, (Rabs_pos_eq (/ d)) by (left; apply Rinv_0_lt_compat; lra). apply Rle_trans with (/ d); [|assert (0 < / d) by (apply Rinv_0_lt_compat; lra); nra].
      assert (d <= bpow radix2 100).
      { pose proof (sum_prod_bound x x FX FX). pose proof (sum_prod_bound y y FY FY). assert (P <= 6442450944 * 6442450944)%Z by (unfold P; nia). apply IZR_le in H2. rewrite mult_IZR in H2.
        assert (t <= 6442450944) by nra. apply Rle_trans with (IZR 12884901888); [nra|]. change (bpow radix2 100) with (IZR (2 ^ 100)). apply IZR_le. lia. }
      apply Rle_trans with (/ bpow radix2 100); [|apply Rinv_le_contravar; lra]. rewrite <- bpow_opp. apply bpow_le. lia. }
    - rewrite Z. unfold Rdiv. rewrite Rmult_0_l, rnd64_0, Rminus_0_r, Rabs_R0. lra.
    - lra.
    - pose proof (rnd64_rel _ Z) as H. fold u in H. eapply Rle_trans; [apply H|]; rewrite (Rmult_comm 2); apply Rmult_le_compat_l; lra. }
  apply Rabs_le_inv in Q. apply Rabs_le_inv in E. apply Rabs_le. lra.
Qed.
