(** Directions and dates of mean vectors. *)
From Coq Require Import Reals Lra.
From Flocq Require Import Core IEEE754.BinarySingleNaN.
From Flocq Require Plus_error.
From Verif Require Import Base BaseFacts Float FloatFacts FloatInt RoundModel RoundFacts InterpModel PolModel PolSpec PolFloat PolSeasons.
#[local] Open Scope R_scope.

Lemma bpow1024_big : 1e15 < bpow radix2 1024.
Proof. apply Rlt_trans with (bpow radix2 128); [exact bpow128_big|]. apply bpow_lt. reflexivity. Qed.

Lemma add64_R (x y : f64) : fin x -> fin y -> Rabs (rnd64 (B2R x + B2R y)) < bpow radix2 1024 ->
  fin (f64_add x y) /\ B2R (f64_add x y) = rnd64 (B2R x + B2R y).
Proof.
  intros F G H. pose proof (Bplus_correct 53 1024 prec53 emax53 mode_NE x y F G) as C.
  change (round radix2 (SpecFloat.fexp 53 1024) (round_mode mode_NE) (B2R x + B2R y)) with (rnd64 (B2R x + B2R y)) in C.
  rewrite Rlt_bool_true in C by exact H. destruct C as (C1 & C2 & _). split; [exact C2|exact C1].
Qed.
Lemma sub64_R (x y : f64) : fin x -> fin y -> Rabs (rnd64 (B2R x - B2R y)) < bpow radix2 1024 ->
  fin (f64_sub x y) /\ B2R (f64_sub x y) = rnd64 (B2R x - B2R y).
Proof.
  intros F G H. pose proof (Bminus_correct 53 1024 prec53 emax53 mode_NE x y F G) as C.
  change (round radix2 (SpecFloat.fexp 53 1024) (round_mode mode_NE) (B2R x - B2R y)) with (rnd64 (B2R x - B2R y)) in C.
  rewrite Rlt_bool_true in C by exact H. destruct C as (C1 & C2 & _). split; [exact C2|exact C1].
Qed.
Lemma mul64_R (x y : f64) : fin x -> fin y -> Rabs (rnd64 (B2R x * B2R y)) < bpow radix2 1024 ->
  fin (f64_mul x y) /\ B2R (f64_mul x y) = rnd64 (B2R x * B2R y).
Proof.
  intros F G H. pose proof (Bmult_correct 53 1024 prec53 emax53 mode_NE x y) as C.
  change (round radix2 (SpecFloat.fexp 53 1024) (round_mode mode_NE) (B2R x * B2R y)) with (rnd64 (B2R x * B2R y)) in C.
  rewrite Rlt_bool_true in C by exact H. destruct C as (C1 & C2 & _). rewrite F, G in C2. split; [exact C2|exact C1].
Qed.
Lemma div64_R (x y : f64) : fin x -> B2R y <> 0 -> Rabs (rnd64 (B2R x / B2R y)) < bpow radix2 1024 ->
  fin (f64_div x y) /\ B2R (f64_div x y) = rnd64 (B2R x / B2R y).
Proof.
  intros F G H. pose proof (Bdiv_correct 53 1024 prec53 emax53 mode_NE x y G) as C.
  change (round radix2 (SpecFloat.fexp 53 1024) (round_mode mode_NE) (B2R x / B2R y)) with (rnd64 (B2R x / B2R y)) in C.
  rewrite Rlt_bool_true in C by exact H. destruct C as (C1 & C2 & _). rewrite F in C2. split; [exact C2|exact C1].
Qed.
Lemma f32_dyadic (x : f32) : exists m e, (Z.abs m < 2 ^ 24)%Z /\ (-149 <= e)%Z /\ B2R x = IZR m * bpow radix2 e.
Proof.
  destruct (FLT_format_generic radix2 (-149) 24 (B2R x)) as [[m e] E H1 H2]; [exact (generic_format_B2R 24 128 x)|].
  exists m, e. cbn [Fnum Fexp] in *. split; [exact H1|]. split; auto.
Qed.
Lemma bpow_128_1024 : bpow radix2 128 < bpow radix2 1024.
Proof. apply bpow_lt. reflexivity. Qed.
Lemma widen_R (x : f32) : fin x -> fin (widen x) /\ B2R (widen x) = B2R x.
Proof.
  intros F. assert (rnd64 (B2R x) = B2R x) as R.
  { destruct (f32_dyadic x) as (m & e & M & E & ->). apply rnd64_dyadic; lia. }
  assert (Rabs (B2R x) < bpow radix2 1024) as U.
  { eapply Rlt_trans; [apply (abs_B2R_lt_emax 24 128 x)|exact bpow_128_1024]. }
  destruct x as [s|s| |s m e B]; try discriminate F; [split; reflexivity|]. unfold widen.
  pose proof (binary_normalize_correct 53 1024 prec53 emax53 mode_NE (if s then Zneg m else Zpos m) e s) as C. cbv zeta in C.
  set (v := F2R {| Fnum := if s then Zneg m else Zpos m; Fexp := e |}) in *.
  assert (v = B2R (B754_finite s m e B : f32)) as V by (unfold v; destruct s; reflexivity).
  change (round radix2 (SpecFloat.fexp 53 1024) (round_mode mode_NE) v) with (rnd64 v) in C.
  rewrite V, R in C. rewrite Rlt_bool_true in C by exact U. destruct C as (C1 & C2 & _). split; [exact C2|exact C1].
Qed.
Lemma narrow_R (x : f64) : fin x -> Rabs (rnd32 (B2R x)) < bpow radix2 128 -> fin (narrow x) /\ B2R (narrow x) = rnd32 (B2R x).
Proof.
  intros F U. destruct x as [s|s| |s m e B]; try discriminate F; [split; [reflexivity|cbn; now rewrite rnd32_0]|]. unfold narrow.
  pose proof (binary_normalize_correct 24 128 prec24 emax24 mode_NE (if s then Zneg m else Zpos m) e s) as C. cbv zeta in C.
  set (v := F2R {| Fnum := if s then Zneg m else Zpos m; Fexp := e |}) in *.
  assert (v = B2R (B754_finite s m e B : f64)) as V by (unfold v; destruct s; reflexivity).
  change (round radix2 (SpecFloat.fexp 24 128) (round_mode mode_NE) v) with (rnd32 v) in C.
  rewrite V in C. rewrite Rlt_bool_true in C by exact U. destruct C as (C1 & C2 & _). split; [exact C2|exact C1].
Qed.
Lemma big32 M x : Rabs x <= M -> 1 <= M <= 1e6 -> Rabs (rnd32 x) < bpow radix2 128 /\ Rabs (rnd32 x - x) <= M / 16000000.
Proof.
  intros H [H1 H2]. pose proof (rnd32_err x M H1 H) as E. split; auto. pose proof bpow128_big.
  replace (rnd32 x) with ((rnd32 x - x) + x) by ring. eapply Rle_lt_trans; [apply Rabs_triang|]. lra.
Qed.
Lemma big64 M x : Rabs x <= M -> 1 <= M <= 1e6 -> Rabs (rnd64 x) < bpow radix2 1024 /\ Rabs (rnd64 x - x) <= M / 1000000000000.
Proof.
  intros H [H1 H2]. pose proof (rnd64_err x M H1 H) as E. split; auto. pose proof bpow1024_big.
  replace (rnd64 x) with ((rnd64 x - x) + x) by ring. eapply Rle_lt_trans; [apply Rabs_triang|]. lra.
Qed.

(** pi *)
Definition P : R := B2R pi64.
Lemma P_val : P = 7074237752028440 / 2251799813685248.
Proof.
  unfold P. rewrite <- SF2R_B2SF. replace (B2SF pi64) with (SpecFloat.S754_finite false 7074237752028440 (-51)) by (vm_compute; reflexivity).
  reflexivity.
Qed.
Lemma P_bounds : 3.14159265358979 < P < 3.1415926535898.
Proof. rewrite P_val. lra. Qed.
Lemma pi_fin : fin pi64. Proof. reflexivity. Qed.
Lemma two_pi_R : fin two_pi64 /\ B2R two_pi64 = 2 * P.
Proof.
  split; [reflexivity|]. rewrite <- SF2R_B2SF. replace (B2SF two_pi64) with (SpecFloat.S754_finite false 7074237752028440 (-50)) by (vm_compute; reflexivity).
  rewrite P_val. change (IZR 7074237752028440 * / 1125899906842624 = 2 * (7074237752028440 / 2251799813685248)). lra.
Qed.
(** The largest direction: 2 pi as float. *)
Definition top : R := 13176795 / 2097152.
Lemma rnd32_2P : rnd32 (2 * P) = top.
Proof.
  destruct two_pi_R as [F E]. destruct (narrow_R two_pi64 F) as [_ H].
  - rewrite E. apply (big32 7); [|lra]. apply Rabs_le. pose proof P_bounds. lra.
  - rewrite E in H. rewrite <- H, <- SF2R_B2SF. replace (B2SF (narrow two_pi64)) with (SpecFloat.S754_finite false 13176795 (-21)) by (vm_compute; reflexivity).
    reflexivity.
Qed.
Lemma rnd64_2P : rnd64 (2 * P) = 2 * P.
Proof. destruct two_pi_R as [_ <-]. apply rnd64_B2R. Qed.
Lemma rnd64_P : rnd64 P = P.
Proof. apply rnd64_B2R. Qed.

Definition dir (r : f32) : Prop := fin r /\ 0 <= B2R r <= top.
Lemma top_bounds : 6.2831854 < top < 6.2831855.
Proof. unfold top. lra. Qed.

Lemma round_pos x : 0 <= x -> 0 <= rnd32 x /\ 0 <= rnd64 x.
Proof. intros H. split; [rewrite <- rnd32_0; now apply rnd32_le|rewrite <- rnd64_0; now apply rnd64_le]. Qed.

(** From a direction between 0 and 2 pi to a float direction. *)
Lemma narrow_dir (x : f64) y : fin x -> B2R x = rnd64 y -> 0 <= y <= 2 * P -> dir (narrow x) /\ Rabs (B2R (narrow x) - y) <= 1e-6.
Proof.
  intros F E [H1 H2]. pose proof P_bounds as PB.
  assert (Rabs y <= 7) as A by (apply Rabs_le; lra).
  destruct (big64 7 y A ltac:(lra)) as [_ E1].
  assert (0 <= rnd64 y) as A1 by (apply round_pos; auto).
  assert (rnd64 y <= 2 * P) as A2 by (rewrite <- rnd64_2P; now apply rnd64_le).
  assert (Rabs (rnd64 y) <= 7) as A3 by (apply Rabs_le; lra).
  destruct (big32 7 (rnd64 y) A3 ltac:(lra)) as [U E2].
  destruct (narrow_R x F) as [N1 N2]; [rewrite E; auto|]. rewrite E in N2. split.
  - split; auto. rewrite N2. split; [apply round_pos; auto|]. rewrite <- rnd32_2P. now apply rnd32_le.
  - rewrite N2. replace (rnd32 (rnd64 y) - y) with ((rnd32 (rnd64 y) - rnd64 y) + (rnd64 y - y)) by ring.
    eapply Rle_trans; [apply Rabs_triang|]. lra.
Qed.

(** The day of year of a direction. *)
Definition days_per_rad : R := 365 / (2 * P).
Lemma doy64_R r : dir r -> fin (doy64_of_rad r) /\ 0 <= B2R (doy64_of_rad r) /\ Rabs (B2R (doy64_of_rad r) - B2R r * days_per_rad) <= 1e-8.
Proof.
  intros [F [H1 H2]]. pose proof P_bounds as PB. pose proof top_bounds as TB. destruct (widen_R r F) as [W1 W2].
  destruct (isZ64 365 ltac:(lia)) as [Z1 Z2]. unfold doy64_of_rad. destruct two_pi_R as [T1 T2].
  assert (Rabs (B2R (widen r) * B2R (f64_of_Z 365)) <= 2294) as A1 by (rewrite W2, Z2; apply Rabs_le; lra).
  destruct (big64 _ _ A1 ltac:(lra)) as [U1 E1].
  destruct (mul64_R (widen r) (f64_of_Z 365) W1 Z1 U1) as [M1 M2].
  set (m := f64_mul (widen r) (f64_of_Z 365)) in *.
  assert (0 <= B2R m) as M3 by (rewrite M2; apply round_pos; rewrite W2, Z2; lra).
  rewrite <- M2 in E1. rewrite W2, Z2 in E1, A1.
  assert (B2R m <= 2295) as M4 by (apply Rabs_le_inv in E1; apply Rabs_le_inv in A1; lra).
  assert (0 < / (2 * P) < 0.16) as I.
  { split; [apply Rinv_0_lt_compat; lra|]. apply Rlt_le_trans with (/ 6.26); [apply Rinv_lt_contravar; nra|lra]. }
  assert (Rabs (B2R m / B2R two_pi64) <= 400) as A2.
  { rewrite T2. unfold Rdiv. apply Rabs_le. split; [|nra]. assert (0 <= B2R m * / (2 * P)) by (apply Rmult_le_pos; lra). lra. }
  destruct (big64 _ _ A2 ltac:(lra)) as [U2 E2].
  destruct (div64_R m two_pi64 M1) as [D1 D2]; [rewrite T2; lra|exact U2|].
  split; auto. split.
  - rewrite D2. apply round_pos. rewrite T2. unfold Rdiv. apply Rmult_le_pos; lra.
  - rewrite D2, T2 in *. unfold days_per_rad.
    replace (rnd64 (B2R m / (2 * P)) - B2R r * (365 / (2 * P))) with
      ((rnd64 (B2R m / (2 * P)) - B2R m / (2 * P)) + (B2R m - B2R r * 365) * / (2 * P)) by (field; lra).
    eapply Rle_trans; [apply Rabs_triang|]. rewrite Rabs_mult, (Rabs_pos_eq (/ (2 * P))) by lra.
    assert (Rabs (B2R m - B2R r * 365) * / (2 * P) <= 2294 / 1000000000000 * 0.16).
    { apply Rmult_le_compat; try lra. apply Rabs_pos. }
    lra.
Qed.
Lemma days_bounds : 58.09 < days_per_rad < 58.1 /\ P * days_per_rad = 182.5 /\ top * days_per_rad < 365.0001.
Proof.
  unfold days_per_rad. pose proof P_bounds. pose proof top_bounds.
  assert (58.09 < 365 / (2 * P) < 58.1).
  { split; apply Rmult_lt_reg_r with (2 * P); try lra; unfold Rdiv; rewrite Rmult_assoc, Rinv_l by lra; lra. }
  split; auto. split; [replace 182.5 with (365 / 2) by lra; field; lra|].
  apply Rmult_lt_reg_r with (2 * P); [lra|]. unfold Rdiv. rewrite 2!Rmult_assoc, Rinv_l by lra. lra.
Qed.

Lemma trunc_bounds x : 0 <= x -> (IZR (Ztrunc x) <= x < IZR (Ztrunc x) + 1) /\ (0 <= Ztrunc x)%Z.
Proof.
  intros H. rewrite Ztrunc_floor by auto. split; [split; [apply Zfloor_lb|apply Zfloor_ub]|].
  apply Zfloor_lub. exact H.
Qed.
Lemma int_of_R {p e} (x : binary_float p e) : fin x -> 0 <= B2R x < 1000 ->
  exists d, int_of x = Ret d /\ IZR d <= B2R x < IZR d + 1 /\ (0 <= d)%Z.
Proof.
  intros F [H1 H2]. unfold int_of. rewrite trunc_of_spec by auto. cbn [of_option bind].
  destruct (trunc_bounds (B2R x) H1) as [B1 B2]. exists (Ztrunc (B2R x)).
  assert (Ztrunc (B2R x) < 1000)%Z by (apply lt_IZR; lra).
  unfold chk_int, in_intb. replace ((-2147483648 <=? Ztrunc (B2R x)) && (Ztrunc (B2R x) <=? 2147483647))%Z with true by lia. auto.
Qed.
Lemma doy64_int r : dir r -> exists d, int_of (doy64_of_rad r) = Ret d /\ (0 <= d <= 365)%Z /\
  B2R r * days_per_rad - 1 - 1e-8 < IZR d <= B2R r * days_per_rad + 1e-8.
Proof.
  intros D. destruct (doy64_R r D) as (F & H & E). apply Rabs_le_inv in E. destruct D as [_ D].
  pose proof days_bounds as (B1 & _ & B3).
  assert (B2R r * days_per_rad <= top * days_per_rad) by (apply Rmult_le_compat_r; lra).
  destruct (int_of_R (doy64_of_rad r) F) as (d & I & I1 & I2); [lra|].
  exists d. split; auto. split; [|lra]. split; auto. assert (d < 366)%Z; [|lia]. apply lt_IZR. lra.
Qed.
Lemma doy_int r : dir r -> exists d, int_of (doy_of_rad r) = Ret d /\ (0 <= d <= 365)%Z.
Proof.
  intros D. destruct (doy64_R r D) as (F & H & E). apply Rabs_le_inv in E. destruct D as [_ D].
  pose proof days_bounds as (B1 & _ & B3).
  assert (B2R r * days_per_rad <= top * days_per_rad) by (apply Rmult_le_compat_r; lra).
  assert (Rabs (B2R (doy64_of_rad r)) <= 400) as A by (apply Rabs_le; lra).
  destruct (big32 _ _ A ltac:(lra)) as [U G]. destruct (narrow_R _ F U) as [N1 N2]. apply Rabs_le_inv in G.
  assert (0 <= rnd32 (B2R (doy64_of_rad r))) by (apply round_pos; auto).
  destruct (int_of_R (doy_of_rad r) N1) as (d & I & I1 & I2); [unfold doy_of_rad; rewrite N2; lra|].
  exists d. split; auto. split; auto. assert (d < 366)%Z; [|lia]. apply lt_IZR. unfold doy_of_rad in I1. rewrite N2 in I1. lra.
Qed.

(** A mean vector that exists has a direction and a day of year. *)
Lemma vector_range L x y v : atan2_range L -> polar_vector L x y = Ret v -> dir (v_rad v) /\ (0 <= v_doy v <= 365)%Z.
Proof.
  intros R H. unfold polar_vector in H.
  destruct (int_of (doy_of_rad (vector_rad L x y))) as [d| |] eqn:I; try discriminate. injection H as <-. cbn [v_rad v_doy].
  assert (dir (vector_rad L x y)) as D.
  2:{ split; auto. destruct (doy_int _ D) as (d' & I' & B). rewrite I in I'. injection I' as <-. auto. }
  unfold vector_rad in *. destruct (R (widen y) (widen x)) as [R1 R2].
  destruct (is_nan (widen y)) eqn:Ny; [rewrite (R1 (or_introl eq_refl)) in I; discriminate I|].
  destruct (is_nan (widen x)) eqn:Nx; [rewrite (R1 (or_intror eq_refl)) in I; discriminate I|].
  destruct (R2 eq_refl eq_refl) as [F [B1 B2]]. clear R1 R2 I. fold P in B1, B2. pose proof P_bounds as PB.
  set (a := m_atan2 L (widen y) (widen x)) in *.
  assert (Rabs (B2R a) <= 4) as A by (apply Rabs_le; lra).
  destruct (big32 _ _ A ltac:(lra)) as [U E]. destruct (narrow_R a F U) as [N1 N2].
  assert (rnd32 P * 2 <= top) as Q.
  { rewrite <- rnd32_2P. destruct two_pi_R as [_ T].
    assert (rnd32 P = top / 2) as ->; [|rewrite rnd32_2P; lra].
    pose proof (narrow_R pi64 pi_fin) as [_ H].
    - fold P. apply (big32 7); [|lra]. apply Rabs_le. lra.
    - fold P in H. rewrite <- H, <- SF2R_B2SF. replace (B2SF (narrow pi64)) with (SpecFloat.S754_finite false 13176795 (-22)) by (vm_compute; reflexivity).
      change (IZR 13176795 * / 4194304 = top / 2). unfold top. lra. }
  assert (- rnd32 P <= B2R (narrow a) <= rnd32 P) as [K1 K2].
  { rewrite N2. split; [rewrite <- rnd32_opp|]; apply rnd32_le; lra. }
  pose proof top_bounds as TB.
  destruct (fle (narrow a) zero32) eqn:Le.
  - apply fle_R in Le; auto; [|reflexivity]. change (B2R zero32) with 0 in Le.
    destruct (widen_R _ N1) as [W1 W2]. destruct two_pi_R as [T1 T2].
    assert (Rabs (B2R (widen (narrow a)) + B2R two_pi64) <= 10) as A1 by (rewrite W2, T2; apply Rabs_le; lra).
    destruct (big64 _ _ A1 ltac:(lra)) as [U1 _]. destruct (add64_R _ _ W1 T1 U1) as [S1 S2].
    apply (narrow_dir _ _ S1 S2). rewrite W2, T2. lra.
  - split; auto. assert (~ (B2R (narrow a) <= 0)) as G; [|lra]. intros G.
    apply (proj2 (fle_R (narrow a) zero32 N1 eq_refl)) in G. congruence.
Qed.

(** No float is pi. *)
Lemma not_pi (x : f32) : B2R x <= P - 1e-8 \/ P + 1e-8 <= B2R x.
Proof.
  pose proof P_val as V. pose proof P_bounds as PB.
  destruct (Rle_lt_dec (B2R x) 2) as [H|H]; [left; lra|]. destruct (Rle_lt_dec 4 (B2R x)) as [G|G]; [right; lra|].
  assert (cexp radix2 (FLT_exp (-149) 24) (B2R x) = (-22)%Z) as C.
  { unfold cexp. rewrite (mag_unique radix2 (B2R x) 2); [reflexivity|].
    rewrite Rabs_pos_eq by lra. change (bpow radix2 (2 - 1)) with 2. change (bpow radix2 2) with 4. lra. }
  pose proof (generic_format_B2R 24 128 x) as D. unfold generic_format in D.
  change (cexp radix2 (SpecFloat.fexp 24 128) (B2R x)) with (cexp radix2 (FLT_exp (-149) 24) (B2R x)) in D. rewrite C in D.
  set (n := Ztrunc _) in D. unfold F2R in D. cbn [Fnum Fexp] in D. change (bpow radix2 (-22)) with (/ 4194304) in D.
  destruct (Z_le_gt_dec n 13176794) as [L|L].
  - left. apply IZR_le in L. rewrite D, V. lra.
  - right. assert (13176795 <= n)%Z as L' by lia. apply IZR_le in L'. rewrite D, V. lra.
Qed.

Lemma opposite_R r : dir r -> dir (opposite r) /\
  (B2R r <= P - 1e-8 /\ Rabs (B2R (opposite r) - (B2R r + P)) <= 1e-6 \/ P + 1e-8 <= B2R r /\ Rabs (B2R (opposite r) - (B2R r - P)) <= 1e-6).
Proof.
  intros [F [H1 H2]]. destruct (widen_R r F) as [W1 W2]. unfold opposite. pose proof P_bounds as PB. pose proof top_bounds as TB.
  destruct (not_pi r) as [G|G].
  - rewrite (proj2 (flt_R (widen r) pi64 W1 pi_fin)) by (rewrite W2; fold P; lra).
    assert (Rabs (B2R (widen r) + B2R pi64) <= 10) as A1 by (fold P; rewrite W2; apply Rabs_le; lra).
    destruct (big64 _ _ A1 ltac:(lra)) as [U1 _]. destruct (add64_R _ _ W1 pi_fin U1) as [S1 S2]. fold P in S2. rewrite W2 in S2.
    destruct (narrow_dir _ _ S1 S2 ltac:(lra)) as [K1 K2]. split; auto.
  - destruct (flt (widen r) pi64) eqn:E.
    { apply (flt_R (widen r) pi64 W1 pi_fin) in E. rewrite W2 in E. fold P in E. lra. }
    assert (Rabs (B2R (widen r) - B2R pi64) <= 10) as A1 by (fold P; rewrite W2; apply Rabs_le; lra).
    destruct (big64 _ _ A1 ltac:(lra)) as [U1 _]. destruct (sub64_R _ _ W1 pi_fin U1) as [S1 S2]. fold P in S2. rewrite W2 in S2.
    destruct (narrow_dir _ _ S1 S2 ltac:(lra)) as [K1 K2]. split; auto.
Qed.

Lemma opp_sign r : dir r ->
  let o := narrow (f64_sub (widen r) pi64) in
  flt o zero32 = (if Rlt_bool (B2R r) P then true else false) /\ flt zero32 o = (if Rlt_bool (B2R r) P then false else true).
Proof.
  intros [F [H1 H2]] o. destruct (widen_R r F) as [W1 W2]. pose proof P_bounds as PB. pose proof top_bounds as TB.
  assert (Rabs (B2R (widen r) - B2R pi64) <= 10) as A1 by (fold P; rewrite W2; apply Rabs_le; lra).
  destruct (big64 _ _ A1 ltac:(lra)) as [U1 E1]. destruct (sub64_R _ _ W1 pi_fin U1) as [S1 S2]. fold P in S2, E1. rewrite W2 in S2, E1.
  apply Rabs_le_inv in E1.
  assert (Rabs (B2R (f64_sub (widen r) pi64)) <= 11) as A2 by (rewrite S2; apply Rabs_le; lra).
  destruct (big32 _ _ A2 ltac:(lra)) as [U2 _]. destruct (narrow_R _ S1 U2) as [N1 N2]. fold o in N1, N2. rewrite S2 in N2.
  assert (bpow radix2 (-30) = / 1073741824) as B30 by reflexivity.
  pose proof (rnd32_dyadic 1 (-30) ltac:(reflexivity) ltac:(lia)) as D1.
  assert (rnd32 (- (1 * bpow radix2 (-30))) = - (1 * bpow radix2 (-30))) as D2 by (now rewrite rnd32_opp, D1).
  assert (flt o zero32 = true <-> B2R o < 0) as I1 by (apply (flt_R o zero32 N1 eq_refl)).
  assert (flt zero32 o = true <-> 0 < B2R o) as I2 by (apply (flt_R zero32 o eq_refl N1)).
  destruct (not_pi r) as [G|G].
  - rewrite Rlt_bool_true by lra.
    assert (B2R o < 0) as S.
    { rewrite N2. apply Rle_lt_trans with (rnd32 (- (1 * bpow radix2 (-30)))); [apply rnd32_le; rewrite B30; lra|rewrite D2, B30; lra]. }
    split; [now apply I1|]. destruct (flt zero32 o); auto. assert (0 < B2R o) by (now apply I2). lra.
  - rewrite Rlt_bool_false by lra.
    assert (0 < B2R o) as S.
    { rewrite N2. apply Rlt_le_trans with (rnd32 (1 * bpow radix2 (-30))); [rewrite D1, B30; lra|apply rnd32_le; rewrite B30; lra]. }
    split; [|now apply I2]. destruct (flt o zero32); auto. assert (B2R o < 0) by (now apply I1). lra.
Qed.

Lemma diff_sign (a b : f32) : dir a -> dir b ->
  fle zero32 (f32_sub a b) = (if Rlt_bool (B2R a) (B2R b) then false else true) /\
  flt (f32_sub a b) zero32 = (if Rlt_bool (B2R a) (B2R b) then true else false).
Proof.
  intros [Fa [A1 A2]] [Fb [B1 B2]]. pose proof top_bounds as TB.
  assert (Rabs (B2R a - B2R b) <= 10) as A by (apply Rabs_le; lra).
  destruct (big32 _ _ A ltac:(lra)) as [U _]. destruct (sub32_R a b Fa Fb U) as [S1 S2]. unfold fsub in S2.
  assert (fle zero32 (f32_sub a b) = true <-> 0 <= B2R (f32_sub a b)) as I1 by (apply (fle_R zero32 (f32_sub a b) eq_refl S1)).
  assert (flt (f32_sub a b) zero32 = true <-> B2R (f32_sub a b) < 0) as I2 by (apply (flt_R (f32_sub a b) zero32 S1 eq_refl)).
  destruct (Rlt_bool_spec (B2R a) (B2R b)) as [H|H].
  - assert (B2R (f32_sub a b) < 0) as S.
    { rewrite S2. assert (rnd32 (B2R a - B2R b) <= 0) as Q1 by (rewrite <- rnd32_0; apply rnd32_le; lra).
      assert (rnd32 (B2R a - B2R b) <> 0) as Q2; [|lra].
      apply (Plus_error.round_plus_neq_0 radix2 (FLT_exp (-149) 24)); try typeclasses eauto.
      - exact (generic_format_B2R 24 128 a).
      - apply generic_format_opp. exact (generic_format_B2R 24 128 b).
      - lra. }
    split; [|now apply I2]. destruct (fle zero32 (f32_sub a b)); auto. assert (0 <= B2R (f32_sub a b)) by (now apply I1). lra.
  - assert (0 <= B2R (f32_sub a b)) as S by (rewrite S2; apply round_pos; lra).
    split; [now apply I1|]. destruct (flt (f32_sub a b) zero32); auto. assert (B2R (f32_sub a b) < 0) by (now apply I2). lra.
Qed.

(** The start of a season moves by at most 183 days. *)
Lemma tune_shift s (theta alpha : f32) tdoy : dir theta -> dir alpha -> int_of (doy64_of_rad theta) = Ret tdoy -> (Z.abs s <= 1000)%Z ->
  exists v, tune_start s theta alpha = Ret v /\ (-183 <= v_ce v - day_number s tdoy <= 183)%Z.
Proof.
  intros T A I S. destruct (opposite_R alpha A) as [O OC]. destruct (doy64_int _ O) as (d & Id & Dr & Db).
  destruct (doy64_int _ T) as (t & It & Tr & Tb). rewrite I in It. injection It as <-.
  destruct (opp_sign alpha A) as [Q1 Q2]. destruct (diff_sign alpha theta A T) as [Q3 Q4]. cbv zeta in Q1, Q2.
  unfold tune_start. rewrite Id. cbn [bind]. rewrite Q1, Q2, Q3, Q4.
  set (yr := if _ && _ then _ else _).
  assert (s - 1 <= yr <= s + 1)%Z as Y by (unfold yr; destruct (_ && _); [lia|destruct (_ && _); lia]).
  rewrite (doy2ce_ok d yr) by lia. cbn [bind]. eexists; split; [reflexivity|]. cbn [v_ce]. unfold day_number.
  pose proof days_bounds as (B1 & B2 & B3). destruct T as [_ T], A as [_ A].
  set (c := days_per_rad) in *. set (a := B2R alpha) in *. set (b := B2R theta) in *. set (o := B2R (opposite alpha)) in *.
  assert (0 <= a * c /\ a * c <= top * c /\ 0 <= b * c /\ b * c <= top * c) as (M1 & M2 & M3 & M4).
  { repeat split; try (apply Rmult_le_pos; lra); apply Rmult_le_compat_r; lra. }
  enough (-184 < IZR (yr * 365 + d - (s * 365 + tdoy)) < 184) as [E1 E2].
  { apply lt_IZR in E1. apply lt_IZR in E2. lia. }
  rewrite minus_IZR, !plus_IZR, !mult_IZR.
  destruct OC as [[O1 O2]|[O1 O2]]; apply Rabs_le_inv in O2.
  - assert (o * c = a * c + 182.5 + (o - (a + P)) * c) as E by (rewrite <- B2; ring).
    assert (-1e-4 <= (o - (a + P)) * c <= 1e-4) as Er by (split; nra).
    assert (a * c <= 182.5) as M5 by (rewrite <- B2; apply Rmult_le_compat_r; lra).
    unfold yr. rewrite (Rlt_bool_true a P) by lra. destruct (Rlt_bool_spec a b) as [H|H]; cbn [andb].
    + assert (a * c <= b * c) by (apply Rmult_le_compat_r; lra). lra.
    + assert (b * c <= a * c) by (apply Rmult_le_compat_r; lra). rewrite minus_IZR. lra.
  - assert (o * c = a * c - 182.5 + (o - (a - P)) * c) as E by (rewrite <- B2; ring).
    assert (-1e-4 <= (o - (a - P)) * c <= 1e-4) as Er by (split; nra).
    assert (182.5 <= a * c) as M5 by (rewrite <- B2; apply Rmult_le_compat_r; lra).
    unfold yr. rewrite (Rlt_bool_false a P) by lra. cbn [andb]. destruct (Rlt_bool_spec a b) as [H|H].
    + assert (a * c <= b * c) by (apply Rmult_le_compat_r; lra). rewrite plus_IZR. lra.
    + assert (b * c <= a * c) by (apply Rmult_le_compat_r; lra). lra.
Qed.

(** The start of the phenological year. *)
Lemma start_range L l theta : atan2_range L -> start_of_year L l = Ret theta ->
  dir (v_rad theta) /\ (0 <= v_doy theta <= 365)%Z /\ int_of (doy64_of_rad (v_rad theta)) = Ret (v_doy theta).
Proof.
  intros R H. unfold start_of_year in H. destruct (polar_vector L (mean_of p_pcx l) (mean_of p_pcy l)) as [a| |] eqn:E; try discriminate.
  cbn [bind] in H. destruct (vector_range L _ _ _ R E) as [D _]. destruct (opposite_R _ D) as [O _].
  destruct (doy64_int _ O) as (d & I & B & _). rewrite I in H. cbn [bind] in H. injection H as <-. cbn [v_rad v_doy]. auto.
Qed.

(** Dates of mean vectors: in the year that begins at the start of the season. *)
Lemma vector_date s theta v v' : (0 <= v_doy theta <= 365)%Z -> (0 <= v_doy v <= 365)%Z -> (0 <= s <= 1000)%Z -> ce_from_vector s theta v = Ret v' ->
  (day_number s (v_doy theta) <= v_ce v' <= day_number s (v_doy theta) + 365)%Z.
Proof.
  intros T V S H. unfold ce_from_vector in H. unfold day_number.
  destruct (v_doy theta <? v_doy v)%Z eqn:E; rewrite doy2ce_ok in H by lia; injection H as <-; cbn [v_ce]; unfold day_number; lia.
Qed.
