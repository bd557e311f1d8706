(** Floating-point numbers holding integers: arithmetic and comparisons are exact
    while the results stay within the precision. *)
From Coq Require Import Reals Lra.
From Flocq Require Import Core IEEE754.BinarySingleNaN.
From Verif Require Import Base BaseFacts Float FloatFacts.
Open Scope R_scope.

Definition isZ {p e} (x : binary_float p e) (a : Z) : Prop := is_finite x = true /\ B2R x = IZR a.

Lemma trunc_isZ {p e} (x : binary_float p e) a : isZ x a -> trunc_of x = Some a.
Proof. intros [F R]. rewrite trunc_of_spec by auto. rewrite R, Ztrunc_IZR. reflexivity. Qed.

Lemma flt_isZ {p e} (x y : binary_float p e) a b : isZ x a -> isZ y b -> flt x y = (a <? b)%Z.
Proof.
  intros [F R] [G Q]. unfold flt. rewrite Bltb_correct by auto. rewrite R, Q.
  destruct (Rlt_bool_spec (IZR a) (IZR b)) as [H|H].
  - apply lt_IZR in H. lia.
  - apply le_IZR in H. lia.
Qed.
Lemma fle_isZ {p e} (x y : binary_float p e) a b : isZ x a -> isZ y b -> fle x y = (a <=? b)%Z.
Proof.
  intros [F R] [G Q]. unfold fle. rewrite Bleb_correct by auto. rewrite R, Q.
  destruct (Rle_bool_spec (IZR a) (IZR b)) as [H|H].
  - apply le_IZR in H. lia.
  - apply lt_IZR in H. lia.
Qed.
Lemma feq_isZ {p e} (x y : binary_float p e) a b : isZ x a -> isZ y b -> feq x y = (a =? b)%Z.
Proof.
  intros [F R] [G Q]. unfold feq. rewrite Beqb_correct by auto. rewrite R, Q.
  destruct (Req_bool_spec (IZR a) (IZR b)) as [H|H].
  - apply eq_IZR in H. lia.
  - assert (a <> b) by congruence. lia.
Qed.

Section Ops.
Variables (prec emax : Z).
Context (P0 : Prec_gt_0 prec) (PE : Prec_lt_emax prec emax).
Hypothesis (PE2 : (1 < prec)%Z).
Notation fl := (binary_float prec emax).

Lemma round_int z : (Z.abs z <= 2 ^ prec)%Z ->
  round radix2 (SpecFloat.fexp prec emax) (round_mode mode_NE) (IZR z) = IZR z.
Proof. intros H. apply round_generic; [apply valid_rnd_N|apply int_in_format; auto]. Qed.
Lemma int_no_overflow z : (Z.abs z <= 2 ^ prec)%Z -> Rlt_bool (Rabs (IZR z)) (bpow radix2 emax) = true.
Proof.
  intros H. apply Rlt_bool_true. rewrite <- abs_IZR. unfold Prec_lt_emax, Prec_gt_0 in *.
  apply Rle_lt_trans with (bpow radix2 prec).
  - rewrite <- (IZR_Zpower radix2) by lia. apply IZR_le. exact H.
  - apply bpow_lt. lia.
Qed.

Lemma isZ_of_Z z : (Z.abs z <= 2 ^ prec)%Z -> isZ (binary_normalize prec emax P0 PE mode_NE z 0 false) z.
Proof. intros H. destruct (of_Z_exact prec emax P0 PE PE2 z H); split; auto. Qed.

Lemma isZ_plus (x y : fl) a b : isZ x a -> isZ y b -> (Z.abs (a + b) <= 2 ^ prec)%Z ->
  isZ (Bplus mode_NE x y) (a + b).
Proof.
  intros [F R] [G Q] H. pose proof (Bplus_correct prec emax _ _ mode_NE x y F G) as C.
  rewrite R, Q, <- plus_IZR, round_int, int_no_overflow in C by auto. destruct C as (C1 & C2 & _). split; auto.
Qed.
Lemma isZ_minus (x y : fl) a b : isZ x a -> isZ y b -> (Z.abs (a - b) <= 2 ^ prec)%Z ->
  isZ (Bminus mode_NE x y) (a - b).
Proof.
  intros [F R] [G Q] H. pose proof (Bminus_correct prec emax _ _ mode_NE x y F G) as C.
  rewrite R, Q, <- minus_IZR, round_int, int_no_overflow in C by auto. destruct C as (C1 & C2 & _). split; auto.
Qed.
Lemma isZ_mult (x y : fl) a b : isZ x a -> isZ y b -> (Z.abs (a * b) <= 2 ^ prec)%Z ->
  isZ (Bmult mode_NE x y) (a * b).
Proof.
  intros [F R] [G Q] H. pose proof (Bmult_correct prec emax _ _ mode_NE x y) as C.
  rewrite R, Q, <- mult_IZR, round_int, int_no_overflow in C by auto. destruct C as (C1 & C2 & _).
  rewrite F, G in C2. split; auto.
Qed.

Hypothesis (EM : (prec < emax - 2)%Z).

Lemma round_quot_nonneg a b : (0 <= a < 2 ^ prec)%Z -> (0 < b <= 2 ^ prec)%Z ->
  let r := round radix2 (SpecFloat.fexp prec emax) (round_mode mode_NE) (IZR a / IZR b) in
  Zfloor r = (a / b)%Z /\ Rabs r < bpow radix2 emax.
Proof.
  intros Ha Hb r.
  pose proof (div_floor prec emax P0 PE PE2 a b Ha Hb EM) as D. cbv zeta in D.
  destruct (isZ_of_Z a) as [Fa Ra]; [lia|]. destruct (isZ_of_Z b) as [Fb Rb]; [lia|].
  set (x := binary_normalize prec emax P0 PE mode_NE a 0 false) in *.
  set (y := binary_normalize prec emax P0 PE mode_NE b 0 false) in *.
  assert (IZR b <> 0) as Nb by (apply not_0_IZR; lia).
  pose proof (Bdiv_correct prec emax _ _ mode_NE x y) as C. rewrite Ra, Rb in C. specialize (C Nb).
  fold r in C. set (q := Bdiv mode_NE x y) in *.
  assert (is_finite q = true) as FQ by (destruct q; cbn in D |- *; auto; discriminate).
  destruct (Rlt_bool_spec (Rabs r) (bpow radix2 emax)) as [L|L].
  - destruct C as (C1 & _). split; auto. rewrite floor_of_spec in D by auto. rewrite C1 in D. congruence.
  - exfalso. pose proof (f_equal (fun s => match s with SpecFloat.S754_infinity _ => false | _ => true end) C) as I. cbv beta in I.
    destruct q as [s|s| |s m ee B]; cbn in FQ, I; try discriminate;
      unfold binary_overflow, overflow_to_inf in I; cbn in I; discriminate.
Qed.

Lemma round_quot a b : (Z.abs a < 2 ^ prec)%Z -> (0 < b <= 2 ^ prec)%Z ->
  let r := round radix2 (SpecFloat.fexp prec emax) (round_mode mode_NE) (IZR a / IZR b) in
  Ztrunc r = Z.quot a b /\ Rabs r < bpow radix2 emax.
Proof.
  intros Ha Hb r.
  assert (0 < IZR b) as Pb by (apply IZR_lt; lia).
  destruct (Z.le_gt_cases 0 a) as [P|P].
  - destruct (round_quot_nonneg a b) as [R1 R2]; [lia|auto|]. fold r in R1, R2. split; auto.
    assert (0 <= r).
    { unfold r. rewrite <- (round_0 radix2 (SpecFloat.fexp prec emax) (round_mode mode_NE)).
      apply round_le; [apply fexp_correct; auto|apply valid_rnd_N|].
      apply Rmult_le_pos; [apply (IZR_le 0); auto|]. apply Rlt_le, Rinv_0_lt_compat; auto. }
    rewrite Ztrunc_floor by auto. rewrite R1. symmetry. apply Z.quot_div_nonneg; lia.
  - destruct (round_quot_nonneg (- a) b) as [R1 R2]; [lia|auto|].
    assert (round radix2 (SpecFloat.fexp prec emax) (round_mode mode_NE) (IZR (- a) / IZR b) = - r) as E.
    { unfold r. rewrite opp_IZR. unfold Rdiv. rewrite Ropp_mult_distr_l_reverse. apply round_NE_opp. }
    rewrite E in R1, R2. rewrite Rabs_Ropp in R2. split; auto.
    assert (0 <= - r).
    { rewrite <- E. rewrite <- (round_0 radix2 (SpecFloat.fexp prec emax) (round_mode mode_NE)).
      apply round_le; [apply fexp_correct; auto|apply valid_rnd_N|].
      apply Rmult_le_pos; [apply (IZR_le 0); lia|]. apply Rlt_le, Rinv_0_lt_compat; auto. }
    replace r with (- - r) by ring. rewrite Ztrunc_opp, Ztrunc_floor by auto. rewrite R1.
    replace a with (- - a)%Z at 2 by lia. rewrite Z.quot_opp_l by lia. f_equal. symmetry.
    apply Z.quot_div_nonneg; lia.
Qed.

Lemma trunc_div (x y : fl) a b : isZ x a -> isZ y b -> (Z.abs a < 2 ^ prec)%Z -> (0 < b <= 2 ^ prec)%Z ->
  trunc_of (Bdiv mode_NE x y) = Some (Z.quot a b).
Proof.
  intros [F R] [G Q] Ha Hb. destruct (round_quot a b Ha Hb) as [E O].
  assert (IZR b <> 0) as Nb by (apply not_0_IZR; lia).
  pose proof (Bdiv_correct prec emax _ _ mode_NE x y) as C. rewrite R, Q in C. specialize (C Nb).
  rewrite Rlt_bool_true in C by auto. destruct C as (C1 & C2 & _). rewrite F in C2.
  rewrite trunc_of_spec by auto. rewrite C1, E. reflexivity.
Qed.
End Ops.

(** The instances. *)
Lemma isZ32 z : (Z.abs z <= 2 ^ 24)%Z -> isZ (f32_of_Z z) z.
Proof. apply isZ_of_Z. reflexivity. Qed.
Lemma isZ64 z : (Z.abs z <= 2 ^ 53)%Z -> isZ (f64_of_Z z) z.
Proof. apply isZ_of_Z. reflexivity. Qed.
Lemma isZ32_add (x y : f32) a b : isZ x a -> isZ y b -> (Z.abs (a + b) <= 2 ^ 24)%Z -> isZ (f32_add x y) (a + b).
Proof. apply isZ_plus. reflexivity. Qed.
Lemma isZ32_sub (x y : f32) a b : isZ x a -> isZ y b -> (Z.abs (a - b) <= 2 ^ 24)%Z -> isZ (f32_sub x y) (a - b).
Proof. apply isZ_minus. reflexivity. Qed.
Lemma isZ32_mul (x y : f32) a b : isZ x a -> isZ y b -> (Z.abs (a * b) <= 2 ^ 24)%Z -> isZ (f32_mul x y) (a * b).
Proof. apply isZ_mult. reflexivity. Qed.
Lemma isZ64_add (x y : f64) a b : isZ x a -> isZ y b -> (Z.abs (a + b) <= 2 ^ 53)%Z -> isZ (f64_add x y) (a + b).
Proof. apply isZ_plus. reflexivity. Qed.
Lemma isZ64_sub (x y : f64) a b : isZ x a -> isZ y b -> (Z.abs (a - b) <= 2 ^ 53)%Z -> isZ (f64_sub x y) (a - b).
Proof. apply isZ_minus. reflexivity. Qed.
Lemma isZ64_mul (x y : f64) a b : isZ x a -> isZ y b -> (Z.abs (a * b) <= 2 ^ 53)%Z -> isZ (f64_mul x y) (a * b).
Proof. apply isZ_mult. reflexivity. Qed.
Lemma f32_div_trunc (x y : f32) a b : isZ x a -> isZ y b -> (Z.abs a < 2 ^ 24)%Z -> (0 < b <= 2 ^ 24)%Z ->
  trunc_of (f32_div x y) = Some (Z.quot a b).
Proof. apply trunc_div; reflexivity. Qed.
Lemma f64_div_trunc (x y : f64) a b : isZ x a -> isZ y b -> (Z.abs a < 2 ^ 53)%Z -> (0 < b <= 2 ^ 53)%Z ->
  trunc_of (f64_div x y) = Some (Z.quot a b).
Proof. apply trunc_div; reflexivity. Qed.
