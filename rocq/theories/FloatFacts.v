From Flocq Require Import Core IEEE754.BinarySingleNaN.
Require Import Flocq.Prop.Relative.
From Verif Require Import Base Float.
From Coq Require Import Reals Lra.
Open Scope R_scope.

Lemma floor_of_spec p e (x : binary_float p e) :
  is_finite x = true -> floor_of x = Some (Zfloor (B2R x)).
Proof.
  destruct x as [s|s| |s m ex H]; cbn; try discriminate; intros _.
  - f_equal. symmetry. apply (Zfloor_IZR 0).
  - f_equal. unfold F2R; cbn [Fnum Fexp].
    replace (cond_Zopp s (Zpos m)) with (if s then Zneg m else Zpos m) by (destruct s; reflexivity).
    set (z := if s then Zneg m else Zpos m).
    destruct (Z.leb_spec 0 ex) as [E|E].
    + rewrite <- (IZR_Zpower radix2) by auto. rewrite <- mult_IZR, Zfloor_IZR. reflexivity.
    + replace ex with (- - ex)%Z at 2 by ring. rewrite bpow_opp, <- (IZR_Zpower radix2) by lia.
      change (IZR z * / IZR (radix2 ^ - ex)) with (IZR z / IZR (radix2 ^ - ex)).
      rewrite Zfloor_div; auto. pose proof (Zpower_gt_0 radix2 (- ex) ltac:(lia)); lia.
Qed.

Lemma trunc_of_spec p e (x : binary_float p e) :
  is_finite x = true -> trunc_of x = Some (Ztrunc (B2R x)).
Proof.
  destruct x as [s|s| |s m ex H]; cbn; try discriminate; intros _.
  - f_equal. symmetry. apply (Ztrunc_IZR 0).
  - f_equal. unfold F2R; cbn [Fnum Fexp].
    replace (cond_Zopp s (Zpos m)) with (if s then Zneg m else Zpos m) by (destruct s; reflexivity).
    set (z := if s then Zneg m else Zpos m).
    destruct (Z.leb_spec 0 ex) as [E|E].
    + rewrite <- (IZR_Zpower radix2) by auto. rewrite <- mult_IZR, Ztrunc_IZR. reflexivity.
    + replace ex with (- - ex)%Z at 2 by ring. rewrite bpow_opp, <- (IZR_Zpower radix2) by lia.
      change (IZR z * / IZR (radix2 ^ - ex)) with (IZR z / IZR (radix2 ^ - ex)).
      rewrite Ztrunc_div; auto. pose proof (Zpower_gt_0 radix2 (- ex) ltac:(lia)); lia.
Qed.

(** Integers up to 2^24 are exact in binary32, up to 2^53 in binary64. *)
Section OfZ.
Variables (prec emax : Z).
Context (P0 : Prec_gt_0 prec) (PE : Prec_lt_emax prec emax).
Hypothesis (PE2 : (1 < prec)%Z).

Lemma int_in_format z : (Z.abs z <= 2 ^ prec)%Z -> generic_format radix2 (SpecFloat.fexp prec emax) (IZR z).
Proof.
  intros H. unfold Prec_gt_0, Prec_lt_emax in *.
  change (SpecFloat.fexp prec emax) with (FLT_exp (3 - emax - prec) prec).
  destruct (Z.eq_dec (Z.abs z) (2 ^ prec)) as [E|E].
  - assert (IZR z = F2R (Float radix2 (Z.sgn z) prec)) as ->.
    { unfold F2R; cbn [Fnum Fexp]. rewrite <- (IZR_Zpower radix2) by lia. rewrite <- mult_IZR. f_equal.
      change (Z.pow radix2 prec) with (2 ^ prec)%Z. rewrite <- E. lia. }
    apply generic_format_FLT. exists (Float radix2 (Z.sgn z) prec); cbn [Fnum Fexp]; auto.
    + change (Z.pow radix2 prec) with (2 ^ prec)%Z.
      assert (2 ^ 1 <= 2 ^ prec)%Z by (apply Z.pow_le_mono_r; lia). lia.
    + lia.
  - apply generic_format_FLT. exists (Float radix2 z 0); cbn [Fnum Fexp]; auto.
    + unfold F2R; cbn [Fnum Fexp bpow]. ring.
    + change (Z.pow radix2 prec) with (2 ^ prec)%Z. lia.
    + lia.
Qed.

Lemma of_Z_exact z : (Z.abs z <= 2 ^ prec)%Z ->
  let x := binary_normalize prec emax P0 PE mode_NE z 0 false in
  B2R x = IZR z /\ is_finite x = true.
Proof.
  intros H x. pose proof (binary_normalize_correct prec emax P0 PE mode_NE z 0 false) as C.
  assert (F2R (Float radix2 z 0) = IZR z) as F by (unfold F2R; cbn [Fnum Fexp bpow]; ring).
  cbv zeta in C. rewrite F in C. rewrite round_generic in C; [|apply valid_rnd_N|apply int_in_format; auto].
  rewrite Rlt_bool_true in C; [|].
  - destruct C as (A & B & _). auto.
  - rewrite <- abs_IZR. unfold Prec_lt_emax, Prec_gt_0 in *.
    apply Rle_lt_trans with (bpow radix2 prec).
    + rewrite <- (IZR_Zpower radix2) by lia. apply IZR_le. exact H.
    + apply bpow_lt. lia.
Qed.

(** Floor of the rounded quotient of two such integers. *)
Lemma div_floor a b : (0 <= a < 2 ^ prec)%Z -> (0 < b <= 2 ^ prec)%Z ->
  let q := Bdiv mode_NE (binary_normalize prec emax P0 PE mode_NE a 0 false)
                        (binary_normalize prec emax P0 PE mode_NE b 0 false) in
  (prec < emax - 2)%Z -> floor_of q = Some (a / b)%Z.
Proof.
  intros Ha Hb q EM.
  destruct (of_Z_exact a) as [Ra Fa]; [lia|]. destruct (of_Z_exact b) as [Rb Fb]; [lia|].
  assert (0 < IZR b) as Pb by (apply IZR_lt; lia).
  assert (IZR b <> 0) as Nb by lra.
  pose proof (Bdiv_correct prec emax _ _ mode_NE
    (binary_normalize prec emax P0 PE mode_NE a 0 false)
    (binary_normalize prec emax P0 PE mode_NE b 0 false)) as C.
  rewrite Ra, Rb in C. specialize (C Nb). fold q in C.
  set (x := IZR a / IZR b) in *.
  set (r := round radix2 (SpecFloat.fexp prec emax) (round_mode mode_NE) x) in *.
  unfold Prec_lt_emax, Prec_gt_0 in *.
  set (k := (a / b)%Z).
  assert (0 <= k < 2 ^ prec)%Z as K.
  { unfold k. split; [apply Z.div_pos; lia|]. apply Z.div_lt_upper_bound; nia. }
  assert (IZR k <= x) as L1.
  { unfold x. apply Rmult_le_reg_r with (IZR b); auto.
    unfold Rdiv. rewrite Rmult_assoc, Rinv_l, Rmult_1_r by auto. rewrite <- mult_IZR.
    apply IZR_le. unfold k. pose proof (Z.mul_div_le a b). lia. }
  assert (IZR b * x = IZR a) as BX by (unfold x; field; auto).
  assert (IZR a <= IZR b * IZR (k + 1) - 1) as L2.
  { rewrite <- mult_IZR, <- minus_IZR. apply IZR_le. unfold k.
    pose proof (Z.mod_pos_bound a b). pose proof (Z.div_mod a b). nia. }
  assert (IZR k <= r) as R1.
  { unfold r. apply round_ge_generic; auto. 1: apply fexp_correct; auto. 1: apply valid_rnd_N.
    apply int_in_format. lia. }
  assert (r <= IZR (k + 1)) as R2.
  { unfold r. apply round_le_generic; auto. 1: apply fexp_correct; auto. 1: apply valid_rnd_N.
    - apply int_in_format. lia.
    - apply Rmult_le_reg_l with (IZR b); auto. lra. }
  assert (r < IZR (k + 1)) as R3.
  { destruct R2 as [R2|R2]; auto. exfalso.
    (* r = k+1 is at distance at least 1/b from x, but rounding moved x by at most x 2^-prec *)
    assert (0 < a)%Z as Pa.
    { destruct (Z.eq_dec a 0) as [->|]; [|lia].
      assert (x = 0) as X0 by (unfold x; unfold Rdiv; rewrite Rmult_0_l; auto).
      unfold r in R2. rewrite X0, round_0 in R2 by apply valid_rnd_N.
      assert (k = 0)%Z as K0 by (unfold k; apply Z.div_0_l; lia). rewrite K0 in R2.
      apply (eq_IZR 0) in R2. lia. }
    assert (Rabs (r - x) <= /2 * bpow radix2 (-prec + 1) * Rabs x) as RE.
    { unfold r. change (SpecFloat.fexp prec emax) with (FLT_exp (3 - emax - prec) prec).
      apply (relative_error_N_FLT radix2 (3 - emax - prec) prec); auto.
      (* x is not tiny *)
      apply Rle_trans with (bpow radix2 (- prec)); [apply bpow_le; lia|].
      assert (0 < x) as PX by (unfold x; apply Rdiv_lt_0_compat; auto; apply IZR_lt; lia).
      rewrite Rabs_pos_eq by lra.
      apply Rmult_le_reg_r with (IZR b); auto. rewrite (Rmult_comm x), BX.
      apply Rle_trans with 1; [|apply (IZR_le 1); lia].
      apply Rle_trans with (bpow radix2 (-prec) * bpow radix2 prec).
      + apply Rmult_le_compat_l; [apply bpow_ge_0|]. rewrite <- (IZR_Zpower radix2) by lia. apply IZR_le. apply Hb.
      + rewrite <- bpow_plus. replace (- prec + prec)%Z with 0%Z by ring. cbn. lra. }
    assert (0 < x) as PX by (unfold x; apply Rdiv_lt_0_compat; auto; apply IZR_lt; lia).
    rewrite (Rabs_pos_eq x) in RE by lra.
    rewrite bpow_plus in RE. change (bpow radix2 1) with 2 in RE.
    assert (r - x <= bpow radix2 (- prec) * x) as RE'.
    { apply Rle_trans with (Rabs (r - x)); [apply Rle_abs|lra]. }
    apply (Rmult_le_compat_l (IZR b)) in RE'; [|lra].
    replace (IZR b * (bpow radix2 (- prec) * x)) with (bpow radix2 (- prec) * (IZR b * x)) in RE' by ring.
    rewrite BX in RE'. rewrite R2 in RE'.
    assert (1 <= bpow radix2 (- prec) * IZR a) as Q by lra.
    assert (bpow radix2 (- prec) * IZR a < 1); [|lra].
    apply Rlt_le_trans with (bpow radix2 (- prec) * bpow radix2 prec).
    - apply Rmult_lt_compat_l; [apply bpow_gt_0|]. rewrite <- (IZR_Zpower radix2) by lia. apply IZR_lt. apply Ha.
    - rewrite <- bpow_plus. replace (- prec + prec)%Z with 0%Z by ring. cbn. lra. }
  rewrite Rlt_bool_true in C.
  - destruct C as (CR & CF & _). rewrite Fa in CF.
    rewrite floor_of_spec by auto. f_equal. rewrite CR. apply Zfloor_imp. split; auto.
  - assert (0 <= r) by (apply Rle_trans with (IZR k); auto; apply (IZR_le 0); lia).
    rewrite Rabs_pos_eq by auto. apply Rlt_le_trans with (IZR (k + 1)); auto.
    apply Rle_trans with (bpow radix2 prec); [|apply bpow_le; lia].
    rewrite <- (IZR_Zpower radix2) by lia. apply IZR_le.
    change (Z.pow radix2 prec) with (2 ^ prec)%Z. lia.
Qed.
End OfZ.

Lemma f32_div_floor a b : (0 <= a < 2 ^ 24)%Z -> (0 < b <= 2 ^ 24)%Z ->
  floor_of (f32_div (f32_of_Z a) (f32_of_Z b)) = Some (a / b)%Z.
Proof. intros; apply (div_floor 24 128); auto; lia. Qed.

Lemma f64_div_floor a b : (0 <= a < 2 ^ 53)%Z -> (0 < b <= 2 ^ 53)%Z ->
  floor_of (f64_div (f64_of_Z a) (f64_of_Z b)) = Some (a / b)%Z.
Proof. intros; apply (div_floor 53 1024); auto; lia. Qed.
