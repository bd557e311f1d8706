(** Facts on rounding to float and double. *)
From Coq Require Import Reals Lra.
From Flocq Require Import Core Relative.
From Verif Require Import Base RoundModel.
#[local] Open Scope R_scope.

Global Instance prec24 : Prec_gt_0 24 := eq_refl.
Global Instance prec53 : Prec_gt_0 53 := eq_refl.

Lemma rnd32_le x y : x <= y -> rnd32 x <= rnd32 y.
Proof. intro H. apply round_le; [typeclasses eauto | typeclasses eauto | exact H]. Qed.
Lemma rnd64_le x y : x <= y -> rnd64 x <= rnd64 y.
Proof. intro H. apply round_le; [typeclasses eauto | typeclasses eauto | exact H]. Qed.

Lemma rnd32_opp x : rnd32 (- x) = - rnd32 x.
Proof. apply round_NE_opp. Qed.

Lemma rnd32_dyadic m e : (Z.abs m < 2 ^ 24)%Z -> (-149 <= e)%Z -> rnd32 (IZR m * bpow radix2 e) = IZR m * bpow radix2 e.
Proof.
  intros M E. apply round_generic; [typeclasses eauto|].
  apply generic_format_FLT. exists (Float radix2 m e); [reflexivity | exact M | exact E].
Qed.
Lemma rnd64_dyadic m e : (Z.abs m < 2 ^ 53)%Z -> (-1074 <= e)%Z -> rnd64 (IZR m * bpow radix2 e) = IZR m * bpow radix2 e.
Proof.
  intros M E. apply round_generic; [typeclasses eauto|].
  apply generic_format_FLT. exists (Float radix2 m e); [reflexivity | exact M | exact E].
Qed.

Lemma rnd32_int n : (Z.abs n < 2 ^ 24)%Z -> rnd32 (IZR n) = IZR n.
Proof. intro H. generalize (rnd32_dyadic n 0 H ltac:(discriminate)). change (bpow radix2 0) with 1. now rewrite Rmult_1_r. Qed.
Lemma rnd32_half n : (Z.abs n < 2 ^ 24)%Z -> rnd32 (IZR n / 2) = IZR n / 2.
Proof. intro H. exact (rnd32_dyadic n (-1) H ltac:(discriminate)). Qed.
Lemma rnd64_int n : (Z.abs n < 2 ^ 53)%Z -> rnd64 (IZR n) = IZR n.
Proof. intro H. generalize (rnd64_dyadic n 0 H ltac:(discriminate)). change (bpow radix2 0) with 1. now rewrite Rmult_1_r. Qed.
Lemma rnd64_half n : (Z.abs n < 2 ^ 53)%Z -> rnd64 (IZR n / 2) = IZR n / 2.
Proof. intro H. exact (rnd64_dyadic n (-1) H ltac:(discriminate)). Qed.

(** Absolute error for numbers bounded by M >= 1. *)
Lemma rnd32_err x M : 1 <= M -> Rabs x <= M -> Rabs (rnd32 x - x) <= M / 16000000.
Proof.
  intros HM HX.
  destruct (error_N_FLT radix2 (-149) 24 eq_refl (fun z => negb (Z.even z)) x) as (eps & eta & E1 & E2 & _ & E).
  unfold rnd32. rewrite E.
  replace (x * (1 + eps) + eta - x) with (x * eps + eta) by ring.
  eapply Rle_trans; [apply Rabs_triang|]. rewrite Rabs_mult.
  assert (A1 : Rabs eps <= / 16777216).
  { eapply Rle_trans; [exact E1|]. change (bpow radix2 (- (24) + 1)) with (/ 8388608). lra. }
  assert (A2 : Rabs eta <= / 1000000000000).
  { eapply Rle_trans; [exact E2|].
    apply Rle_trans with (/ 2 * bpow radix2 (-40)); [apply Rmult_le_compat_l; [lra | apply bpow_le; discriminate]|].
    change (bpow radix2 (-40)) with (/ 1099511627776). lra. }
  assert (A3 : Rabs x * Rabs eps <= M * / 16777216) by (apply Rmult_le_compat; auto using Rabs_pos).
  lra.
Qed.
Lemma rnd64_err x M : 1 <= M -> Rabs x <= M -> Rabs (rnd64 x - x) <= M / 1000000000000.
Proof.
  intros HM HX.
  destruct (error_N_FLT radix2 (-1074) 53 eq_refl (fun z => negb (Z.even z)) x) as (eps & eta & E1 & E2 & _ & E).
  unfold rnd64. rewrite E.
  replace (x * (1 + eps) + eta - x) with (x * eps + eta) by ring.
  eapply Rle_trans; [apply Rabs_triang|]. rewrite Rabs_mult.
  assert (A1 : Rabs eps <= / 9007199254740992).
  { eapply Rle_trans; [exact E1|]. change (bpow radix2 (- (53) + 1)) with (/ 4503599627370496). lra. }
  assert (A2 : Rabs eta <= / 1125899906842624).
  { eapply Rle_trans; [exact E2|].
    apply Rle_trans with (/ 2 * bpow radix2 (-50)); [apply Rmult_le_compat_l; [lra | apply bpow_le; discriminate]|].
    change (bpow radix2 (-50)) with (/ 1125899906842624). lra. }
  assert (A3 : Rabs x * Rabs eps <= M * / 9007199254740992) by (apply Rmult_le_compat; auto using Rabs_pos).
  lra.
Qed.

(** Rounding keeps bounds that are floats. *)
Lemma rnd32_between a b x : (Z.abs a < 2 ^ 24)%Z -> (Z.abs b < 2 ^ 24)%Z -> IZR a <= x <= IZR b -> IZR a <= rnd32 x <= IZR b.
Proof. intros A B [H1 H2]. rewrite <- (rnd32_int a A), <- (rnd32_int b B). split; now apply rnd32_le. Qed.

(** Sign. *)
Lemma rnd32_0 : rnd32 0 = 0.
Proof. apply round_0. typeclasses eauto. Qed.
Lemma rnd64_0 : rnd64 0 = 0.
Proof. apply round_0. typeclasses eauto. Qed.

(** A double close enough to x is the rounded value. *)
Lemma rnd64_near m e x : (2 ^ 52 < m < 2 ^ 53)%Z -> (-1074 <= e)%Z -> Rabs (x - IZR m * bpow radix2 e) < / 2 * bpow radix2 e -> rnd64 x = IZR m * bpow radix2 e.
Proof.
  intros [M1 M2] E H. assert (0 < bpow radix2 e) as P by apply bpow_gt_0.
  assert (IZR (2 ^ 52) + 1 <= IZR m <= IZR (2 ^ 53) - 1) as [B1 B2] by (split; [rewrite <- (plus_IZR (2 ^ 52) 1)|rewrite <- (minus_IZR (2 ^ 53) 1)]; apply IZR_le; lia).
  apply Rabs_lt_inv in H. assert (mag radix2 x = e + 53 :> Z)%Z as Mg.
  { apply mag_unique_pos. replace (e + 53 - 1)%Z with (52 + e)%Z by lia. replace (e + 53)%Z with (53 + e)%Z by lia. rewrite !bpow_plus. change (bpow radix2 52) with (IZR (2 ^ 52)). change (bpow radix2 53) with (IZR (2 ^ 53)). nra. }
  unfold rnd64, round, F2R, scaled_mantissa, cexp. rewrite Mg. unfold FLT_exp. replace (Z.max (e + 53 - 53) (-1074)) with e by lia. cbn [Fnum Fexp].
  f_equal. f_equal. apply Znearest_imp. replace (x * bpow radix2 (- e) - IZR m) with ((x - IZR m * bpow radix2 e) * bpow radix2 (- e)); [|rewrite Rmult_minus_distr_r, Rmult_assoc, <- bpow_plus; replace (e + - e)%Z with 0%Z by lia; change (bpow radix2 0) with 1; ring].
  rewrite Rabs_mult, (Rabs_pos_eq (bpow radix2 (- e))) by apply bpow_ge_0. replace (/ 2) with (/ 2 * bpow radix2 e * bpow radix2 (- e)) by (rewrite Rmult_assoc, <- bpow_plus; replace (e + - e)%Z with 0%Z by lia; change (bpow radix2 0) with 1; ring).
  apply Rmult_lt_compat_r; [apply bpow_gt_0|]. apply Rabs_lt. lra.
Qed.
Lemma rnd64_rel x : bpow radix2 (-1000) <= Rabs x -> Rabs (rnd64 x - x) <= / 9007199254740992 * Rabs x.
Proof.
  intros H. assert (bpow radix2 (-1074 + 53 - 1) <= Rabs x) as B by (apply Rle_trans with (2 := H); apply bpow_le; lia).
  pose proof (relative_error_N_FLT radix2 (-1074) 53 ltac:(reflexivity) (fun x => negb (Z.even x)) x B) as R. unfold rnd64. eapply Rle_trans; [exact R|]. apply Req_le. change (bpow radix2 (- (53) + 1)) with (/ 4503599627370496). lra.
Qed.
