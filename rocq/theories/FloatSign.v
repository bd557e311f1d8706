(** Signs of floating point results: operations on values without a minus sign
    (including NaN) stay without a minus sign. *)
From Coq Require Import Reals Lra.
From Flocq Require Import Core IEEE754.BinarySingleNaN.
From Verif Require Import Base Float.
#[local] Open Scope Z_scope.

Definition plus_sign {p e} (x : binary_float p e) : Prop := Bsign x = false.

Section Gen.
Context (prec emax : Z) (P0 : Prec_gt_0 prec) (PE : Prec_lt_emax prec emax).
Notation fl := (binary_float prec emax).

Lemma overflow_sign (x : fl) s : B2SF x = binary_overflow prec emax mode_NE s -> Bsign x = s.
Proof. destruct x; cbn; congruence. Qed.

Lemma plus_sign_ge0 (x : fl) : plus_sign x -> (0 <= B2R x)%R.
Proof.
  destruct x as [| | | s m ex H]; cbn; try lra. intros ->. apply F2R_ge_0. cbn. lia.
Qed.

Lemma plus_sign_mul (x y : fl) : plus_sign x -> plus_sign y -> plus_sign (Bmult mode_NE x y).
Proof.
  unfold plus_sign. intros Hx Hy. pose proof (Bmult_correct prec emax _ _ mode_NE x y) as H.
  rewrite Hx, Hy in H. cbn [xorb] in H.
  destruct (Rlt_bool _ _).
  - destruct H as (_ & _ & H). destruct (is_nan (Bmult mode_NE x y)) eqn:E; [|now apply H].
    destruct (Bmult mode_NE x y); try discriminate E. reflexivity.
  - now apply overflow_sign.
Qed.

Lemma plus_sign_div (x y : fl) : plus_sign x -> plus_sign y -> plus_sign (Bdiv mode_NE x y).
Proof.
  unfold plus_sign. intros Hx Hy.
  destruct (Req_dec (B2R y) 0) as [Z|NZ].
  - destruct y as [s|s| |s m ex B]; destruct x as [s'|s'| |s' m' ex' B']; cbn in Hx, Hy |- *; subst; try reflexivity;
      exfalso; cbn in Z; apply eq_0_F2R in Z; discriminate Z.
  - pose proof (Bdiv_correct prec emax _ _ mode_NE x y NZ) as H.
    rewrite Hx, Hy in H. cbn [xorb] in H.
    destruct (Rlt_bool _ _).
    + destruct H as (_ & _ & H). destruct (is_nan (Bdiv mode_NE x y)) eqn:E; [|now apply H].
      destruct (Bdiv mode_NE x y); try discriminate E. reflexivity.
    + now apply overflow_sign.
Qed.

Lemma plus_sign_sqrt (x : fl) : plus_sign x -> plus_sign (Bsqrt mode_NE x).
Proof.
  unfold plus_sign. intros Hx. destruct (Bsqrt_correct prec emax _ _ mode_NE x) as (_ & _ & H).
  destruct (is_nan (Bsqrt mode_NE x)) eqn:E; [|now rewrite H].
  destruct (Bsqrt mode_NE x); try discriminate E. reflexivity.
Qed.

Lemma plus_sign_add (x y : fl) : plus_sign x -> plus_sign y -> plus_sign (Bplus mode_NE x y).
Proof.
  intros Hx Hy. pose proof (plus_sign_ge0 _ Hx) as Gx. pose proof (plus_sign_ge0 _ Hy) as Gy.
  unfold plus_sign in *.
  destruct (is_finite x) eqn:Fx; [destruct (is_finite y) eqn:Fy|].
  - pose proof (Bplus_correct prec emax _ _ mode_NE x y Fx Fy) as H. rewrite Hx, Hy in H.
    destruct (Rlt_bool _ _).
    + destruct H as (_ & _ & ->). destruct (Rcompare_spec (B2R x + B2R y) 0); cbn; auto. exfalso. lra.
    + now apply overflow_sign.
  - destruct x, y; cbn in *; try discriminate; subst; reflexivity.
  - destruct x, y; cbn in *; try discriminate; subst; reflexivity.
Qed.

Lemma plus_sign_of_Z z : 0 <= z -> plus_sign (binary_normalize prec emax P0 PE mode_NE z 0 false).
Proof.
  intros Hz. unfold plus_sign. pose proof (binary_normalize_correct prec emax P0 PE mode_NE z 0 false) as H. cbv zeta in H.
  assert (G : (0 <= F2R (Float radix2 z 0))%R) by (apply F2R_ge_0; exact Hz).
  destruct (Rlt_bool _ _).
  - destruct H as (_ & _ & ->). destruct (Rcompare_spec (F2R (Float radix2 z 0)) 0); auto. exfalso. lra.
  - rewrite (Rlt_bool_false _ _ G) in H. now apply overflow_sign.
Qed.

(** A value without minus sign is not below a zero. *)
Lemma plus_sign_flt (x : fl) s : plus_sign x -> flt x (B754_zero s) = false.
Proof. unfold plus_sign. destruct x; cbn; intros; subst; reflexivity. Qed.

(** 0 / x is a zero or a NaN, and is above nothing that is not below zero. *)
Lemma zero_div_not_above (a x : fl) s t : flt a (B754_zero s) = false -> flt a (Bdiv mode_NE (B754_zero t) x) = false.
Proof. intros H. destruct x; cbn; destruct a; cbn in *; auto; discriminate. Qed.
End Gen.
