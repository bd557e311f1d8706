(** C float (binary32) and double (binary64) as Flocq's IEEE-754 numbers with one
    NaN, rounding to nearest even.  Model of the arithmetic, not of /repo. *)
From Flocq Require Import Core IEEE754.BinarySingleNaN.
From Verif Require Import Base.

Definition f32 := binary_float 24 128.
Definition f64 := binary_float 53 1024.

#[global] Instance prec24 : Prec_gt_0 24 := eq_refl.
#[global] Instance emax24 : Prec_lt_emax 24 128 := eq_refl.
#[global] Instance prec53 : Prec_gt_0 53 := eq_refl.
#[global] Instance emax53 : Prec_lt_emax 53 1024 := eq_refl.

(** (float)z and (double)z. *)
Definition f32_of_Z (z : Z) : f32 := binary_normalize 24 128 prec24 emax24 mode_NE z 0 false.
Definition f64_of_Z (z : Z) : f64 := binary_normalize 53 1024 prec53 emax53 mode_NE z 0 false.

Definition f32_div (x y : f32) : f32 := Bdiv mode_NE x y.
Definition f64_div (x y : f64) : f64 := Bdiv mode_NE x y.
Definition f32_mul (x y : f32) : f32 := Bmult mode_NE x y.
Definition f64_mul (x y : f64) : f64 := Bmult mode_NE x y.
Definition f32_add (x y : f32) : f32 := Bplus mode_NE x y.
Definition f64_add (x y : f64) : f64 := Bplus mode_NE x y.
Definition f32_sub (x y : f32) : f32 := Bminus mode_NE x y.
Definition f64_sub (x y : f64) : f64 := Bminus mode_NE x y.

(** Comparisons: false with a NaN. *)
Definition flt {p e} (x y : binary_float p e) : bool := Bltb x y.
Definition fle {p e} (x y : binary_float p e) : bool := Bleb x y.
Definition feq {p e} (x y : binary_float p e) : bool := Beqb x y.

(** Signed integer significand and exponent of a finite number. *)
Definition floor_of {p e} (x : binary_float p e) : option Z :=
  match x with
  | B754_zero _ => Some 0
  | B754_finite s m ex _ =>
    let z := if s then Zneg m else Zpos m in
    Some (if 0 <=? ex then z * 2 ^ ex else z / 2 ^ (- ex))
  | _ => None
  end.
Definition trunc_of {p e} (x : binary_float p e) : option Z :=
  match x with
  | B754_zero _ => Some 0
  | B754_finite s m ex _ =>
    let z := if s then Zneg m else Zpos m in
    Some (if 0 <=? ex then z * 2 ^ ex else Z.quot z (2 ^ (- ex)))
  | _ => None
  end.

(** (int)floor(x) and (int)x: unrepresentable values are undefined behaviour. *)
Definition int_of_floor {p e} (x : binary_float p e) : outcome Z :=
  z <- of_option (floor_of x) ;; chk_int z.
Definition int_of {p e} (x : binary_float p e) : outcome Z :=
  z <- of_option (trunc_of x) ;; chk_int z.
