(** printf("%f") of a double (libc, not /repo): six decimals, the exact value
    rounded to nearest, ties to even.  The sign of a NaN is not modelled. *)
From Flocq Require Import Core IEEE754.BinarySingleNaN.
From Verif Require Import Base CStr Float.

(** a/b rounded to the nearest integer, ties to even. *)
Definition div_rne (a b : Z) : Z :=
  let q := a / b in
  let r := a mod b in
  if 2 * r <? b then q else if 2 * r >? b then q + 1 else if Z.even q then q else q + 1.

(** Millionths of m * 2^e. *)
Definition micro (m : positive) (e : Z) : Z :=
  let z := Zpos m * 1000000 in
  if 0 <=? e then z * 2 ^ e else div_rne z (2 ^ (- e)).

(** "[-]i.dddddd" for u millionths. *)
Definition dec_text (neg : bool) (u : Z) : list Z :=
  (if neg then ` "-" else []) ++ dec_digits 400 (u / 1000000) [] ++ ` "." ++ pad0 6 (dec_nonneg (u mod 1000000)).

Definition print_f (x : f64) : list Z :=
  match x with
  | B754_zero s => dec_text s 0
  | B754_finite s m e _ => dec_text s (micro m e)
  | B754_infinity s => (if s then ` "-" else []) ++ ` "inf"
  | B754_nan => ` "nan"
  end.
