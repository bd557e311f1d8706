(** Helpers: equality of floating point numbers, number of digits, readable sizes.
    Source: /repo/src/modules/cross-level/utils-cl.c (123-134, 196-255).
    Numbers are finite: with infinity or NaN the comparisons of the code are not described here. *)
From Coq Require Import Reals.
From Flocq Require Import Core.
From Verif Require Import Base CStr RoundModel.
#[local] Open Scope R_scope.

(** fequal: 196-215.  The difference and the product are floats (fabs is exact); FLT_EPSILON is 2^-23. *)
Definition fequal (a b : R) : bool :=
  let diff := Rabs (rnd32 (a - b)) in let A := Rabs a in let B := Rabs b in
  let max := if Rlt_bool A B then B else A in
  Rle_bool diff (rnd32 (max * bpow radix2 (-23))).
(** dequal: 218-237.  DBL_EPSILON is 2^-52. *)
Definition dequal (a b : R) : bool :=
  let diff := Rabs (rnd64 (a - b)) in let A := Rabs a in let B := Rabs b in
  let max := if Rlt_bool A B then B else A in
  Rle_bool diff (rnd64 (max * bpow radix2 (-52))).
(** num_decimal_places: 123-134.  The recursion ends when less than 10 is left; int has at most 10 digits. *)
Fixpoint places_pos (fuel : nat) (i : Z) : option Z :=
  match fuel with O => None | S f => if (i <? 10)%Z then Some 1%Z else match places_pos f (i / 10)%Z with Some k => Some (1 + k)%Z | None => None end end.
Definition num_decimal_places (i : Z) : option Z :=
  if (i <? 0)%Z then places_pos 12 (if (i =? -2147483648)%Z then 2147483647 else - i)%Z else places_pos 12 i.
(** print_humanreadable_bytes: 240-255.  The number and the unit that are printed (before rounding to two decimals); [i] counts to 8. *)
Fixpoint scale_bytes (fuel : nat) (i : nat) (d : R) : R * nat :=
  match fuel with O => (d, i) | S f => if Rle_bool 1024 d then scale_bytes f (S i) (rnd64 (d / 1024)) else (d, i) end.
Definition units : list (list Z) := [`"B"; `"KB"; `"MB"; `"GB"; `"TB"; `"PB"; `"EB"; `"ZB"; `"YB"].
Definition readable (bytes : Z) : R * list Z := let '(d, i) := scale_bytes 8 0 (rnd64 (IZR bytes)) in (d, nth i units []).
