(** What is assumed of libc's atof: on a number written with six decimals it yields
    the double nearest to it. *)
From Flocq Require Import Core IEEE754.BinarySingleNaN.
From Verif Require Import Base Float DecModel.

(** The double nearest to u millionths (a correctly rounded quotient of two exactly
    represented integers). *)
Definition nearest (neg : bool) (u : Z) : f64 :=
  let v := f64_div (f64_of_Z u) (f64_of_Z 1000000) in if neg then Bopp v else v.

Definition atof_ok (atof : list Z -> f64) : Prop :=
  forall neg u, 0 <= u < 2 ^ 53 -> atof (dec_text neg u) = nearest neg u.

(** Numbers with at most six decimals, up to about 4.5e9. *)
Definition six_decimals (x : f64) : Prop := exists neg u, 0 <= u < 2 ^ 52 /\ x = nearest neg u.
