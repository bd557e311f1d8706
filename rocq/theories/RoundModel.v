(** C float and double arithmetic (IEEE 754, round to nearest even, no contraction of
    operations) on numbers that are not too large: every operation gives the exact
    result rounded.  Infinity and NaN do not occur here: where the code divides by
    zero, takes the root of a negative number or leaves the range, the models say so.
    Model of the machine, not of /repo. *)
From Coq Require Import Reals.
From Flocq Require Import Core.
From Verif Require Import Base.

(** float: 24 bits, double: 53 bits, with gradual underflow. *)
Definition rnd32 (x : R) : R := round radix2 (FLT_exp (-149) 24) ZnearestE x.
Definition rnd64 (x : R) : R := round radix2 (FLT_exp (-1074) 53) ZnearestE x.

(** Operations on float. *)
Definition fadd (x y : R) : R := rnd32 (x + y).
Definition fsub (x y : R) : R := rnd32 (x - y).
Definition fmul (x y : R) : R := rnd32 (x * y).
Definition fdiv (x y : R) : R := rnd32 (x / y).
