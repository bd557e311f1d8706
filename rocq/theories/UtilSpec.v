(** What is asked of the helpers. *)
From Coq Require Import Reals.
From Flocq Require Import Core.
From Verif Require Import Base CStr.

(** Numbers that a float or a double can hold. *)
Definition is_float (x : R) : Prop := generic_format radix2 (FLT_exp (-149) 24) x.
Definition is_double (x : R) : Prop := generic_format radix2 (FLT_exp (-1074) 53) x.
(** [i] is written with [k] decimal digits. *)
Definition digits (i k : Z) : Prop := (1 <= k)%Z /\ (Z.abs i < 10 ^ k)%Z /\ (k = 1 \/ 10 ^ (k - 1) <= Z.abs i)%Z.
(** Bytes in a unit. *)
Definition in_unit (u : list Z) : option Z :=
  if list_eq_dec Z.eq_dec u (`"B") then Some 1%Z else if list_eq_dec Z.eq_dec u (`"KB") then Some (2 ^ 10)%Z else if list_eq_dec Z.eq_dec u (`"MB") then Some (2 ^ 20)%Z
  else if list_eq_dec Z.eq_dec u (`"GB") then Some (2 ^ 30)%Z else if list_eq_dec Z.eq_dec u (`"TB") then Some (2 ^ 40)%Z else if list_eq_dec Z.eq_dec u (`"PB") then Some (2 ^ 50)%Z
  else if list_eq_dec Z.eq_dec u (`"EB") then Some (2 ^ 60)%Z else None.
