(** Specification of mode, unique count and histogram. *)
From Verif Require Import Base.

(** Multiplicity of a value. *)
Definition count (v : Z) (l : list Z) : nat := count_occ Z.eq_dec l v.

(** Number of distinct values. *)
Definition distinct (l : list Z) : Z := Z.of_nat (length (nodup Z.eq_dec l)).

Definition zsum (l : list Z) : Z := fold_right Z.add 0 l.

(** Values whose pairwise differences fit an int, e.g. all 16-bit values. *)
Definition differences_fit (l : list Z) : Prop :=
  forall a b, In a l -> In b l -> in_int (a - b).
