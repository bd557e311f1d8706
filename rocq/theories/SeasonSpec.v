(** Seasons of the 365-day year. *)
From Verif Require Import Base DateSpec.
From Coq Require Import Sorting.Sorted.

(** Days from [lo] to [hi], over the turn of the year if [hi] comes first. *)
Definition in_season (lo hi d : Z) : Prop :=
  1 <= d <= 365 /\ (if lo <=? hi then lo <= d <= hi else lo <= d \/ d <= hi).

(** Periods a day belongs to. *)
Definition in_month (dy m : Z) : Prop := exists d, valid_md m d /\ spec_doy m d = dy.
Definition in_quarter_day (dy q : Z) : Prop := exists m, in_month dy m /\ in_quarter m q.

(** [k] is the index of a used entry. *)
Definition used (flags : list Z) (k : Z) : Prop := get_at flags k = Some 1.

(** Exactly the numbers in [l] satisfy [P], in ascending order. *)
Definition lists (P : Z -> Prop) (l : list Z) : Prop := StronglySorted Z.lt l /\ forall k, In k l <-> P k.
