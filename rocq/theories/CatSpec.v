(** Specification of the change detection. *)
From Verif Require Import Base Loops.

Definition value (nodata : Z) (ser : list Z) (i : Z) (v : Z) : Prop := get_at ser i = Some v /\ v <> nodata.

(** d is the difference between the valid value at f and the closest valid value
    before. *)
Definition drop (nodata : Z) (ser : list Z) (f d : Z) : Prop :=
  exists g v w, value nodata ser f v /\ value nodata ser g w /\ g < f /\ d = w - v /\
    forall h, g < h < f -> get_at ser h = Some nodata.

(** The valid values with index in [lo, hi). *)
Definition valid_between (nodata : Z) (ser : list Z) (lo hi : Z) : list Z :=
  filter (fun v => negb (v =? nodata)) (firstn (Z.to_nat (hi - lo)) (skipn (Z.to_nat lo) ser)).
