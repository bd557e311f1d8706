(** What the noise filter is expected to do, stated on masks only. *)
From Verif Require Import Base.
#[local] Open Scope Z_scope.

(** Observation [t] is clear; number of clear observations. *)
Definition clear (msk : list bool) (t : Z) : Prop := get_at msk t = Some true.
Definition nclear (msk : list bool) : Z := zlen (filter (fun b => b) msk).

(** Everything clear in [a] is clear in [b]. *)
Definition subset (a b : list bool) : Prop := forall t, clear a t -> clear b t.

(** [l] and [r] are the clear observations next to [m]. *)
Definition bracket (msk : list bool) (l m r : Z) : Prop :=
  clear msk l /\ clear msk r /\ l < m < r /\ (forall u, clear msk u -> u <= l \/ u = m \/ r <= u).

(** Days do not decrease / increase strictly. *)
Definition nondecreasing (ce : list Z) : Prop :=
  forall i j a b, i < j -> get_at ce i = Some a -> get_at ce j = Some b -> a <= b.
Definition increasing (ce : list Z) : Prop :=
  forall i j a b, i < j -> get_at ce i = Some a -> get_at ce j = Some b -> a < b.

(** The values lie on the straight line  slope * day + offset. *)
Definition on_line (slope offset : Z) (dat ce : list Z) : Prop :=
  forall i y c, get_at dat i = Some y -> get_at ce i = Some c -> y = slope * c + offset.
