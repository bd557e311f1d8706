(** What is asked of the topography. *)
From Coq Require Import Reals.
From Flocq Require Import Core.
From Verif Require Import Base TopModel.
#[local] Open Scope nat_scope.

(** Pixels of an image, and pixels that share a side. *)
Definition within (ny nx i j : nat) : Prop := i < ny /\ j < nx.
Definition beside (i j k l : nat) : Prop := (i = k /\ (j = S l \/ l = S j)) \/ (j = l /\ (i = S k \/ k = S i)).
(** Sea: elevation 0, or nodata next to sea. *)
Inductive sea_water (ny nx : nat) (g : grid (option R)) : nat -> nat -> Prop :=
| sw_zero i j : within ny nx i j -> g i j = Some 0%R -> sea_water ny nx g i j
| sw_next i j k l : sea_water ny nx g i j -> beside i j k l -> within ny nx k l -> g k l = None -> sea_water ny nx g k l.
(** Nearest pixel that is not on the border. *)
Definition clamp (n i : nat) : nat := Nat.max 1 (Nat.min i (n - 2)).
(** Elevations around a pixel of an inclined plane: [e] rise towards the east, [s] towards the south. *)
Definition plane (z0 res e s : R) : grid (option R) := fun a b => Some (z0 + e * res * INR b + s * res * INR a)%R.
(** Unit vector across the plane (north, east, up). *)
Definition normal (e s : R) : R * R * R :=
  let n := sqrt (1 + e * e + s * s) in (s / n, (- e) / n, 1 / n)%R.
