From Verif Require Import Base ImgSpec.
#[local] Open Scope Z_scope.

(** Squared distance of two pixels. *)
Definition dist2 (y x i j : Z) : Z := (y - i) * (y - i) + (x - j) * (x - j).
(** [d] is the squared distance of (y, x) to the nearest TRUE pixel. *)
Definition nearest2 (img : list bool) (nx ny y x d : Z) : Prop :=
  (exists i j, is_true img nx ny i j /\ d = dist2 y x i j) /\
  (forall i j, is_true img nx ny i j -> d <= dist2 y x i j).
(** All intermediate squares fit into an int. *)
Definition small_enough (nx ny : Z) : Prop := nx * nx + (nx + 2 * ny) * (nx + 2 * ny) <= 2147483647.
