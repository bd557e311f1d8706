From Verif Require Import Base ImgSpec.
#[local] Open Scope Z_scope.

(** Pixels of the outermost rows and columns, and the other ones. *)
Definition on_border (nx ny i j : Z) : Prop := inside nx ny i j /\ (i = 0 \/ j = 0 \/ i = ny - 1 \/ j = nx - 1).
Definition interior (nx ny i j : Z) : Prop := 0 < i < ny - 1 /\ 0 < j < nx - 1.

(** [reach mask nx ny v i j]: some 8-connected path leads from the border to
    (i, j), and the mask is at most v on all of its pixels. *)
Inductive reach (mask : list Z) (nx ny v : Z) : Z -> Z -> Prop :=
| reach_border i j k : on_border nx ny i j -> pix mask nx i j = Some k -> k <= v -> reach mask nx ny v i j
| reach_step i j i' j' k : reach mask nx ny v i' j' -> adjacent i' j' i j -> inside nx ny i j ->
    pix mask nx i j = Some k -> k <= v -> reach mask nx ny v i j.

(** [w] is the smallest v for which (i, j) can be reached: the minimum over all
    paths of the maximum of the mask along the path. *)
Definition flood_level (mask : list Z) (nx ny i j w : Z) : Prop := forall v, w <= v <-> reach mask nx ny v i j.
