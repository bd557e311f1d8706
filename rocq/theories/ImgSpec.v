(** Raster images stored row by row: pixel of row [y], column [x]. *)
From Verif Require Import Base.
#[local] Open Scope Z_scope.

Definition inside (nx ny y x : Z) : Prop := 0 <= y < ny /\ 0 <= x < nx.
Definition pix {A} (img : list A) (nx y x : Z) : option A := get_at img (nx * y + x).
Definition is_true (img : list bool) (nx ny y x : Z) : Prop := inside nx ny y x /\ pix img nx y x = Some true.
(** An image of ny rows and nx columns whose number of cells is an int. *)
Definition image {A} (img : list A) (nx ny : Z) : Prop := 0 < nx /\ 0 < ny /\ zlen img = nx * ny /\ nx * ny <= 2147483647.
(** 8-neighbours. *)
Definition adjacent (y x y' x' : Z) : Prop := Z.abs (y - y') <= 1 /\ Z.abs (x - x') <= 1 /\ (y, x) <> (y', x').
