(** Specification of the tiling grid. *)
From Verif Require Import Base CubeModel.

(** Upper left corner of tile (p, q). *)
Definition corner_x (c : cube) (p : Z) : Z := ox c + p * size_x c.
Definition corner_y (c : cube) (q : Z) : Z := oy c - q * size_y c.

(** The coordinate lies in the closed footprint / the interior of tile (p, q). *)
Definition covers (c : cube) (p q x y : Z) : Prop :=
  corner_x c p <= x <= corner_x c p + size_x c /\
  corner_y c q - size_y c <= y <= corner_y c q.
Definition interior (c : cube) (p q x y : Z) : Prop :=
  corner_x c p < x < corner_x c p + size_x c /\
  corner_y c q - size_y c < y < corner_y c q.

(** Half-open footprint: upper and left edge belong to the tile. *)
Definition half_open (c : cube) (p q x y : Z) : Prop :=
  corner_x c p <= x < corner_x c p + size_x c /\
  corner_y c q - size_y c < y <= corner_y c q.

Definition cube_ok (c : cube) : Prop := 0 < size_x c /\ 0 < size_y c /\ 0 < res c.

(** v is on the pixel grid with pixel size r through o. *)
Definition on_grid (o r v : Z) : Prop := exists k, v = o + k * r.
