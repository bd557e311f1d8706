(** Specification of the auxiliary programs. *)
From Coq Require Import Reals Sorting.Sorted.
From Verif Require Import Base.

(** ** Images *)
Definition value_at (img : list (list Z)) (i j v : Z) : Prop := exists line, get_at img i = Some line /\ get_at line j = Some v.
(** The number of pixels with a property. *)
Definition how_many {A} (P : A -> Prop) (l : list A) (n : Z) : Prop := exists l', (exists f, (forall a, f a = true <-> P a) /\ l' = filter f l) /\ zlen l' = n.
Definition all_values (img : list (list Z)) : list Z := concat img.
(** A complete histogram of the values other than nodata. *)
Definition is_histogram (nodata : Z) (img : list (list Z)) (h : list (Z * Z)) : Prop :=
  StronglySorted Z.lt (map fst h) /\
  forall v n, In (v, n) h <-> v <> nodata /\ 0 < n /\ how_many (fun x => x = v) (all_values img) n.

(** ** Samples *)
#[local] Open Scope R_scope.
(** (x, y) is the centre of pixel (i, j) of an image with upper left corner (x0, y0) and pixel size (dx, dy). *)
Definition centre (x0 dx y0 dy : R) (i j : Z) (x y : R) : Prop := x = x0 + (IZR j + 1 / 2) * dx /\ y = y0 + (IZR i + 1 / 2) * dy.
(** The elements of a list with their position. *)
Definition numbered {A} (l : list A) : list (nat * A) := combine (seq 0 (length l)) l.

(** ** Stacks *)
#[local] Open Scope Z_scope.
(** [l] holds exactly the pairs (file, band), each once. *)
Definition all_bands (nbs : list Z) (l : list (Z * Z)) : Prop :=
  NoDup l /\ forall f b, In (f, b) l <-> exists nb, get_at nbs f = Some nb /\ 1 <= b <= nb.
(** Lexicographic order. *)
Definition lex_lt (a b : Z * Z) : Prop := fst a < fst b \/ (fst a = fst b /\ snd a < snd b).
Definition swap (a : Z * Z) : Z * Z := (snd a, fst a).

(** ** Tiles *)
(** (x, y) is in the closed rectangle. *)
Definition in_rect (l r t b x y : Z) : Prop := l <= x <= r /\ b <= y <= t.
Definition inside_rect (l r t b x y : Z) : Prop := l < x < r /\ b < y < t.
(** The smallest upright box around points. *)
Definition in_box (corners : list (Z * Z)) (x y : Z) : Prop :=
  exists l r t b, In l corners /\ In r corners /\ In t corners /\ In b corners /\ fst l <= x <= fst r /\ snd b <= y <= snd t.
(** Azimuthal equidistant projection around the pole; degrees. *)
Definition polar (lon lat : R) : R * R := (((90 - lat) * sin (lon * PI / 180))%R, (- ((90 - lat) * cos (lon * PI / 180)))%R).
