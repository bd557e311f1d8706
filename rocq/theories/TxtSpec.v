(** Specification of grey-scale morphology, without iterating filters: neighbourhoods are
    relations between pixels, erosion and dilation are the smallest and largest value in them. *)
From Verif Require Import Base.

(** [q] is the pixel of an image of nx columns and ny rows at offset [d] from [p]. *)
Definition inside (nx ny q : Z) : Prop := 0 <= q < nx * ny.
Definition at_offset (nx : Z) (d : Z * Z) (p q : Z) : Prop := q / nx = p / nx + fst d /\ q mod nx = p mod nx + snd d.
Definition touches (K : list (Z * Z)) (nx ny p q : Z) : Prop := inside nx ny q /\ exists d, In d K /\ at_offset nx d p q.
(** Reached in [n] steps. *)
Fixpoint reach (K : list (Z * Z)) (nx ny : Z) (n : nat) (p q : Z) : Prop :=
  match n with
  | O => q = p
  | S m => exists t, touches K nx ny p t /\ reach K nx ny m t q
  end.
(** A structuring element: it has a centre and looks the same from behind. *)
Definition element (K : list (Z * Z)) : Prop := In (0, 0) K /\ forall a b, In (a, b) K -> In (- a, - b) K.
Definition within_radius (K : list (Z * Z)) (r : Z) : Prop := forall a b, In (a, b) K -> Z.abs a <= r /\ Z.abs b <= r.

Definition smallest (S : Z -> Prop) (f : Z -> Z) (v : Z) : Prop := (exists q, S q /\ f q = v) /\ forall q, S q -> v <= f q.
Definition largest (S : Z -> Prop) (f : Z -> Z) (v : Z) : Prop := (exists q, S q /\ f q = v) /\ forall q, S q -> f q <= v.
(** The value of pixel [p]. *)
Definition val (img : list Z) (p : Z) : Z := nth (Z.to_nat p) img 0.
(** The strip of rows [a] .. [a]+[n]-1 of an image with nx columns. *)
Definition strip (nx a n : Z) (img : list Z) : list Z := firstn (Z.to_nat (n * nx)) (skipn (Z.to_nat (a * nx)) img).
(** Row [i] of a strip of [n] rows from row [a] of [ny] is at least [m] rows away from rows of the image that are missing. *)
Definition far (a n ny m i : Z) : Prop := (a = 0 \/ m <= i) /\ (a + n = ny \/ i + m < n).
Definition le_img (a b : list Z) : Prop := length a = length b /\ forall p, val a p <= val b p.
Definition shorts (img : list Z) : Prop := Forall in_short img.
