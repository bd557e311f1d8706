(** What is asked of the displacement index and of the first clouds. *)
From Coq Require Import Reals.
From Verif Require Import Base RoundModel StatsSpec CdiModel.
#[local] Open Scope Z_scope.

Definition at_cell {A} (l : list A) (nx : Z) (c : Z * Z) (v : A) : Prop := get_at l (fst c * nx + snd c) = Some v.
Definition in_image (nx ny : Z) (c : Z * Z) : Prop := 0 <= fst c < ny /\ 0 <= snd c < nx.
(** Cells of the image within [r] rows and columns. *)
Definition close (r nx ny : Z) (c d : Z * Z) : Prop := in_image nx ny d /\ Z.abs (fst d - fst c) <= r /\ Z.abs (snd d - snd c) <= r.
(** [d] takes part for [c]: close, with a ratio. *)
Definition part (r0 : list R) (r nx ny : Z) (c d : Z * Z) : Prop := close r nx ny c d /\ exists x, at_cell r0 nx d x /\ x <> 0%R.
(** The pairs of ratios of all cells that take part, each once. *)
Definition pairs_around (r0 r1 : list R) (r nx ny : Z) (c : Z * Z) (l : list (R * R)) : Prop :=
  exists cells, NoDup cells /\ (forall d, In d cells <-> part r0 r nx ny c d) /\ Forall2 (fun d p => at_cell r0 nx d (fst p) /\ at_cell r1 nx d (snd p)) cells l.
(** Normalised difference of the variances of two lists of equal length: the divisor of the variance cancels. *)
Definition contrast (l : list (R * R)) : R :=
  let x := dev 2 (map fst l) in let y := dev 2 (map snd l) in ((x - y) / (x + y))%R.
(** The index of a cell. *)
Definition index_is (r0 r1 : list R) (nx ny : Z) (c : Z * Z) (v : idx) : Prop :=
  (at_cell r0 nx c 0%R /\ v = Nodata) \/
  (exists x l, at_cell r0 nx c x /\ x <> 0%R /\ pairs_around r0 r1 3 nx ny c l /\
     (zlen l <= 2 /\ v = Nodata \/
      3 <= zlen l /\ (dev 2 (map fst l) + dev 2 (map snd l) = 0)%R /\ v = Nan \/
      3 <= zlen l /\ (dev 2 (map fst l) + dev 2 (map snd l) <> 0)%R /\ v = Val (rnd32 (contrast l)))).
(** Smallest probability around a cell with a ratio, 0 elsewhere. *)
Definition least_is (r0 var2 : list R) (nx ny : Z) (c : Z * Z) (v : R) : Prop :=
  (at_cell r0 nx c 0%R /\ v = 0%R) \/
  ((exists x, at_cell r0 nx c x /\ x <> 0%R) /\ (exists d, part r0 7 nx ny c d /\ at_cell var2 nx d v) /\
   forall d w, part r0 7 nx ny c d -> at_cell var2 nx d w -> (v <= w)%R).
(** A first cloud: clearly displaced, or displaced and likely by colour; and no cell next to it has no index or
    is neither clearly displaced nor likely. *)
Definition first_cloud (nx ny : Z) (index : Z * Z -> idx -> Prop) (likely : Z * Z -> R -> Prop) (c : Z * Z) : Prop :=
  (exists x v, index c (Val x) /\ likely c v /\ (x <= - (1 / 2) \/ x < 0 /\ rnd64 (8 / 10) < v)%R) /\
  forall d, close 1 nx ny c d -> ~ index d Nodata /\ forall x v, index d (Val x) -> likely d v -> (x <= - (1 / 2) \/ rnd64 (8 / 10) <= v)%R.
(** Cells that become clouds: first clouds, and cells next to them, one after the other, with an index below -0.25. *)
Inductive grown (nx ny : Z) (index : Z * Z -> idx -> Prop) (likely : Z * Z -> R -> Prop) : Z * Z -> Prop :=
| grown_first c : in_image nx ny c -> first_cloud nx ny index likely c -> grown nx ny index likely c
| grown_next c d x : grown nx ny index likely c -> close 1 nx ny c d -> d <> c -> index d (Val x) -> (x < - (1 / 4))%R -> grown nx ny index likely d.
