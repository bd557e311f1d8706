(** Independent description of the reduction of the resolution by a whole number [k]. *)
From Coq Require Import Reals.
From Verif Require Import Base.
#[local] Open Scope Z_scope.

(** An image of nx * ny numbers of 16 bit. *)
Definition image16 (hr : list Z) (nx ny : Z) : Prop := zlen hr = nx * ny /\ Forall (fun v => -32768 <= v <= 32767) hr.
(** The image has a value in row [a], column [b]. *)
Definition value (hr : list Z) (nx ny nodata a b v : Z) : Prop :=
  0 <= a < ny /\ 0 <= b < nx /\ get_at hr (a * nx + b) = Some v /\ v <> nodata.
(** Pixels of cell (i,j), and pixels at most one cell width around it. *)
Definition of_cell (k i j a b : Z) : Prop := i * k <= a < i * k + k /\ j * k <= b < j * k + k.
Definition around_cell (k i j a b : Z) : Prop := i * k - k <= a < i * k + k + k /\ j * k - k <= b < j * k + k + k.
(** Numbers cut towards zero may lose one. *)
Definition cut_between (lo hi v : Z) : Prop := (if 0 <? lo then lo - 1 else lo) <= v <= (if hi <? 0 then hi + 1 else hi).
(** The number of rounds the search of the width may take. *)
Definition rounds (k : Z) : nat := Z.to_nat (100 * k).
(** A Gaussian of width [s] at distance [d], relative to its peak. *)
Definition bell (s d : R) : R := exp (- (d * d) / (s * s * 2)).
(** Squared distance of entry (i,j) from the centre of a kernel with [h] entries on each side. *)
Definition from_centre (h i j : Z) : Z := (i - h) * (i - h) + (j - h) * (j - h).
