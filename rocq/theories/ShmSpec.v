(** What is asked of the matching of cloud shadows. *)
From Coq Require Import Reals.
From Verif Require Import Base RoundModel ShmModel.
#[local] Open Scope R_scope.

(** Angles of a direction given by zenith and azimuth (clockwise from north). *)
Definition direction (zen azi : R) : ang := {| tz := tan zen; sa := sin azi; ca := cos azi |}.
(** The point on the ground on the line through the point (east, north, height) towards direction [a] (to the sensor, to the sun): 
    where the sensor sees the point, where its shadow falls. *)
Definition ground (E N h : R) (a : ang) : R * R := (E - h * tz a * sa a, N - h * tz a * ca a).
(** Centre of pixel (x, y) on the ground; north is up. *)
Definition centre (r : R) (x y : Z) : R * R := (r * IZR x, - (r * IZR y)).
Definition within (r d : R) (c q : R * R) : Prop := Rabs (fst c - fst q) <= d * r /\ Rabs (snd c - snd q) <= d * r.
Definition strictly (r : R) (c q : R * R) : Prop := Rabs (fst c - fst q) < r / 2 /\ Rabs (snd c - snd q) < r / 2.
(** Images with a resolution and a size. *)
Definition sane (sc : scene) : Prop := 0 < res sc /\ (0 <= nx sc <= 2147483647)%Z /\ (0 <= ny sc <= 2147483647)%Z.
(** Something in height [h] that is seen in pixel (x, y) casts its shadow on pixel [p] of the image. *)
Definition pixel (sc : scene) (p px py : Z) : Prop := (0 <= px < nx sc)%Z /\ (0 <= py < ny sc)%Z /\ p = (nx sc * py + px)%Z.
Definition casts (sc : scene) (h : R) (x y p : Z) : Prop :=
  exists E N px py, ground E N h (view sc y x) = centre (res sc) x y /\ pixel sc p px py /\ within (res sc) (1 / 2) (centre (res sc) px py) (ground E N h (sun sc y x)).
(** The same, and not on the edge between two pixels. *)
Definition casts_inside (sc : scene) (h : R) (x y p : Z) : Prop :=
  exists E N px py, ground E N h (view sc y x) = centre (res sc) x y /\ pixel sc p px py /\ strictly (res sc) (centre (res sc) px py) (ground E N h (sun sc y x)).
(** Base heights that are tested from [base] on. *)
Inductive tested (step bmax : R) : R -> R -> Prop :=
| t_here base : base <= bmax -> tested step bmax base base
| t_next base b : base <= bmax -> tested step bmax (rnd32 (base + step)) b -> tested step bmax base b.
(** The cloud of a base height [b]: pixels with heights. *)
Definition part (c : cloud) (b : R) (h : R) (x y : Z) : Prop := exists t, In (x, y, t) (pix c) /\ h = above (basetemp c) t + b.
(** The pixels of the shadow of cloud [c] with base height [b] match the shadow probability with [m]. *)
Definition matches (sc : scene) (c : cloud) (b m : R) : Prop := exists P, project sc (lifted c b) = Ret P /\ match_of sc (id c) P = m.
Definition tested_of (step low high : R) (c : cloud) (b : R) : Prop := tested step (base_max high (basetemp c)) (base_min low (basetemp c)) b.
(** The whole shadow of [c] at base height [b] is drawn. *)
Definition whole (sc : scene) (c : cloud) (b : R) (d : list Z) : Prop := forall h x y p, part c b h x y -> casts_inside sc h x y p -> In p d.
