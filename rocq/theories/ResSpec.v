(** What is asked of the sharpening of the 20 m bands of Sentinel-2. *)
From Coq Require Import Reals.
From Flocq Require Import Core.
From Verif Require Import Base StatsSpec ImpSpec.
#[local] Open Scope R_scope.

(** Mean absolute difference of two pixels in the 10 m bands, as reflectance. *)
Definition unlike (fine : list (Z -> Z)) (p q : Z) : R := mean (map (fun b => Rabs (IZR (b p) - IZR (b q)) / 10000) fine).
(** Limits of similarity in the order in which they are tried. *)
Definition limits2 : list R := [0.0025; 0.005; 0.01; 0.02; 0.025].
(** The first limit below which there are three pixels, else the last one. *)
Definition chosen2 (D : Z -> R) (P : Z -> Prop) (lim : R) : Prop :=
  exists before after, limits2 = before ++ lim :: after /\
    (forall l, In l before -> forall n, has_size (fun q => P q /\ D q < l) n -> (n < 3)%Z) /\
    (after = [] \/ exists n, has_size (fun q => P q /\ D q < lim) n /\ (3 <= n)%Z).
(** Weights: at most 1, which is that of pixels without any difference, and the smaller the more unlike. *)
Definition fair (D : Z -> R) (qs : list Z) (w : Z -> R) : Prop :=
  (forall q, In q qs -> 0 < w q <= 1) /\ (forall q, In q qs -> D q = 0 -> w q = 1) /\ (forall q q', In q qs -> In q' qs -> D q <= D q' -> w q' <= w q).
(** A mean with positive weights that add up to 1 of a list of numbers. *)
Definition convex (v : R) (l : list R) : Prop := exists ws, length ws = length l /\ Forall (fun w => 0 < w) ws /\ sum (fun w => w) ws = 1 /\ v = sum (fun wx => fst wx * snd wx) (combine ws l).
