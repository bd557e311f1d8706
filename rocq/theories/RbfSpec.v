(** RBF interpolation, stated without arrays: weighted means of the
    observations within reach of each kernel. *)
From Coq Require Import Reals.
From Flocq Require Import Core.
From Verif Require Import Base.
#[local] Open Scope Z_scope.

Definition gauss (sigma d : Z) : R :=
  (1 / (sqrt (2 * PI) * IZR sigma) * exp (- (1 / 2) * IZR d * IZR d / (IZR sigma * IZR sigma)))%R.

(** Sum of the weights of days 0..n-1 on one side. *)
Fixpoint side (sigma : Z) (n : nat) : R :=
  match n with O => 0%R | S m => (side sigma m + gauss sigma (Z.of_nat m))%R end.

(** [d] is the farthest day of at most [h] whose one-sided weight sum stays
    below half the cutoff. *)
Definition reaches (sigma : Z) (cutoff : R) (h d : Z) : Prop :=
  0 <= d <= h /\ (side sigma (Z.to_nat (d + 1)) <= cutoff / 2)%R /\
  forall d', 0 <= d' <= h -> (side sigma (Z.to_nat (d' + 1)) <= cutoff / 2)%R -> d' <= d.

(** Observations used by a kernel of reach [d] on day [x]. *)
Definition used (nodata d x : Z) (s : list (Z * Z)) : list (Z * Z) :=
  filter (fun o => negb (snd o =? nodata) && (Z.abs (fst o - x) <=? d)) s.
Definition Rsum (l : list R) : R := fold_right Rplus 0%R l.

(** Numerator and denominator of the ensemble: each kernel (sigma, reach)
    weighs its observations relative to its full weight. *)
Definition full (k : Z * Z) : R := (side (fst k) (Z.to_nat (snd k + 1)) * 2)%R.
Definition numer (nodata x : Z) (s : list (Z * Z)) (ks : list (Z * Z)) : R :=
  Rsum (map (fun k => Rsum (map (fun o => IZR (snd o) * gauss (fst k) (fst o - x))%R (used nodata (snd k) x s)) / full k)%R ks).
Definition denom (nodata x : Z) (s : list (Z * Z)) (ks : list (Z * Z)) : R :=
  Rsum (map (fun k => Rsum (map (fun o => gauss (fst k) (fst o - x)) (used nodata (snd k) x s)) / full k)%R ks).

Definition any_used (nodata x : Z) (s : list (Z * Z)) (ks : list (Z * Z)) (o : Z * Z) : Prop :=
  exists k, In k ks /\ In o (used nodata (snd k) x s).

(** Value of day [x]. *)
Definition rbf_result (nodata : Z) (s : list (Z * Z)) (ks : list (Z * Z)) (x v : Z) : Prop :=
  ((forall o, ~ any_used nodata x s ks o) /\ v = nodata) \/
  ((exists o, any_used nodata x s ks o) /\ v = Ztrunc (numer nodata x s ks / denom nodata x s ks)%R).
