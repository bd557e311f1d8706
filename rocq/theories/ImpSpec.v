(** Specification of the ImproPhe prediction, of seasonal averages and of the focal filter. *)
From Coq Require Import Reals Sorting.Sorted.
From Flocq Require Import Core.
From Verif Require Import Base StatsSpec.
#[local] Open Scope R_scope.

(** ** Prediction *)
(** The value of an image at pixel [q]. *)
Definition rval (img : list R) (q : Z) : R := nth (Z.to_nat q) img 0.
Definition zval (img : list Z) (q : Z) : Z := nth (Z.to_nat q) img 0%Z.
(** Mean absolute difference of two pixels over the bands of the fine image. *)
Definition difference (hr : list (list R)) (p q : Z) : R := mean (map (fun b => Rabs (rval b p - rval b q)) hr).
(** Pixel [q] of an image of nx columns and ny rows lies within the circle of radius [h] around (i, j). *)
Definition in_circle (nx ny h i j q : Z) : Prop :=
  (0 <= q < nx * ny)%Z /\ ((q / nx - i) * (q / nx - i) + (q mod nx - j) * (q mod nx - j) <= h * h)%Z.
(** It has a value in the first band of the fine image and in all bands of the coarse image. *)
Definition has_fine (hr : list (list R)) (nodata : R) (q : Z) : Prop := exists b, hd_error hr = Some b /\ rval b q <> nodata.
Definition has_coarse (mr : list (list Z)) (nodata q : Z) : Prop := forall b, In b mr -> zval b q <> nodata.
(** Candidates: in the circle, with values, and less than 0.4 different. *)
Definition usable_at nx ny hr nohr mr nomr h i j q : Prop :=
  in_circle nx ny h i j q /\ has_fine hr nohr q /\ has_coarse mr nomr q.
(** The limits of difference, in the order in which they are tried. *)
Definition limits : list R := [0.025; 0.05; 0.1; 0.2; 0.4].
(** A set has [n] elements. *)
Definition has_size (P : Z -> Prop) (n : Z) : Prop := exists l, NoDup l /\ (forall q, In q l <-> P q) /\ zlen l = n.
(** The first limit below which there are at least [mink] elements, else the last one. *)
Definition chosen (D : Z -> R) (P : Z -> Prop) (mink : Z) (lim : R) : Prop :=
  exists before after, limits = before ++ lim :: after /\
    (forall l, In l before -> forall n, has_size (fun q => P q /\ D q < l) n -> (n < mink)%Z) /\
    (after = [] \/ exists n, has_size (fun q => P q /\ D q < lim) n /\ (mink <= n)%Z).
(** Weighted mean. *)
Definition weighted_mean (w : Z -> R) (x : Z -> R) (qs : list Z) : R := sum (fun q => w q * x q) qs / sum w qs.
(** Measures of dissimilarity are stretched: 1 for 0, else from 1 + e^-7.5 for the smallest to 1 + e^17.5 for
    the largest positive value in the set. *)
Definition rescaled (f : Z -> R) (qs : list Z) (q : Z) (r : R) : Prop :=
  (f q = 0 -> r = 1) /\
  (0 < f q -> exists q1 q2, In q1 qs /\ In q2 qs /\ 0 < f q1 /\ (forall q', In q' qs -> 0 < f q' -> f q1 <= f q' <= f q2) /\
    (f q1 = f q2 -> r = 1) /\ (f q1 < f q2 -> r = 1 + exp (25 * ((f q - f q1) / (f q2 - f q1)) - 7.5))).
(** The weights of a set of pixels, from spectral difference and the texture of the fine and coarse image. *)
Definition weights (S T U : Z -> R) (qs : list Z) (w : Z -> R) : Prop :=
  forall q, In q qs -> exists a b c, rescaled S qs q a /\ rescaled T qs q b /\ rescaled U qs q c /\ w q = 1 / (a * b * c).

(** ** Seasonal averages *)
(** Day [doy] is in the season from day [a] to the day before [c], which may cross the turn of the year. *)
Definition in_season (a c doy : Z) : Prop := ((a < c /\ a <= doy < c) \/ (c < a /\ ((a <= doy /\ doy <= 365) \/ doy < c)))%Z.
(** The season with number [w] of the breakpoints. *)
Definition nth_season (dwin : list Z) (w doy : Z) : Prop := exists a c, get_at dwin w = Some a /\ get_at dwin (w + 1) = Some c /\ in_season a c doy.
(** An observation counts for the first season it is in. *)
Definition counts_for (dwin : list Z) (w doy : Z) : Prop := nth_season dwin w doy /\ forall v, (0 <= v < w)%Z -> ~ nth_season dwin v doy.
Definition ascending (dwin : list Z) : Prop := StronglySorted Z.lt dwin.
(** Mean, fraction dropped. *)
Definition whole_mean (l : list Z) (v : Z) : Prop := l <> [] /\ v = Ztrunc (mean (map IZR l)).

(** The elements of a list for which [P] holds, in order. *)
Definition selected {A} (P : A -> Prop) (l l' : list A) : Prop := exists f, (forall a, In a l -> (f a = true <-> P a)) /\ l' = filter f l.

(** ** Standard deviation *)
Definition sample_sd (l : list R) : R := sqrt (dev 2 l / (size l - 1)).
(** The values other than nodata in the square of radius [h] around (i, j): any order. *)
Definition square_values (nodata : R) (nx ny h i j : Z) (band : list R) (vs : list R) : Prop :=
  exists qs, NoDup qs /\
    (forall q, In q qs <-> (0 <= q < nx * ny)%Z /\ (Z.abs (q / nx - i) <= h)%Z /\ (Z.abs (q mod nx - j) <= h)%Z /\ rval band q <> nodata) /\
    vs = map (rval band) qs.
