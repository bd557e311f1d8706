(** Specification of the masks and the calibration of Level 1 images. *)
From Coq Require Import Reals.
From Verif Require Import Base StatsSpec QaiModel QaiSpec.
#[local] Open Scope Z_scope.

(** The value of band [b] at pixel [p]. *)
Definition dn_at (bands : list (list Z)) (b p v : Z) : Prop := exists d, get_at bands b = Some d /\ get_at d p = Some v.
(** An image of [nx] times [ny] digital numbers. *)
Definition level1 (bands : list (list Z)) (nx ny : Z) : Prop :=
  0 < nx /\ 0 < ny /\ nx * ny <= 2147483647 /\ forall d, In d bands -> zlen d = nx * ny /\ forall v, In v d -> 0 <= v <= 65535.

(** Void: zero in a band other than cirrus.  Saturated: at the maximum in a band other than
    the thermal one. *)
Definition void_in (bands : list (list Z)) (bcir b p : Z) : Prop := b <> bcir /\ dn_at bands b p 0.
Definition sat_in (bands : list (list Z)) (btemp sat b p : Z) : Prop := b <> btemp /\ exists v, dn_at bands b p v /\ sat <= v.
Definition void (bands : list (list Z)) (bcir p : Z) : Prop := exists b, void_in bands bcir b p.
Definition saturated (bands : list (list Z)) (btemp sat p : Z) : Prop := exists b, sat_in bands btemp sat b p.

(** Quality words as seen by a screening pass that runs in reading order over the image and
    works in place: the pixels before [p] are final, the others are as before. *)
Definition seen (before after : list Z) (p q : Z) : option Z := if q <? p then get_at after q else get_at before q.
Definition nodata_word (w : Z) : Prop := flag_value Off w = 1.

(** The valid pixels of the 3 x 3 window around row i, column j. *)
Definition in_window (nx i j q : Z) : Prop := exists a b, -1 <= a <= 1 /\ -1 <= b <= 1 /\ q = nx * (i + a) + (j + b).
Definition window_values (view : Z -> option Z) (nx i j : Z) (band : list Z) (l : list R) : Prop :=
  exists qs, NoDup qs /\ (forall q, In q qs <-> in_window nx i j q /\ exists w, view q = Some w /\ ~ nodata_word w) /\
    Forall2 (fun q x => exists v, get_at band q = Some v /\ x = IZR v) qs l.
(** Sample standard deviation (0 for a single value). *)
Definition spread (l : list R) : R := sqrt (dev 2 l / (size l - 1)).
(** The largest of three numbers exceeds the second largest by more than [t]. *)
Definition stands_out (t a b c : R) : Prop :=
  (a > b + t /\ a > c + t \/ b > a + t /\ b > c + t \/ c > a + t /\ c > b + t)%R.
