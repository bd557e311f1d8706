(** What the cloud module should do, in terms of reflectances, distances and flags. *)
From Coq Require Import Reals.
From Flocq Require Import Core.
From Verif Require Import Base ImgSpec DistSpec QaiModel QaiSpec RecoSpec CldModel.
#[local] Open Scope Z_scope.

(** ** Flags of one pixel *)
Definition valid (w : Z) : Prop := flag_value Off w = 0.
(** Counted as cloud or shadow. *)
Definition cloudy (w : Z) : bool := (flag_value Off w =? 0) && ((0 <? flag_value Cloud w) || (flag_value Shadow w =? 1)).
(** Cloud, shadow or snow. *)
Definition affected (w : Z) : Prop := 0 < flag_value Cloud w \/ flag_value Shadow w = 1 \/ flag_value Snow w = 1.

(** ** Buffers *)
(** [r] whole pixels fit into the buffer distance (and one more does not, not even nearly). *)
Definition pixels (buf res : R) (r : Z) : Prop :=
  0 <= r <= 100000 /\ (IZR r <= buf / res <= IZR r + 1 - / 1000000)%R.
(** At least r pixels away from the image border. *)
Definition inner (nx ny r i j : Z) : Prop := r <= i < ny - r /\ r <= j < nx - r.
(** Within r pixels of a pixel with property P that is not near the image border. *)
Definition surely (P : Z -> Z -> Prop) (nx ny r y x : Z) : Prop :=
  exists i j, inner nx ny r i j /\ P i j /\ dist2 y x i j <= r * r.
(** Less than r + 1 pixels away from a pixel with property P. *)
Definition possibly (P : Z -> Z -> Prop) (r y x : Z) : Prop :=
  exists i j, P i j /\ dist2 y x i j < (r + 1) * (r + 1).

(** ** Cirrus: reflectance above 1% and above 0.7% + 0.7% per squared km of elevation *)
Definition cirrus_above (qai : list Z) (cirrus : list (Z * R)) (nx ny : Z) (margin : R) (y x : Z) : Prop :=
  inside nx ny y x /\ exists w v z, pix qai nx y x = Some w /\ pix cirrus nx y x = Some (v, z) /\
    valid w /\ flag_value Snow w = 0 /\ 100 < v /\ (70 + 70 * (z * z) + margin < IZR v)%R.

(** ** Tests of single pixels, with exact ratios *)
Definition exact_ratio (a b : Z) : R := (IZR (a - b) / IZR (a + b))%R.
Definition water_spec (nir red slope : Z) : Prop :=
  ((exact_ratio nir red < 1 / 100)%R /\ nir < 1100 \/ (0 < exact_ratio nir red < 1 / 10)%R /\ nir < 500) /\ slope < 870.
Definition snow_spec (green sw1 sw2 nir : Z) (temp : option Z) : Prop :=
  nir > 1100 /\ green > 1000 /\
  ((exists t, temp = Some t /\ t < 28300 /\ (15 / 100 < exact_ratio green sw1)%R) \/
   ((4 / 10 < exact_ratio green sw1)%R /\ sw2 < 1100)).

(** ** Region growing *)
(** (y, x) is a cloud pixel, or linked to one by a chain of 8-neighbours that are all candidates. *)
Inductive linked (clouds cand : list bool) (nx ny : Z) : Z -> Z -> Prop :=
| linked_seed y x : is_true clouds nx ny y x -> linked clouds cand nx ny y x
| linked_step y x y' x' : linked clouds cand nx ny y x -> adjacent y x y' x' -> is_true cand nx ny y' x' -> linked clouds cand nx ny y' x'.

(** ** Shadow probability *)
(** The picture that is flooded: the band, with the background at the image border, outside
    of the data and far from clouds. *)
Definition filled (band qai : list Z) (far : list bool) (bck nx ny : Z) (mask : list Z) : Prop :=
  image mask nx ny /\ forall y x v w f, inside nx ny y x -> pix band nx y x = Some v -> pix qai nx y x = Some w -> pix far nx y x = Some f ->
    (on_border nx ny y x \/ ~ valid w \/ f = true -> pix mask nx y x = Some bck) /\
    (~ on_border nx ny y x -> valid w -> f = false -> pix mask nx y x = Some v).

(** ** Distance to clouds, shadows and snow *)
Definition marked (qai : list Z) (nx ny y x : Z) : Prop := inside nx ny y x /\ exists w, pix qai nx y x = Some w /\ affected w.
Definition nearest_marked (qai : list Z) (nx ny y x d : Z) : Prop :=
  (exists i j, marked qai nx ny i j /\ d = dist2 y x i j) /\ forall i j, marked qai nx ny i j -> d <= dist2 y x i j.
