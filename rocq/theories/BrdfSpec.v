(** What is asked of the BRDF correction. *)
From Coq Require Import Reals.
From Verif Require Import Base CStr.
#[local] Open Scope R_scope.

(** Angles from the zenith above the horizon, and not too low: the secants add up to at most 5 (sun zenith of 75 degrees at nadir view). *)
Definition upper (t : R) : Prop := 0 <= t < PI / 2.
Definition high (ti tv : R) : Prop := upper ti /\ upper tv /\ 1 / cos ti + 1 / cos tv <= 5.
(** Bands with parameters. *)
Definition known : list (list Z) := [`"BLUE"; `"GREEN"; `"RED"; `"REDEDGE1"; `"REDEDGE2"; `"REDEDGE3"; `"BROADNIR"; `"NIR"; `"SWIR1"; `"SWIR2"].
(** Band [b] is the first of its name. *)
Definition first_of (names : list (list Z)) (b : nat) (n : list Z) : Prop := nth_error names b = Some n /\ forall a, (a < b)%nat -> nth_error names a <> Some n.

(** The published parameters of the kernels, times ten thousand: isotropic, volume scattering, geometric; the two near infrared bands share one row. *)
Inductive published : list Z -> Z -> Z -> Z -> Prop :=
| pub_blue : published (`"BLUE") 774 372 79
| pub_green : published (`"GREEN") 1306 580 178
| pub_red : published (`"RED") 1690 574 227
| pub_re1 : published (`"REDEDGE1") 2085 845 256
| pub_re2 : published (`"REDEDGE2") 2316 1003 273
| pub_re3 : published (`"REDEDGE3") 2599 1197 294
| pub_nir n : n = `"NIR" \/ n = `"BROADNIR" -> published n 3093 1535 330
| pub_swir1 : published (`"SWIR1") 3430 1154 453
| pub_swir2 : published (`"SWIR2") 2658 639 387.
