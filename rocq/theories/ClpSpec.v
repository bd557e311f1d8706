(** What is asked of the cloud mask. *)
From Coq Require Import Reals Sorted Permutation.
From Verif Require Import Base RoundModel ClpModel.
#[local] Open Scope Z_scope.

(** Values as they are stored: temperature in 0.01 K, reflectance and probability scaled by ten thousand, in 16 bits. *)
Definition stored (p : px) : Prop := in_short (x_temp p) /\ in_short (x_sw1 p) /\ in_short (x_sw2 p) /\ 0 <= x_var p <= 32767.
(** Value [q] at the fraction [f] of the sorted values, interpolated. *)
Definition is_quantile (l : list R) (f q : R) : Prop := exists s i a b,
  Permutation l s /\ StronglySorted Rle s /\ (IZR i <= f * IZR (zlen l - 1) < IZR (i + 1))%R /\
  get_at s i = Some a /\ get_at s (Z.min (i + 1) (zlen l - 1)) = Some b /\ q = (a + (f * IZR (zlen l - 1) - IZR i) * (b - a))%R.
(** The pixels whose temperatures tell what is clear: those of clear land, or all clear ones if that is less than a thousandth. *)
Definition reference (npix : Z) (img : list px) (p : px) : Prop := In p img /\ (if 1000 * zlen (filter x_lnd img) <? npix then x_clr p else x_lnd p) = true.
(** Probability of cloud over land: how cold against the span of clear land widened by 4 K on both sides, times the probability by colour.
    Temperatures in 0.01 K. *)
Definition land_chance (l h : R) (p : px) : R := (Rmax 0 ((h + 400 - IZR (x_temp p)) / (h + 400 - (l - 400))) * (IZR (x_var p) / 10000))%R.
(** Probability over water: how much colder than the warm clear water in units of 4 K, times brightness up to a reflectance of 0.11. *)
Definition water_chance (w : R) (p : px) : R := ((w - IZR (x_temp p)) / 400 * Rmin 1 (IZR (x_sw1 p) / 1100))%R.
