(** Radiative transfer and atmospheric correction: what the quantities mean. *)
From Coq Require Import Reals.
From Coquelicot Require Import Coquelicot.
From Verif Require Import Base QaiModel QaiSpec RadModel.
#[local] Open Scope R_scope.

(** Directions on the hemisphere and the cosine of the angle between them. *)
Definition unit_vec (zen azi : R) : R * R * R := (sin zen * cos azi, sin zen * sin azi, cos zen).
Definition dot (u v : R * R * R) : R := let '(a, b, c) := u in let '(d, e, f) := v in a * d + b * e + c * f.
Definition opposite (u : R * R * R) : R * R * R := let '(a, b, c) := u in (- a, - b, - c).
(** A phase function of the cosine of the scattering angle has mean 1 over the
    sphere: all scattered light goes somewhere. *)
Definition normalised (P : R -> R) : Prop := is_RInt P (-1) 1 2.
(** Cosine of a zenith angle of the sun or the sensor above the horizon. *)
Definition above (m : R) : Prop := 0 < m <= 1.
(** Spectral response and absorption of a band. *)
Definition band (bs : list (R * R)) : Prop := (forall b, In b bs -> 0 <= fst b /\ 0 <= snd b) /\ exists b, In b bs /\ 0 < fst b.

(** The reflectance of a uniform surface as seen through the atmosphere: path
    reflectance plus the surface reflectance with its multiple reflections. *)
Definition seen (at_ : atmosphere) (ref : R) : R := a_rho at_ + a_tg at_ * (a_T at_ * ref / (1 - a_s at_ * ref)).
(** The same for a target in a background, all absorbed by the gases. *)
Definition seen_target (at_ : atmosphere) (ref bck : R) : R :=
  a_tg at_ * (a_rho at_ + a_Ts at_ * (a_tvd at_ * ref + a_tvs at_ * bck) / (1 - bck * a_s at_)).
(** An atmosphere that lets light pass. *)
Record passing (at_ : atmosphere) : Prop := mkPassing {
  ps_T : 0 < a_T at_ <= 1; ps_Ts : 0 < a_Ts at_ <= 1; ps_tvd : 0 < a_tvd at_; ps_tvs : 0 <= a_tvs at_;
  ps_s : 0 <= a_s at_ < 1; ps_rho : 0 <= a_rho at_; ps_tg : 0 < a_tg at_ <= 1 }.

(** The topographic factor with the C factor of SWIR2 carried to the band by the
    ratio of diffuse to direct light. *)
Definition carried_factor (ms ill sky c f f_sw2 h0 : R) : R := (ms + c / f_sw2 * f / h0) / (ill + sky * c / f_sw2 * f / h0).

(** Cells of a coarse grid around a coordinate: their centre is at most (or less
    than) one cell away along each axis. *)
Definition around (lt : R -> R -> Prop) (x y : R) (nf ne r c : Z) : Prop :=
  (0 <= r < ne)%Z /\ (0 <= c < nf)%Z /\ lt (Rabs (IZR c + 0.5 - x)) 1 /\ lt (Rabs (IZR r + 0.5 - y)) 1.

(** How a reflectance is stored and what it does to the quality word: -9999 for
    erased clouds and for reflectance below -1 (which also switches the pixel off),
    the largest short when too bright, the truncated value otherwise. *)
Record stored_as (erase : bool) (r : R) (q v q' : Z) : Prop := mkStored {
  st_cloud : erase = true -> flag_value Cloud q = 2%Z -> v = (-9999)%Z;
  st_low : r < -1 -> v = (-9999)%Z;
  st_high : (erase = false \/ flag_value Cloud q <> 2%Z) -> 32767 < r * 10000 -> v = 32767%Z;
  st_value : (erase = false \/ flag_value Cloud q <> 2%Z) -> -1 <= r -> r * 10000 <= 32767 -> Rabs (r * 10000 - IZR v) < 1 /\ Rabs (IZR v) <= Rabs (r * 10000);
  st_subzero : flag_value Subzero q' = 1%Z <-> r < 0 \/ flag_value Subzero q = 1%Z;
  st_saturation : flag_value Saturation q' = 1%Z <-> 1 < r \/ flag_value Saturation q = 1%Z;
  st_off : flag_value Off q' = 1%Z <-> (r < -1 /\ (erase = false \/ flag_value Cloud q <> 2%Z)) \/ flag_value Off q = 1%Z;
  st_other : forall f, f <> Subzero -> f <> Saturation -> f <> Off -> flag_value f q' = flag_value f q }.
