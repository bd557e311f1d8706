(** What is asked of harmonic models. *)
From Verif Require Import Base HarmModel.
From Flocq Require Import Core.
From Coq Require Import Reals.
#[local] Open Scope Z_scope.

(** Clear observations in the period of the fit. *)
Definition fitted (lo hi nodata : Z) (obs : list (Z * Z)) (o : Z * Z) : Prop := In o obs /\ lo <= fst o <= hi /\ snd o <> nodata.
(** A harmonic curve: offset, trend, and a cosine and a sine for each mode. *)
Definition harmonics (modes : Z) (trend : bool) (f : Z -> R) : Prop :=
  exists a b c1 s1 c2 s2 c3 s3 : R,
    (trend = false -> b = 0%R) /\ (modes < 2 -> c2 = 0%R /\ s2 = 0%R) /\ (modes < 3 -> c3 = 0%R /\ s3 = 0%R) /\
    forall d, let w := (2 * PI * (IZR d / 365))%R in
      f d = (a + b * IZR d + (c1 * cos w + s1 * sin w) + (c2 * cos (2 * w) + s2 * sin (2 * w)) + (c3 * cos (3 * w) + s3 * sin (3 * w)))%R.
(** Images after the period of the fit. *)
Definition later (hi : Z) (obs : list (Z * Z)) : list (Z * Z) := filter (fun o => hi <? fst o) obs.
(** A value stored as short: the whole part, which must fit. *)
Definition stored (r : R) (v : Z) : Prop := v = Ztrunc r /\ -32768 <= v <= 32767.
(** A residual: observed minus predicted, or nodata without observation. *)
Definition residual_of (f : Z -> R) (nodata : Z) (o : Z * Z) (v : Z) : Prop :=
  (snd o = nodata -> v = nodata) /\ (snd o <> nodata -> stored (IZR (snd o) - f (fst o)) v).
(** The clear observations from [lo] to [hi]. *)
Definition clear_between (lo hi nodata : Z) (obs : list (Z * Z)) : list (Z * Z) :=
  filter (fun o => (lo <=? fst o) && (fst o <=? hi) && negb (snd o =? nodata)) obs.
