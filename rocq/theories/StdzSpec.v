(** Centring and normalising, by textbook mean and standard deviation. *)
From Coq Require Import Reals.
From Flocq Require Import Core.
From Verif Require Import Base StatsSpec AggSpec StdzModel.
#[local] Open Scope Z_scope.

Definition clip (x : R) : R := Rmax (-32768) (Rmin 32767 x).
Definition sample_sd (l : list R) : R := sqrt (dev 2 l / (size l - 1)).
(** The new value of [v] when the valid values are [vs]. *)
Definition standardized (m : std_method) (vs : list Z) (v : Z) : Z :=
  match m with
  | STD_NONE => v
  | STD_CENTER => Ztrunc (clip (IZR v - mean (reals vs)))
  | STD_NORMAL => Ztrunc (clip ((IZR v - mean (reals vs)) / sample_sd (reals vs) * 10000))
  end.
