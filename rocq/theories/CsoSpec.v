(** Windows, observations and gaps. *)
From Coq Require Import Sorting.Sorted.
From Verif Require Import Base AggModel AggSpec.
#[local] Open Scope Z_scope.

(** Days since year 0 of the first day of the i-th month (365-day years). *)
Definition month_start (i : Z) : Z :=
  365 * (i / 12) + nth (Z.to_nat (i mod 12)) [0; 31; 59; 90; 120; 151; 181; 212; 243; 273; 304; 334] 0 + 1.

(** Dates of the clear observations of a pixel in [lo, hi). *)
Definition clear_dates (ces : list Z) (msk : list bool) (lo hi : Z) : list Z :=
  map fst (filter (fun o => snd o && (lo <=? fst o) && (fst o <? hi)) (combine ces msk)).

(** Gaps between the borders and the observations; observations on the same day
    and on the left border leave no gap. *)
Fixpoint gaps (lo : Z) (ds : list Z) (hi : Z) : list Z :=
  match ds with
  | [] => if lo <? hi then [hi - lo] else []
  | d :: t => if lo <? d then (d - lo) :: gaps d t hi else gaps lo t hi
  end.
Definition total (l : list Z) : Z := fold_right Z.add 0 l.

(** Consecutive pairs of borders. *)
Definition windows (bs : list Z) : list (Z * Z) := combine bs (tl bs).

(** NUM is the number of clear observations, everything else describes the gaps. *)
Definition cso_described (ces : list Z) (msk : list bool) (w : Z * Z) (m : metric) (v : Z) : Prop :=
  let ds := clear_dates ces msk (fst w) (snd w) in
  match m with
  | NUM => v = zlen ds
  | _ => described true (gaps (fst w) ds (snd w)) m v
  end.
Definition simple (m : metric) : Prop := match m with NUM | MIN | MAX | RNG | AVG => True | _ => False end.
