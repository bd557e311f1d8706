(** What interpolation is supposed to compute, by positions in the series. *)
From Verif Require Import Base.

Section S.
Context (nodata : Z) (s : list (Z * Z)).

(** Observation [t] is clear, taken on day [c], with value [y]. *)
Definition clear (t c y : Z) : Prop := get_at s t = Some (c, y) /\ y <> nodata.

Definition sorted_days : Prop := forall t t' c y c' y',
  get_at s t = Some (c, y) -> get_at s t' = Some (c', y') -> t <= t' -> c <= c'.
Definition days_ok : Prop := forall t c y, get_at s t = Some (c, y) -> 0 <= c <= 2 ^ 24 /\ in_short y.

(** Nearest clear observations before, on and after day [x]. *)
Definition last_before (x t c y : Z) : Prop := clear t c y /\ c < x /\
  forall t' c' y', clear t' c' y' -> c' < x -> t' <= t.
Definition first_after (x t c y : Z) : Prop := clear t c y /\ x < c /\
  forall t' c' y', clear t' c' y' -> x < c' -> t <= t'.
Definition first_on (x t y : Z) : Prop := clear t x y /\
  forall t' y', clear t' x y' -> t <= t'.

Inductive interpolated (x : Z) : Z -> Prop :=
| On t y : first_on x t y -> interpolated x y
| Nothing : (forall t c y, ~ clear t c y) -> interpolated x nodata
| Before t c y : first_after x t c y -> (forall t' c' y', clear t' c' y' -> x < c') -> interpolated x y
| After t c y : last_before x t c y -> (forall t' c' y', clear t' c' y' -> c' < x) -> interpolated x y
| Between tl cl yl tr cr yr : last_before x tl cl yl -> first_after x tr cr yr ->
    (forall t y, ~ clear t x y) ->
    interpolated x (Z.quot (yl * (cr - x) + yr * (x - cl)) (cr - cl)).

(** No pair of neighbouring clear observations is so far apart that the blend
    exceeds 24 bits. *)
Definition gaps_ok : Prop := forall tl cl yl tr cr yr, clear tl cl yl -> clear tr cr yr -> tl < tr ->
  (forall t c y, clear t c y -> t <= tl \/ tr <= t) ->
  Z.max (Z.abs yl) (Z.abs yr) * (cr - cl) < 2 ^ 24.

End S.

(** Values of the clear observations within [w] days of [x], in order. *)
Definition in_window (nodata w x : Z) (s : list (Z * Z)) : list Z :=
  map snd (filter (fun o => negb (snd o =? nodata) && (Z.abs (fst o - x) <=? w)) s).
Definition total (l : list Z) : Z := fold_right Z.add 0 l.
Definition moving_value (nodata w x : Z) (s : list (Z * Z)) : Z :=
  match in_window nodata w x s with
  | [] => nodata
  | l => Z.quot (total l) (zlen l)
  end.

(** Series of reflectances; neighbouring clear observations are less than five years apart. *)
Definition reflectances (nodata : Z) (s : list (Z * Z)) : Prop := forall t c y, clear nodata s t c y -> -10000 <= y <= 10000.
Definition dense (nodata : Z) (s : list (Z * Z)) : Prop := forall tl cl yl tr cr yr,
  clear nodata s tl cl yl -> clear nodata s tr cr yr -> tl < tr ->
  (forall t c y, clear nodata s t c y -> t <= tl \/ tr <= t) -> cr - cl <= 1677.
