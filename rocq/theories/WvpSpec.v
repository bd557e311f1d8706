(** What is asked of the water vapour tables. *)
From Coq Require Import Reals.
From Verif Require Import Base CStr Loops StatsSpec WvpModel.
#[local] Open Scope Z_scope.

(** ** Averages *)
(** The pixels of a granule that have a location. *)
Definition is_pixel (g : granule) (p : Z * Z) : Prop := g_xoff g <= fst p < g_nx g /\ g_yoff g <= snd p < g_ny g.
(** Locations are known for blocks of five by five pixels; those of a pixel are those of its block. *)
Definition at_block {A} (g : granule) (l : list A) (p : Z * Z) : option A :=
  let cx := (fst p - g_xoff g) / 5 in let cy := (snd p - g_yoff g) / 5 in
  if (cx <? g_nxc g) && (cy <? g_nyc g) then get_at l (g_nxc g * cy + cx) else None.
Definition at_pixel {A} (g : granule) (l : list A) (p : Z * Z) : option A := get_at l (g_nx g * snd p + fst p).
(** Pixels in the box; clear ones with a value: bits 2 and 4 of the cloud state. *)
Definition in_box (b : box) (lon lat : R) : Prop := (b_w b <= lon <= b_e b /\ b_s b <= lat <= b_n b)%R.
Definition framed (g : granule) (b : box) (p : Z * Z) : Prop := exists lon lat, at_block g (g_lon g) p = Some lon /\ at_block g (g_lat g) p = Some lat /\ in_box b lon lat.
Definition value (g : granule) (p : Z * Z) (v : R) : Prop :=
  exists pw cld, at_pixel g (g_pw g) p = Some pw /\ at_pixel g (g_cld g) p = Some cld /\ pw <> g_fill g /\ Z.testbit cld 2 = true /\ Z.testbit cld 4 = true /\ v = (g_scl g * (IZR pw - g_off g))%R.
(** [ps]: every pixel of the granules in the box, once; [vs]: the values of those that have one. *)
Definition all_framed (gs : list granule) (b : box) (ps : list (granule * (Z * Z))) : Prop :=
  exists ll, ps = concat ll /\ Forall2 (fun g l => map fst l = map (fun _ => g) l /\ NoDup l /\ forall p, In (g, p) l <-> is_pixel g p /\ framed g b p) gs ll.
Inductive values : list (granule * (Z * Z)) -> list R -> Prop :=
| vs_nil : values [] []
| vs_one g p v ps vs : value g p v -> values ps vs -> values ((g, p) :: ps) (v :: vs)
| vs_skip g p ps vs : ~ (exists v, value g p v) -> values ps vs -> values ((g, p) :: ps) vs.
(** The arrays have the sizes of the images, and every pixel has a block. *)
Definition sized (g : granule) : Prop :=
  0 <= g_nx g /\ 0 <= g_ny g /\ 0 <= g_nxc g /\ 0 <= g_nyc g /\ 0 <= g_xoff g /\ 0 <= g_yoff g /\ zlen (g_pw g) = g_nx g * g_ny g /\ zlen (g_cld g) = g_nx g * g_ny g /\
  zlen (g_lat g) = g_nxc g * g_nyc g /\ zlen (g_lon g) = g_nxc g * g_nyc g /\ Forall (fun c => 0 <= c <= 255) (g_cld g).
Definition fits (g : granule) : Prop := g_nx g - g_xoff g <= 5 * g_nxc g /\ g_ny g - g_yoff g <= 5 * g_nyc g.

(** ** The calendar *)
(** A day of the Gregorian calendar and its number, counted from 1 March of the year 0. *)
Definition leap (y : Z) : Prop := y mod 4 = 0 /\ (y mod 100 <> 0 \/ y mod 400 = 0).
Inductive is_day : Z * Z * Z -> Prop :=
| day_31 y m d : In m [1; 3; 5; 7; 8; 10; 12] -> 1 <= d <= 31 -> is_day (y, m, d)
| day_30 y m d : In m [4; 6; 9; 11] -> 1 <= d <= 30 -> is_day (y, m, d)
| day_28 y d : 1 <= d <= 28 -> is_day (y, 2, d)
| day_29 y : leap y -> is_day (y, 2, 29).
Definition number (t : Z * Z * Z) : Z :=
  let '(y, m, d) := t in let y' := if m <=? 2 then y - 1 else y in let mp := (m + 9) mod 12 in
  365 * y' + y' / 4 - y' / 100 + y' / 400 + (153 * mp + 2) / 5 + d.

(** ** The use of the tables *)
(** [v] is the value of the first of the nearest lines of the table closer than 1.5 degrees. *)
Definition nearest (cx cy : R) (lines : list (option (R * R * R))) (v : R) : Prop :=
  exists l1 x y l2, lines = l1 ++ Some (x, y, v) :: l2 /\ (dist cx cy x y < 3 / 2)%R /\
    (forall x' y' v', In (Some (x', y', v')) l1 -> dist cx cy x y < dist cx cy x' y')%R /\ (forall x' y' v', In (Some (x', y', v')) l2 -> dist cx cy x y <= dist cx cy x' y')%R.
Definition none_near (cx cy : R) (lines : list (option (R * R * R))) : Prop := forall x y v, In (Some (x, y, v)) lines -> (3 / 2 <= dist cx cy x y)%R.
Definition no_blank {A} (lines : list (option A)) : Prop := ~ In None lines.

(** The values of coordinate [c] on the days of month [m] that have a table with a value there. *)
Inductive month_values (m : Z) (c : nat) : list ((Z * Z * Z) * option (list (R * R * R))) -> list R -> Prop :=
| mv_nil : month_values m c [] []
| mv_take y d lut r x z v vs : nth_error lut c = Some (x, z, v) -> v <> 9999%R -> month_values m c r vs -> month_values m c (((y, m, d), Some lut) :: r) (v :: vs)
| mv_nodata y d lut r x z vs : nth_error lut c = Some (x, z, 9999%R) -> month_values m c r vs -> month_values m c (((y, m, d), Some lut) :: r) vs
| mv_other y m' d lut r vs : m' <> m -> month_values m c r vs -> month_values m c (((y, m', d), Some lut) :: r) vs
| mv_none t r vs : month_values m c r vs -> month_values m c ((t, None) :: r) vs.
(** The tables hold the coordinates of the list, to within 0.0001 degrees. *)
Definition matching (coo : list (R * R)) (lut : list (R * R * R)) : Prop :=
  (length coo <= length lut)%nat /\ forall c x y x' y' v, nth_error coo c = Some (x, y) -> nth_error lut c = Some (x', y', v) -> (Rabs (x' - x) <= 1 / 10000 /\ Rabs (y' - y) <= 1 / 10000)%R.
