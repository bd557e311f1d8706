(** View geometry and time of the sun position.
    Source: /repo/src/modules/lower-level/sunview-ll.c (41-77, 89-126, 245-312, 342-421), /repo/src/modules/cross-level/sun-cl.c (sunJC, 66-80).
    Simplified: angles, distances and local times in real numbers; the limits of masked cells and the Julian date, where rounding
    shows, in floats (rnd32); geographic coordinates of pixels are inputs. *)
From Coq Require Import Reals.
From Flocq Require Import Core.
From Verif Require Import Base RoundModel DateModel TopModel.

(** ** Landsat: corners of the image, 256-273.  Pixels in reading order; [off] as in the quality image. *)
Record corners := mkCorners { uly : Z; ulx : Z; ury : Z; urx : Z; lly : Z; llx : Z; lry : Z; lrx : Z }.
Definition corners0 (nx ny : Z) : corners := mkCorners (-1) 0 0 (-1) 0 (nx * ny) (-1) 0.
Definition see (c : corners) (i j : Z) : corners :=
  let c := if uly c =? -1 then mkCorners i j (ury c) (urx c) (lly c) (llx c) (lry c) (lrx c) else c in
  let c := if j >? urx c then mkCorners (uly c) (ulx c) i j (lly c) (llx c) (lry c) (lrx c) else c in
  let c := if j <=? llx c then mkCorners (uly c) (ulx c) (ury c) (urx c) i j (lry c) (lrx c) else c in
  if i >=? lry c then mkCorners (uly c) (ulx c) (ury c) (urx c) (lly c) (llx c) i j else c.
Fixpoint scan (nx ny : Z) (off : Z -> bool) (n : nat) : corners :=
  match n with O => corners0 nx ny | S k => let p := Z.of_nat k in let c := scan nx ny off k in if off p then c else see c (p / nx) (p mod nx) end.
Definition find_corners (nx ny : Z) (off : Z -> bool) : corners := scan nx ny off (Z.to_nat (nx * ny)).
(** Midpoints and nadir line ax + by + c = 0: 282-284, 302-310 (integers; int division of non-negative sums). *)
Definition midpoints (c : corners) : Z * Z * Z * Z := ((ulx c + urx c) / 2, (uly c + ury c) / 2, (llx c + lrx c) / 2, (lly c + lry c) / 2).
Definition nadir_line (m : Z * Z * Z * Z) : Z * Z * Z := let '(ux, uy, lx, ly) := m in (uy - ly, lx - ux, ly * ux - lx * uy).

#[local] Open Scope R_scope.
(** 357-359: signed distance of the point (x, y) from the nadir line, in pixels; no line: no number. *)
Definition distance (l : Z * Z * Z) (x y : R) : option R :=
  let '(a, b, c) := l in if ((a =? 0) && (b =? 0))%Z then None else Some ((IZR a * x + IZR b * y + IZR c) / sqrt (IZR a * IZR a + IZR b * IZR b)).
(** 361-363: view zenith for a satellite in height [H]; 0 if it is not a number. *)
Definition view_zenith (H res : R) (d : option R) : R := match d with None => 0 | Some d => acos (H / sqrt (H * H + res * d * res * d)) end.
(** 295-299: angle of the nadir line (not both differences 0). *)
Definition nadir_angle (dx dy : R) : R := atan2 dy dx + PI / 2.
(** 365-371: view azimuth; the loop adds at most one turn because the angle is above -pi. *)
Definition view_azimuth (nadir : R) (d : option R) : R :=
  let left := match d with None => false | Some d => Rlt_bool 0 d end in
  if left then nadir + PI / 2 else let a := nadir - PI / 2 in if Rlt_bool a 0 then a + 2 * PI else a.

(** ** Sentinel-2: rows (or columns) that are masked for a cell without angles, 351-353, 380-390. *)
Definition ratio (res cres : R) : R := rnd32 (res / cres).
Definition masked (res cres : R) (n e i : Z) : Prop :=
  (Ztrunc (rnd32 (IZR e / ratio res cres)) <= i)%Z /\ IZR i < rnd32 (IZR (e + 1) / ratio res cres) /\ (i <= n - 1)%Z.

(** ** Local time of the overpass and date in GMT *)
(** 98-115: mean of both missions (inclination in radians, time at the equator) at latitude [rlat]; no number if the arc sine is not defined. *)
Definition overpass (rlat incl eq : R) : option R :=
  let s := tan rlat / tan incl in if Rle_bool (-1) s && Rle_bool s 1 then Some (eq - asin s / degree / 15) else None.
Definition localtime (rlat : R) : option R :=
  match overpass rlat (982 / 10 * degree) (1018333333333 / 100000000000), overpass rlat (9862 / 100 * degree) (105 / 10) with Some a, Some b => Some ((a + b) / 2) | _, _ => None end.
(** localtime2gmt: 41-77 *)
Definition localtime2gmt (d : date) (local lon : R) : date :=
  let g := local - lon / 15 in let y := doy d in
  let '(g, y) := if Rlt_bool 24 g then (g - 24, if (y + 1 >? 365)%Z then 365%Z else (y + 1)%Z) else (g, y) in
  let '(g, y) := if Rlt_bool g 0 then (g + 24, if (y - 1 <? 1)%Z then 1%Z else (y - 1)%Z) else (g, y) in
  let h := Ztrunc g in let lm := (g - IZR h) * 60 in let m := Ztrunc lm in let ls := (lm - IZR m) * 60 in
  set_time (set_date_doy d y) h m (Ztrunc ls).

(** ** sunJC: sun-cl.c:66-80 *)
(** 70-74: Julian date of the beginning of the day.  The sums of doubles are exact. *)
Definition julian (year month day : Z) : R :=
  let '(y, m) := if (month <=? 2)%Z then (year - 1, month + 12)%Z else (year, month) in
  let A := Zfloor (IZR y / 100) in let B := (2 - A + Zfloor (IZR A / 4))%Z in
  IZR (Zfloor (36525 / 100 * IZR (y + 4716))) + IZR (Zfloor (306001 / 10000 * IZR (m + 1))) + IZR day + IZR B - 15245 / 10.
(** 74-79: both sums are stored in a float; [time] is a float (hours). *)
Definition julian_now (year month day : Z) (time : R) : R := rnd32 (rnd64 (rnd32 (julian year month day) + rnd64 (time / 24))).
Definition sunJC (year month day : Z) (time : R) : R := rnd32 (rnd64 (rnd64 (julian_now year month day time - 2451545) / 36525)).
