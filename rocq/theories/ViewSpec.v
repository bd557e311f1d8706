(** What is asked of the view geometry and of the time of the sun position. *)
From Coq Require Import Reals.
From Flocq Require Import Core.
From Verif Require Import Base.

(** Pixels with data; pixel [p] is in row [p / nx] and column [p mod nx]. *)
Definition seen (nx ny : Z) (off : Z -> bool) (p : Z) : Prop := 0 <= p < nx * ny /\ off p = false.
(** The corners: first pixel, topmost of the rightmost pixels, lowest of the leftmost pixels, last pixel. *)
Definition first_pixel (V : Z -> Prop) (p : Z) : Prop := V p /\ forall q, V q -> p <= q.
Definition last_pixel (V : Z -> Prop) (p : Z) : Prop := V p /\ forall q, V q -> q <= p.
Definition right_pixel (nx : Z) (V : Z -> Prop) (p : Z) : Prop := V p /\ forall q, V q -> q mod nx < p mod nx \/ (q mod nx = p mod nx /\ p <= q).
Definition left_pixel (nx : Z) (V : Z -> Prop) (p : Z) : Prop := V p /\ forall q, V q -> p mod nx < q mod nx \/ (q mod nx = p mod nx /\ q <= p).
(** The Gregorian calendar. *)
Definition leap (y : Z) : bool := (y mod 4 =? 0) && (negb (y mod 100 =? 0) || (y mod 400 =? 0)).
Definition month_length (y m : Z) : Z := if (m =? 2) then (if leap y then 29 else 28) else if (m =? 4) || (m =? 6) || (m =? 9) || (m =? 11) then 30 else 31.
Definition is_date (y m d : Z) : Prop := 1 <= m <= 12 /\ 1 <= d <= month_length y m.
Definition next_day (y m d : Z) : Z * Z * Z := if d <? month_length y m then (y, m, d + 1) else if m <? 12 then (y, m + 1, 1) else (y + 1, 1, 1).
#[local] Open Scope R_scope.
(** [d] is the distance of the point (x, y) from the line through (x1, y1) and (x2, y2): that of the foot of the perpendicular. *)
Definition distance_to_line (x1 y1 x2 y2 x y d : R) : Prop :=
  exists t, let fx := x1 + t * (x2 - x1) in let fy := y1 + t * (y2 - y1) in
  (x - fx) * (x2 - x1) + (y - fy) * (y2 - y1) = 0 /\ d * d = (x - fx) * (x - fx) + (y - fy) * (y - fy) /\ 0 <= d.
(** Compass direction of the vector (east, north): clockwise from north. *)
Definition compass (a e n : R) : Prop := exists r, 0 < r /\ e = r * sin a /\ n = r * cos a.
