(** Model of src/modules/cross-level/date-cl.c (calendar arithmetic, date record
    and its setters).  C ints are Z; the intermediate results stay far inside
    32 bits for |year| <= 5000000 (theorem C03_no_overflow).  Expressions
    floor(a/b.0) and ceil(a/b.0) are computed in double precision in C; for the
    32-bit arguments used here they equal the integer floor and ceiling, which
    is what the model uses. *)
From Verif Require Import Base.

Definition cdiv (a b : Z) : Z := - ((- a) / b).   (* ceil(a/b.0), b>0 *)

(** doy2md: date-cl.c:45-74. *)
Definition doy2md (doy : Z) : Z * Z :=
  if doy >? 334 then (12, doy - 334)
  else if doy >? 304 then (11, doy - 304)
  else if doy >? 273 then (10, doy - 273)
  else if doy >? 243 then (9, doy - 243)
  else if doy >? 212 then (8, doy - 212)
  else if doy >? 181 then (7, doy - 181)
  else if doy >? 151 then (6, doy - 151)
  else if doy >? 120 then (5, doy - 120)
  else if doy >? 90 then (4, doy - 90)
  else if doy >? 59 then (3, doy - 59)
  else if doy >? 31 then (2, doy - 31)
  else (1, doy).

(** doy2m: date-cl.c:83-111. *)
Definition doy2m (doy : Z) : Z :=
  if doy >? 334 then 12 else if doy >? 304 then 11 else if doy >? 273 then 10
  else if doy >? 243 then 9 else if doy >? 212 then 8 else if doy >? 181 then 7
  else if doy >? 151 then 6 else if doy >? 120 then 5 else if doy >? 90 then 4
  else if doy >? 59 then 3 else if doy >? 31 then 2 else 1.

(** doy2d: date-cl.c:120-148. *)
Definition doy2d (doy : Z) : Z :=
  if doy >? 334 then doy - 334 else if doy >? 304 then doy - 304
  else if doy >? 273 then doy - 273 else if doy >? 243 then doy - 243
  else if doy >? 212 then doy - 212 else if doy >? 181 then doy - 181
  else if doy >? 151 then doy - 151 else if doy >? 120 then doy - 120
  else if doy >? 90 then doy - 90 else if doy >? 59 then doy - 59
  else if doy >? 31 then doy - 31 else doy.

(** md2doy: date-cl.c:157-177 (switch with default 0). *)
Definition md2doy (m d : Z) : Z :=
  if m =? 1 then d else if m =? 2 then 31 + d else if m =? 3 then 59 + d
  else if m =? 4 then 90 + d else if m =? 5 then 120 + d else if m =? 6 then 151 + d
  else if m =? 7 then 181 + d else if m =? 8 then 212 + d else if m =? 9 then 243 + d
  else if m =? 10 then 273 + d else if m =? 11 then 304 + d else if m =? 12 then 334 + d
  else 0.

(** doy2week: date-cl.c:186-190 (the float holding the ceiling is exact here). *)
Definition doy2week (doy : Z) : Z :=
  let w := cdiv doy 7 in if w >? 52 then 52 else w.

(** week2doy: date-cl.c:199-202. *)
Definition week2doy (week : Z) : Z := (week - 1) * 7 + 1.

(** m2quarter: date-cl.c:223-228;  doy2quarter: date-cl.c:209-216. *)
Definition m2quarter (month : Z) : Z := cdiv month 3.
Definition doy2quarter (doy : Z) : Z := m2quarter (fst (doy2md doy)).

(** quarter2doy: date-cl.c:235-239. *)
Definition quarter2doy (quarter : Z) : Z := md2doy ((quarter - 1) * 3 + 1) 1.

(** date2ce: date-cl.c:249-252;  doy2ce: date-cl.c:261-264. *)
Definition date2ce (y m d : Z) : Z := y * 365 + md2doy m d.
Definition doy2ce (doy y : Z) : Z := y * 365 + doy.

(** ce2date: date-cl.c:275-291. *)
Definition ce2date (ce : Z) : Z * Z * Z :=
  let year := ce / 365 in
  let tmp := ce - year * 365 in
  if tmp =? 0 then (year - 1, 12, 31)
  else (year, fst (doy2md tmp), snd (doy2md tmp)).

(** ce2doy: date-cl.c:301-316, returns (doy, y). *)
Definition ce2doy (ce : Z) : Z * Z :=
  let year := ce / 365 in
  let tmp := ce - year * 365 in
  if tmp =? 0 then (365, year - 1) else (tmp, year).

(** ce2year: date-cl.c:323-332. *)
Definition ce2year (ce : Z) : Z :=
  let year := ce / 365 in
  let tmp := ce - year * 365 in
  if tmp =? 0 then year - 1 else year.

(** date_t: date-cl.h. *)
Record date := mkDate {
  year : Z; month : Z; day : Z; doy : Z; week : Z; quarter : Z; ce : Z;
  hh : Z; mm : Z; ss : Z; tz : Z }.

(** init_date: date-cl.c:396-411. *)
Definition init_date : date := mkDate 0 0 0 0 0 0 0 0 0 0 0.

(** set_date_year: date-cl.c:435-441. *)
Definition set_date_year (dt : date) (y : Z) : date :=
  mkDate y (month dt) (day dt) (doy dt) (week dt) (quarter dt) (doy2ce (doy dt) y)
         (hh dt) (mm dt) (ss dt) (tz dt).

(** set_date_month_day: date-cl.c:450-460. *)
Definition set_date_month_day (dt : date) (m d : Z) : date :=
  let dy := md2doy m d in
  mkDate (year dt) m d dy (doy2week dy) (doy2quarter dy) (doy2ce dy (year dt))
         (hh dt) (mm dt) (ss dt) (tz dt).

(** set_date: date-cl.c:421-427. *)
Definition set_date (dt : date) (y m d : Z) : date :=
  set_date_month_day (set_date_year dt y) m d.

(** set_date_ce: date-cl.c:468-475. *)
Definition set_date_ce (dt : date) (c : Z) : date :=
  let '(y, m, d) := ce2date c in set_date dt y m d.

(** set_date_doy: date-cl.c:483-490. *)
Definition set_date_doy (dt : date) (dy : Z) : date :=
  set_date_month_day dt (fst (doy2md dy)) (snd (doy2md dy)).

(** set_date_week: 498-505; set_date_month: 513-520; set_date_quarter: 528-535. *)
Definition set_date_week (dt : date) (w : Z) : date := set_date_doy dt (week2doy w).
Definition set_date_month (dt : date) (m : Z) : date := set_date_doy dt (md2doy m 1).
Definition set_date_quarter (dt : date) (q : Z) : date := set_date_doy dt (quarter2doy q).

(** set_time: date-cl.c:545-552. *)
Definition set_time (dt : date) (h m s : Z) : date :=
  mkDate (year dt) (month dt) (day dt) (doy dt) (week dt) (quarter dt) (ce dt) h m s (tz dt).

(** set_secs: date-cl.c:560-583.  One cascade step: (count, remaining). *)
Definition take_unit (s u : Z) : Z * Z :=
  if s >=? u then (s / u, s - (s / u) * u) else (0, s).
Definition set_secs (dt : date) (s0 : Z) : date :=
  let '(y, s1) := take_unit s0 946080000 in
  let '(m, s2) := take_unit s1 2592000 in
  let '(d, s3) := take_unit s2 86400 in
  let '(h, s4) := take_unit s3 3600 in
  let '(mi, s5) := take_unit s4 60 in
  set_time (set_date dt y m d) h mi s5.

(** copy_date: date-cl.c:591-606 copies all eleven fields. *)
Definition copy_date (from to : date) : date :=
  mkDate (year from) (month from) (day from) (doy from) (week from) (quarter from) (ce from)
         (hh from) (mm from) (ss from) (tz from).

(** date_order: datesys-cl.c:162-167. *)
Definition date_order (early late : date) : rc :=
  if ce early >? ce late then FAILURE else SUCCESS.
