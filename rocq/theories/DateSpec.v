(** Specification of the 365-day calendar, independent of the code's tables. *)
From Verif Require Import Base DateModel.

(** Month lengths of a common year. *)
Definition month_len : list Z := [31; 28; 31; 30; 31; 30; 31; 31; 30; 31; 30; 31].
Definition zsum (l : list Z) : Z := fold_right Z.add 0 l.

(** Existing calendar days. *)
Definition valid_md (m d : Z) : Prop :=
  1 <= m <= 12 /\ 1 <= d <= nth (Z.to_nat (m - 1)) month_len 0.

(** Position of a day in the year: all days of the earlier months plus d. *)
Definition spec_doy (m d : Z) : Z := zsum (firstn (Z.to_nat (m - 1)) month_len) + d.

(** Seven-day weeks counted from 1 January; the 52nd absorbs the rest. *)
Definition in_week (dy w : Z) : Prop :=
  (1 <= w <= 51 /\ 7 * (w - 1) < dy <= 7 * w) \/ (w = 52 /\ 357 < dy <= 365).

(** Quarter of a month. *)
Definition in_quarter (m q : Z) : Prop := 1 <= q <= 4 /\ 3 * (q - 1) < m <= 3 * q.

(** Calendar order of dates. *)
Definition date_lt (a b : Z * Z * Z) : Prop :=
  let '(y1, m1, d1) := a in let '(y2, m2, d2) := b in
  y1 < y2 \/ (y1 = y2 /\ (m1 < m2 \/ (m1 = m2 /\ d1 < d2))).

(** All fields of a date record describe the same day. *)
Definition consistent (dt : date) : Prop :=
  valid_md (month dt) (day dt) /\
  doy dt = spec_doy (month dt) (day dt) /\
  in_week (doy dt) (week dt) /\
  in_quarter (month dt) (quarter dt) /\
  ce dt = 365 * year dt + doy dt.

(** Calls that move a date record around, with their documented arguments. *)
Inductive dop :=
| DSet (y m d : Z) | DYear (y : Z) | DMonthDay (m d : Z) | DCe (c : Z) | DDoy (dy : Z)
| DWeek (w : Z) | DMonth (m : Z) | DQuarter (q : Z) | DTime (h m s : Z).

Definition dop_ok (o : dop) : Prop :=
  match o with
  | DSet _ m d => valid_md m d
  | DYear _ => True
  | DMonthDay m d => valid_md m d
  | DCe _ => True
  | DDoy dy => 1 <= dy <= 365
  | DWeek w => 1 <= w <= 52
  | DMonth m => 1 <= m <= 12
  | DQuarter q => 1 <= q <= 4
  | DTime _ _ _ => True
  end.

Definition apply_dop (dt : date) (o : dop) : date :=
  match o with
  | DSet y m d => set_date dt y m d
  | DYear y => set_date_year dt y
  | DMonthDay m d => set_date_month_day dt m d
  | DCe c => set_date_ce dt c
  | DDoy dy => set_date_doy dt dy
  | DWeek w => set_date_week dt w
  | DMonth m => set_date_month dt m
  | DQuarter q => set_date_quarter dt q
  | DTime h m s => set_time dt h m s
  end.

(** What each call is asked to establish. *)
Definition dop_effect (o : dop) (before after : date) : Prop :=
  match o with
  | DSet y m d => year after = y /\ month after = m /\ day after = d
  | DYear y => year after = y /\ month after = month before /\ day after = day before
  | DMonthDay m d => year after = year before /\ month after = m /\ day after = d
  | DCe c => ce after = c
  | DDoy dy => year after = year before /\ doy after = dy
  | DWeek w => year after = year before /\ week after = w /\ doy after = 7 * (w - 1) + 1
  | DMonth m => year after = year before /\ month after = m /\ day after = 1
  | DQuarter q => year after = year before /\ quarter after = q /\ day after = 1 /\
                  month after = 3 * (q - 1) + 1
  | DTime h m s => hh after = h /\ mm after = m /\ ss after = s /\
      year after = year before /\ month after = month before /\ day after = day before
  end.

(** A call never touches the clock time unless it is set_time. *)
Definition same_clock (o : dop) (before after : date) : Prop :=
  tz after = tz before /\
  match o with DTime _ _ _ => True
  | _ => hh after = hh before /\ mm after = mm before /\ ss after = ss before end.

(** Durations: seconds in the displayed parts, with 30-day months and 365-day
    years; "normal form" means no unit exceeds the next larger one. *)
Definition duration (y m d h mi s : Z) : Z :=
  y * (365 * 86400) + m * (30 * 86400) + d * 86400 + h * 3600 + mi * 60 + s.
Definition normal_duration (m d h mi s : Z) : Prop :=
  0 <= m <= 12 /\ 0 <= d < 30 /\ 0 <= h < 24 /\ 0 <= mi < 60 /\ 0 <= s < 60.
