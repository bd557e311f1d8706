(** C02 - C04, C06: calendar arithmetic and date records (date-cl.c). *)
From Verif Require Import Base DateModel DateSpec DateProofs.

(** C02: day of year -> (month, day) gives the existing day at that position. *)
Theorem C02_doy2md_correct : forall dy, 1 <= dy <= 365 ->
  valid_md (fst (doy2md dy)) (snd (doy2md dy)) /\
  spec_doy (fst (doy2md dy)) (snd (doy2md dy)) = dy.
Proof. exact doy2md_correct. Qed.
Print Assumptions C02_doy2md_correct.

Theorem C02_md2doy_correct : forall m d, valid_md m d ->
  md2doy m d = spec_doy m d /\ 1 <= md2doy m d <= 365 /\ doy2md (md2doy m d) = (m, d).
Proof.
  exact (fun m d H => conj (md2doy_correct m d (proj1 H))
           (conj (md2doy_range m d H) (doy2md_md2doy m d H))).
Qed.
Print Assumptions C02_md2doy_correct.

Theorem C02_separate_lookups_agree : forall dy,
  doy2m dy = fst (doy2md dy) /\ doy2d dy = snd (doy2md dy).
Proof. exact doy2m_d_agree. Qed.
Print Assumptions C02_separate_lookups_agree.

Theorem C02_invalid_month_is_zero : forall m d, ~ (1 <= m <= 12) -> md2doy m d = 0.
Proof. exact md2doy_invalid_month. Qed.
Print Assumptions C02_invalid_month_is_zero.

Example C02_example : valid_md 3 1 /\ md2doy 3 1 = 60 /\ doy2md 60 = (3, 1) /\ doy2md 365 = (12, 31).
Proof. split; [split; vm_compute; split; discriminate|]. repeat split. Qed.

(** C03: continuous days. *)
Theorem C03_round_trip : forall y m d, valid_md m d -> ce2date (date2ce y m d) = (y, m, d).
Proof. exact ce2date_date2ce. Qed.
Print Assumptions C03_round_trip.

Theorem C03_every_ce_is_a_date : forall c,
  let '(y, m, d) := ce2date c in valid_md m d /\ date2ce y m d = c.
Proof. exact ce2date_valid. Qed.
Print Assumptions C03_every_ce_is_a_date.

Theorem C03_order : forall y1 m1 d1 y2 m2 d2, valid_md m1 d1 -> valid_md m2 d2 ->
  date2ce y1 m1 d1 < date2ce y2 m2 d2 <-> date_lt (y1, m1, d1) (y2, m2, d2).
Proof. exact ce_order. Qed.
Print Assumptions C03_order.

Theorem C03_doy_and_year : forall y m d, valid_md m d ->
  ce2doy (date2ce y m d) = (spec_doy m d, y) /\ ce2year (date2ce y m d) = y.
Proof. exact ce2doy_year_agree. Qed.
Print Assumptions C03_doy_and_year.

Theorem C03_doy2ce_agrees : forall y m d, 1 <= m <= 12 ->
  doy2ce (spec_doy m d) y = date2ce y m d.
Proof. exact doy2ce_agree. Qed.
Print Assumptions C03_doy2ce_agrees.

Theorem C03_date_order : forall a b, consistent a -> consistent b ->
  date_order a b = FAILURE <-> date_lt (year b, month b, day b) (year a, month a, day a).
Proof. exact date_order_spec. Qed.
Print Assumptions C03_date_order.

Theorem C03_no_overflow : forall y m d, -5000000 <= y <= 5000000 -> valid_md m d ->
  in_int (y * 365) /\ in_int (date2ce y m d).
Proof. exact no_overflow. Qed.
Print Assumptions C03_no_overflow.

(** A leap day shares its number with 1 March: on real Gregorian dates the
    numbering is not injective. *)
Theorem C03_leap_day_refuted : forall y, date2ce y 2 29 = date2ce y 3 1.
Proof. exact (fun y => eq_refl). Qed.
Print Assumptions C03_leap_day_refuted.

Example C03_example :
  date2ce 2019 12 31 = 737300 /\ ce2date 737300 = (2019, 12, 31) /\
  ce2date 737301 = (2020, 1, 1) /\ date_lt (2019, 12, 31) (2020, 1, 1).
Proof. repeat split; try reflexivity. left; lia. Qed.

(** C04: any sequence of setter calls with legal arguments keeps all fields in
    agreement, each call does what it is named for, and the clock time is only
    touched by set_time. *)
Theorem C04_setters_consistent : forall dt y m d ops, valid_md m d -> Forall dop_ok ops ->
  consistent (fold_left apply_dop (DSet y m d :: ops) dt).
Proof. exact dops_consistent_any. Qed.
Print Assumptions C04_setters_consistent.

Theorem C04_setters_effect : forall dt o, dop_ok o -> dop_effect o dt (apply_dop dt o).
Proof. exact dop_effect_ok. Qed.
Print Assumptions C04_setters_effect.

Theorem C04_setters_keep_clock : forall dt o, same_clock o dt (apply_dop dt o).
Proof. exact dop_clock. Qed.
Print Assumptions C04_setters_keep_clock.

Theorem C04_copy_date : forall from to, copy_date from to = from.
Proof. exact copy_date_id. Qed.
Print Assumptions C04_copy_date.

Example C04_example :
  Forall dop_ok [DDoy 200; DYear 2001; DQuarter 4; DCe 737300; DWeek 52; DMonth 2] /\
  fold_left apply_dop [DSet 2000 2 28; DDoy 200; DYear 2001; DTime 1 2 3; DQuarter 4] init_date
  = mkDate 2001 10 1 274 40 4 730639 1 2 3 0.
Proof. split; [repeat constructor; cbn; lia | reflexivity]. Qed.

(** C06: durations.  Below one year the displayed parts add up and are in
    normal form ... *)
Theorem C06_durations_partial : forall dt s, 0 <= s < 365 * 86400 ->
  let r := set_secs dt s in
  duration (year r) (month r) (day r) (hh r) (mm r) (ss r) = s /\
  year r = 0 /\ normal_duration (month r) (day r) (hh r) (mm r) (ss r).
Proof. exact set_secs_year. Qed.
Print Assumptions C06_durations_partial.

(** ... but two years are shown as 0 years 24 months (the year threshold is 30
    years), and from 30 years on the parts no longer add up. *)
Theorem C06_years_refuted :
  exists s, 0 <= s /\ forall dt, year (set_secs dt s) = 0 /\ month (set_secs dt s) = 24.
Proof. exact set_secs_months_refuted. Qed.
Print Assumptions C06_years_refuted.

Theorem C06_sum_refuted :
  exists s, 0 <= s /\ in_int s /\ forall dt, let r := set_secs dt s in
    duration (year r) (month r) (day r) (hh r) (mm r) (ss r) <> s.
Proof. exact set_secs_sum_refuted. Qed.
Print Assumptions C06_sum_refuted.

Example C06_example : let r := set_secs init_date 7954325 in
  (month r, day r, hh r, mm r, ss r) = (3, 2, 1, 32, 5).
Proof. reflexivity. Qed.
