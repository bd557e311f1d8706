(** C05: dates as text. *)
From Verif Require Import Base CStr DateModel DateSpec DateTextModel DateTextSpec DateTextProofs.

Theorem C05_compact_text : forall y m d size,
  0 <= y <= 9999 -> 0 <= m <= 99 -> 0 <= d <= 99 ->
  compact_date y m d size = if size <=? 8 then Exit else Ret (yyyymmdd y m d).
Proof. exact compact_date_text. Qed.
Print Assumptions C05_compact_text.

Theorem C05_long_text : forall y m d h mi s tz size,
  0 <= y <= 9999 -> 0 <= m <= 99 -> 0 <= d <= 99 ->
  0 <= h <= 99 -> 0 <= mi <= 99 -> 0 <= s <= 99 -> 0 <= tz <= 9 -> 23 <= size ->
  long_date y m d h mi s tz size = Ret (iso_date_time y m d h mi s ++ [46; 48 + tz; 90]) /\
  long_date y m d h mi s 99 size = Ret (iso_date_time y m d h mi s).
Proof. exact long_date_text. Qed.
Print Assumptions C05_long_text.

(** Reading a compact date back, whatever follows the word. *)
Theorem C05_round_trip : forall d0 y m d rest,
  1900 <= y <= 2099 -> valid_md m d -> ends_word rest -> zlen rest < 1016 ->
  exists dt, date_from_string d0 (yyyymmdd y m d ++ rest) = Ret (SUCCESS, dt) /\
    year dt = y /\ month dt = m /\ day dt = d /\ consistent dt /\
    hh dt = 0 /\ mm dt = 0 /\ ss dt = 0 /\ tz dt = 0.
Proof. exact date_round_trip. Qed.
Print Assumptions C05_round_trip.

(** Whatever text was accepted, the date is in range with agreeing fields. *)
Theorem C05_accepted_in_range_partial : forall d0 s dt, date_from_string d0 s = Ret (SUCCESS, dt) ->
  (exists w r, strtok date_seps (take_until line_end s) = Some (w, r) /\ zlen w = 8) /\
  1900 <= year dt <= 2099 /\ 1 <= month dt <= 12 /\ 1 <= day dt <= 31 /\
  doy dt = spec_doy (month dt) (day dt) /\ 1 <= doy dt <= 365 /\
  in_week (doy dt) (week dt) /\ ce dt = 365 * year dt + doy dt.
Proof. exact from_string_accepts. Qed.
Print Assumptions C05_accepted_in_range_partial.

Theorem C05_out_of_range_refused : forall d0 y m d rest,
  0 <= y <= 9999 -> 0 <= m <= 99 -> 0 <= d <= 99 -> ends_word rest -> zlen rest < 1016 ->
  ~ (1900 <= y <= 2099 /\ 1 <= m <= 12 /\ 1 <= d <= 31) ->
  date_from_string d0 (yyyymmdd y m d ++ rest) = Ret (CANCEL, d0).
Proof. exact from_string_rejects. Qed.
Print Assumptions C05_out_of_range_refused.

Theorem C05_wrong_length_refused : forall d0 s w r, zlen s < 1024 ->
  strtok date_seps (take_until line_end s) = Some (w, r) -> zlen w <> 8 ->
  date_from_string d0 s = Ret (CANCEL, init_date).
Proof. exact from_string_wrong_length. Qed.
Print Assumptions C05_wrong_length_refused.

(** The function answers SUCCESS or CANCEL on every text that has a word; a
    blank text dereferences NULL. *)
Theorem C05_defined_iff_not_blank : forall d0 s, zlen s < 1024 ->
  (blank s -> date_from_string d0 s = UB) /\
  (~ blank s -> exists r, date_from_string d0 s = Ret r /\ fst r <> FAILURE).
Proof. exact from_string_total. Qed.
Print Assumptions C05_defined_iff_not_blank.

(** Refuted parts: days that do not exist and words that are no numbers are
    accepted, 2100 is refused although the year check allows it, and a refused
    date leaves the caller's record untouched (no "dummy date"). *)
Theorem C05_nonexistent_day_refuted : forall d0, exists dt,
  date_from_string d0 (`"20200230") = Ret (SUCCESS, dt) /\ ~ valid_md (month dt) (day dt).
Proof.
  intros d0; exists (set_date init_date 2020 2 30); split; [vm_compute; reflexivity|].
  intros [_ [_ H]]; vm_compute in H; apply H; reflexivity.
Qed.
Print Assumptions C05_nonexistent_day_refuted.

Theorem C05_not_a_number_refuted : forall d0, exists dt,
  date_from_string d0 (`"19991a1b") = Ret (SUCCESS, dt) /\ year dt = 1999 /\ month dt = 1 /\ day dt = 1.
Proof. intros d0; eexists; split; [vm_compute; reflexivity|auto]. Qed.
Print Assumptions C05_not_a_number_refuted.

Theorem C05_no_dummy_date_refuted : forall d0,
  date_from_string d0 (`"99999999") = Ret (CANCEL, d0).
Proof. intros d0; vm_compute; reflexivity. Qed.
Print Assumptions C05_no_dummy_date_refuted.

Example C05_example :
  ends_word (`",S2A.tif") /\ yyyymmdd 2019 3 1 = `"20190301" /\ valid_md 3 1 /\
  date_from_string init_date (`"20190301,S2A.tif") =
    Ret (SUCCESS, mkDate 2019 3 1 60 9 1 736995 0 0 0 0) /\
  ~ blank (`" ;20190301") /\ blank (`" ; # note").
Proof.
  split; [left; cbn; auto|]. split; [reflexivity|].
  split; [split; vm_compute; split; discriminate|].
  split; [vm_compute; reflexivity|].
  split; rewrite blank_spec; vm_compute; [discriminate|reflexivity].
Qed.

(** C68: a calendar date printed as YYYYMMDD is read back as this date, whatever follows. *)
Theorem C68_printed_dates_are_read_back : forall y m d size rest d0,
  1900 <= y <= 2099 -> valid_md m d -> 9 <= size -> ends_word rest -> zlen rest < 1016 ->
  exists text dt, compact_date y m d size = Ret text /\ length text = 8%nat /\
    date_from_string d0 (text ++ rest) = Ret (SUCCESS, dt) /\
    year dt = y /\ month dt = m /\ day dt = d /\ consistent dt /\ hh dt = 0 /\ mm dt = 0 /\ ss dt = 0 /\ tz dt = 0.
Proof.
  intros y m d size rest d0 Y V S W R. exists (yyyymmdd y m d).
  destruct (C05_round_trip d0 y m d rest Y V W R) as (dt & E & Q). exists dt.
  split; [|split; [reflexivity|split; [exact E|exact Q]]].
  rewrite C05_compact_text; [replace (size <=? 8) with false by lia; reflexivity|lia|destruct V; lia|].
  destruct V as (M & D). assert (nth (Z.to_nat (m - 1)) month_len 0 <= 31); [|lia].
  assert (Z.to_nat (m - 1) < 12)%nat as K by lia. revert K. generalize (Z.to_nat (m - 1)). intros n K.
  do 12 (destruct n as [|n]; [cbn; lia|]). lia.
Qed.
Print Assumptions C68_printed_dates_are_read_back.

(** Different dates have different texts. *)
Theorem C68_texts_differ : forall y m d y' m' d' size text,
  1900 <= y <= 2099 -> valid_md m d -> 1900 <= y' <= 2099 -> valid_md m' d' -> 9 <= size ->
  compact_date y m d size = Ret text -> compact_date y' m' d' size = Ret text -> (y, m, d) = (y', m', d').
Proof.
  intros y m d y' m' d' size text Y V Y' V' S E E'.
  destruct (C68_printed_dates_are_read_back y m d size [] init_date Y V S I ltac:(cbn; lia)) as (t1 & dt1 & A1 & _ & B1 & <- & <- & <- & _).
  destruct (C68_printed_dates_are_read_back y' m' d' size [] init_date Y' V' S I ltac:(cbn; lia)) as (t2 & dt2 & A2 & _ & B2 & <- & <- & <- & _).
  rewrite E in A1. injection A1 as <-. rewrite E' in A2. injection A2 as <-. rewrite B1 in B2. injection B2 as <-. reflexivity.
Qed.
Print Assumptions C68_texts_differ.

Example C68_example : exists dt, compact_date 2020 2 28 16 = Ret (`"20200228") /\
  date_from_string init_date (`"20200228" ++ `"_LEVEL2_SEN2A_BOA.tif") = Ret (SUCCESS, dt) /\ ce dt = 365 * 2020 + 59.
Proof. eexists. repeat split; vm_compute; reflexivity. Qed.
