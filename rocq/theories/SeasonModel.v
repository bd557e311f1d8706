(** The temporal window within the year, DOY_RANGE, and the periods the time
    series is folded by: param-hl.c:1050-1081, tsa-hl.c:492-540. *)
From Verif Require Import Base Loops DateModel.

(** date_doys[366], date_weeks[53], date_months[13], date_quarters[5] and how many of
    them are used: param-hl.h:434-443; all zero after allocation. *)
Record season := mkSeason {
  s_days : list Z; s_weeks : list Z; s_months : list Z; s_quarters : list Z;
  s_nd : Z; s_nw : Z; s_nm : Z; s_nq : Z }.

Definition mark (flags : list Z) (k : Z) : outcome (list Z) := of_option (set_at flags k 1).
Definition mark_range (lo hi : Z) (flags : list Z) : outcome (list Z) := ofold mark (zrange lo hi) flags.
Definition add_flags (n : Z) (flags : list Z) : outcome Z :=
  ofold (fun acc k => v <- of_option (get_at flags k) ;; Ret (acc + v)) (zrange 1 n) 0.

(** param-hl.c:1056-1061. *)
Definition mark_days (lo hi : Z) : outcome (list Z) :=
  let none := repeat 0 366 in
  if lo <? hi then mark_range lo hi none
  else f <- mark_range 1 hi none ;; mark_range lo 365 f.

(** param-hl.c:1063-1071. *)
Definition mark_periods (days : list Z) (acc : list Z * list Z * list Z) (d : Z) : outcome (list Z * list Z * list Z) :=
  let '(weeks, months, quarters) := acc in
  v <- of_option (get_at days d) ;;
  if v =? 0 then Ret acc
  else w <- mark weeks (doy2week d) ;; m <- mark months (doy2m d) ;; q <- mark quarters (doy2quarter d) ;; Ret (w, m, q).

(** param-hl.c:1050-1076, for ranges of positive days; otherwise nothing is done. *)
Definition compile_season (lo hi : Z) : outcome season :=
  days <- mark_days lo hi ;;
  p <- ofold (mark_periods days) (zrange 1 365) (repeat 0 53, repeat 0 13, repeat 0 5) ;;
  let '(weeks, months, quarters) := p in
  nd <- add_flags 365 days ;; nw <- add_flags 52 weeks ;; nm <- add_flags 12 months ;; nq <- add_flags 4 quarters ;;
  Ret (mkSeason days weeks months quarters nd nw nm nq).

(** while (k < limit && !flags[k]) k++: tsa-hl.c:506, 515, 524, 533; [fuel] rounds at most. *)
Fixpoint next_used (fuel : nat) (limit : Z) (flags : list Z) (k : Z) : outcome Z :=
  if k <? limit then
    v <- of_option (get_at flags k) ;;
    if v =? 0 then match fuel with O => UB | S f => next_used f limit flags (k + 1) end else Ret k
  else Ret k.

(** The dates of one kind of fold: tsa-hl.c:504-540.  [set]: set_date_quarter,
    set_date_month, set_date_week or set_date_doy, [n] rounds; the date of one
    round is changed by the next. *)
Fixpoint fold_dates (set : date -> Z -> date) (limit : Z) (flags : list Z) (n : nat) (d : date) (k : Z) : outcome (list date) :=
  match n with
  | O => Ret []
  | S n =>
      j <- next_used (Z.to_nat limit) limit flags k ;;
      let d := set d j in
      rest <- fold_dates set limit flags n d (j + 1) ;;
      Ret (d :: rest)
  end.

(** tsa-hl.c:460-461, 497-540: years, quarters, months, weeks, days. *)
Fixpoint fold_years (first : Z) (n : nat) (t : Z) (d : date) : list date * date :=
  match n with
  | O => ([], d)
  | S n => let d := set_date_year d (first + t) in let '(l, d') := fold_years first n (t + 1) d in (d :: l, d')
  end.
Record fold_meta := mkFold { fm_years : list date; fm_quarters : list date; fm_months : list date; fm_weeks : list date; fm_days : list date }.
Definition last_date (l : list date) (d : date) : date := last l d.
Definition compile_folds (first_year ny : Z) (s : season) : outcome fold_meta :=
  let d0 := set_date init_date 2000 1 1 in
  let '(ys, d) := fold_years first_year (Z.to_nat ny) 0 d0 in
  qs <- fold_dates set_date_quarter 5 (s_quarters s) (Z.to_nat (s_nq s)) d 1 ;;
  let d := last_date qs d in
  ms <- fold_dates set_date_month 13 (s_months s) (Z.to_nat (s_nm s)) d 1 ;;
  let d := last_date ms d in
  ws <- fold_dates set_date_week 53 (s_weeks s) (Z.to_nat (s_nw s)) d 1 ;;
  let d := last_date ws d in
  ds <- fold_dates set_date_doy 366 (s_days s) (Z.to_nat (s_nd s)) d 1 ;;
  Ret (mkFold ys qs ms ws ds).
