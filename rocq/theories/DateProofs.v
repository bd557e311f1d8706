From Verif Require Import Base DateModel DateSpec.

Ltac cases_gt :=
  repeat match goal with
  | |- context [?a >? ?b] => let E := fresh "E" in destruct (a >? b) eqn:E
  end.

Lemma month_cases m : 1 <= m <= 12 ->
  m = 1 \/ m = 2 \/ m = 3 \/ m = 4 \/ m = 5 \/ m = 6 \/ m = 7 \/ m = 8 \/ m = 9 \/ m = 10 \/ m = 11 \/ m = 12.
Proof. lia. Qed.

Ltac fields := cbn [year month day doy week quarter ce hh mm ss tz set_date_month_day set_date_year set_date set_time].

Ltac split_month H :=
  apply month_cases in H;
  destruct H as [->|[->|[->|[->|[->|[->|[->|[->|[->|[->|[->| -> ]]]]]]]]]]].

(** Evaluate the month table at concrete months. *)
Ltac tab :=
  unfold valid_md, spec_doy in *; cbn [fst snd] in *;
  repeat match goal with
  | |- context [nth (Z.to_nat (?m - 1)) month_len 0] =>
      let v := eval vm_compute in (nth (Z.to_nat (m - 1)) month_len 0) in
      change (nth (Z.to_nat (m - 1)) month_len 0) with v
  | H : context [nth (Z.to_nat (?m - 1)) month_len 0] |- _ =>
      let v := eval vm_compute in (nth (Z.to_nat (m - 1)) month_len 0) in
      change (nth (Z.to_nat (m - 1)) month_len 0) with v in H
  | |- context [zsum (firstn (Z.to_nat (?m - 1)) month_len)] =>
      let v := eval vm_compute in (zsum (firstn (Z.to_nat (m - 1)) month_len)) in
      change (zsum (firstn (Z.to_nat (m - 1)) month_len)) with v
  end.

Lemma doy2md_correct dy : 1 <= dy <= 365 ->
  valid_md (fst (doy2md dy)) (snd (doy2md dy)) /\
  spec_doy (fst (doy2md dy)) (snd (doy2md dy)) = dy.
Proof.
  intros H; unfold doy2md.
  repeat match goal with
  | |- context [?a >? ?b] => let E := fresh "E" in destruct (a >? b) eqn:E
  end; tab; lia.
Qed.

Lemma md2doy_correct m d : 1 <= m <= 12 -> md2doy m d = spec_doy m d.
Proof.
  intros H; split_month H; unfold md2doy; cbn [Z.eqb Pos.eqb]; tab; lia.
Qed.

Lemma md2doy_range m d : valid_md m d -> 1 <= md2doy m d <= 365.
Proof.
  intros [H Hd]; split_month H; unfold md2doy; cbn [Z.eqb Pos.eqb]; tab; lia.
Qed.

Lemma doy2md_md2doy m d : valid_md m d -> doy2md (md2doy m d) = (m, d).
Proof.
  intros [H Hd]; split_month H; unfold md2doy; cbn [Z.eqb Pos.eqb]; tab;
  unfold doy2md;
  repeat match goal with
  | |- context [?a >? ?b] =>
      first [ replace (a >? b) with true by lia | replace (a >? b) with false by lia ]
  end; f_equal; lia.
Qed.

Lemma doy2m_d_agree dy : doy2m dy = fst (doy2md dy) /\ doy2d dy = snd (doy2md dy).
Proof.
  unfold doy2m, doy2d, doy2md.
  repeat match goal with |- context [?a >? ?b] => destruct (a >? b) end; auto.
Qed.

Lemma md2doy_invalid_month m d : ~ (1 <= m <= 12) -> md2doy m d = 0.
Proof.
  intros H; unfold md2doy.
  repeat match goal with
  | |- context [m =? ?b] => replace (m =? b) with false by lia
  end; reflexivity.
Qed.

Lemma ce2date_date2ce y m d : valid_md m d -> ce2date (date2ce y m d) = (y, m, d).
Proof.
  intros H; pose proof (md2doy_range m d H) as R.
  unfold ce2date, date2ce; cbv zeta.
  destruct (Z.eq_dec (md2doy m d) 365) as [E|E].
  - assert (m = 12 /\ d = 31) as [-> ->].
    { pose proof (doy2md_md2doy m d H) as Q; rewrite E in Q.
      change (doy2md 365) with (12, 31) in Q; inversion Q; auto. }
    change (md2doy 12 31) with 365.
    replace ((y * 365 + 365) / 365) with (y + 1) by lia.
    replace (y * 365 + 365 - (y + 1) * 365) with 0 by lia; cbn [Z.eqb].
    f_equal; f_equal; lia.
  - replace ((y * 365 + md2doy m d) / 365) with y by lia.
    replace (y * 365 + md2doy m d - y * 365) with (md2doy m d) by lia.
    destruct (Z.eqb_spec (md2doy m d) 0); [lia|].
    rewrite doy2md_md2doy by assumption; reflexivity.
Qed.

Lemma ce2date_valid c : let '(y, m, d) := ce2date c in valid_md m d /\ date2ce y m d = c.
Proof.
  unfold ce2date; cbv zeta.
  assert (0 <= c - c / 365 * 365 < 365) as R by lia.
  destruct (Z.eqb_spec (c - c / 365 * 365) 0) as [E|E].
  - split; [tab; lia|].
    unfold date2ce; change (md2doy 12 31) with 365; lia.
  - assert (1 <= c - c / 365 * 365 <= 365) as R' by lia.
    destruct (doy2md_correct _ R') as [V S].
    split; auto.
    unfold date2ce; rewrite md2doy_correct by apply V; rewrite S; lia.
Qed.

Lemma ce2doy_year_agree y m d : valid_md m d ->
  ce2doy (date2ce y m d) = (spec_doy m d, y) /\ ce2year (date2ce y m d) = y.
Proof.
  intros H; pose proof (md2doy_range m d H) as R.
  rewrite <- md2doy_correct by apply H.
  unfold ce2doy, ce2year, date2ce; cbv zeta.
  destruct (Z.eqb_spec (y * 365 + md2doy m d - (y * 365 + md2doy m d) / 365 * 365) 0) as [E|E].
  - split; [f_equal|]; lia.
  - split; [f_equal|]; lia.
Qed.

Lemma doy2ce_agree y m d : 1 <= m <= 12 -> doy2ce (spec_doy m d) y = date2ce y m d.
Proof. intros; unfold doy2ce, date2ce; rewrite md2doy_correct by assumption; reflexivity. Qed.

Lemma spec_doy_lt m1 d1 m2 d2 : valid_md m1 d1 -> valid_md m2 d2 ->
  spec_doy m1 d1 < spec_doy m2 d2 <-> (m1 < m2 \/ (m1 = m2 /\ d1 < d2)).
Proof.
  intros [H1 D1] [H2 D2]; split_month H1; split_month H2;
  tab; lia.
Qed.

Lemma ce_order y1 m1 d1 y2 m2 d2 : valid_md m1 d1 -> valid_md m2 d2 ->
  date2ce y1 m1 d1 < date2ce y2 m2 d2 <-> date_lt (y1, m1, d1) (y2, m2, d2).
Proof.
  intros H1 H2; pose proof (md2doy_range _ _ H1); pose proof (md2doy_range _ _ H2).
  pose proof (spec_doy_lt _ _ _ _ H1 H2) as L.
  rewrite <- !md2doy_correct in L by (apply H1 || apply H2).
  unfold date2ce, date_lt; lia.
Qed.

Lemma date_order_spec a b :
  consistent a -> consistent b ->
  date_order a b = FAILURE <->
  date_lt (year b, month b, day b) (year a, month a, day a).
Proof.
  intros (Va & Da & _ & _ & Ca) (Vb & Db & _ & _ & Cb).
  pose proof (ce_order (year b) _ _ (year a) _ _ Vb Va) as L.
  unfold date2ce in L.
  rewrite !md2doy_correct in L by (apply Va || apply Vb).
  unfold date_order. rewrite <- L.
  destruct (Z.gtb_spec (ce a) (ce b)); split; intro; try reflexivity; try discriminate; lia.
Qed.

Lemma no_overflow y m d : -5000000 <= y <= 5000000 -> valid_md m d ->
  in_int (y * 365) /\ in_int (date2ce y m d).
Proof.
  intros H V; pose proof (md2doy_range _ _ V); unfold in_int, date2ce; lia.
Qed.

(** ** setters *)
Lemma week_spec dy : 1 <= dy <= 365 -> in_week dy (doy2week dy).
Proof.
  intros H; unfold in_week, doy2week, cdiv; cbv zeta.
  destruct (- (- dy / 7) >? 52) eqn:E; lia.
Qed.

Lemma quarter_spec m d : valid_md m d -> in_quarter m (doy2quarter (md2doy m d)).
Proof.
  intros H; unfold doy2quarter; rewrite doy2md_md2doy by assumption; cbn [fst].
  destruct H as [H _]; unfold in_quarter, m2quarter, cdiv; lia.
Qed.

Lemma set_md_consistent dt m d : valid_md m d -> consistent (set_date_month_day dt m d).
Proof.
  intros H; unfold consistent; fields.
  split; [assumption|]. split; [apply md2doy_correct, H|].
  split; [apply week_spec, md2doy_range, H|].
  split; [apply quarter_spec, H|]. unfold doy2ce; lia.
Qed.

Lemma set_date_consistent dt y m d : valid_md m d -> consistent (set_date dt y m d).
Proof. intros; apply set_md_consistent; assumption. Qed.

Lemma set_doy_consistent dt dy : 1 <= dy <= 365 -> consistent (set_date_doy dt dy).
Proof. intros H; apply set_md_consistent; apply doy2md_correct, H. Qed.

Lemma set_doy_doy dt dy : 1 <= dy <= 365 -> doy (set_date_doy dt dy) = dy.
Proof.
  intros H; unfold set_date_doy; fields.
  destruct (doy2md_correct _ H) as [V S]. rewrite md2doy_correct by apply V; exact S.
Qed.

Lemma quarter2doy_val q : 1 <= q <= 4 -> quarter2doy q = md2doy (3 * (q - 1) + 1) 1 /\
  valid_md (3 * (q - 1) + 1) 1.
Proof.
  intros H; unfold quarter2doy; split; [f_equal; lia|].
  assert (q = 1 \/ q = 2 \/ q = 3 \/ q = 4) as [->|[->|[->| ->]]] by lia;
  tab; lia.
Qed.

Lemma month_first m : 1 <= m <= 12 -> valid_md m 1.
Proof. intros H; split_month H; tab; lia. Qed.

Lemma week2doy_range w : 1 <= w <= 52 -> 1 <= week2doy w <= 365.
Proof. unfold week2doy; lia. Qed.

Lemma dop_consistent dt o : dop_ok o -> consistent dt -> consistent (apply_dop dt o).
Proof.
  destruct o as [y m d|y|m d|c|dy|w|m|q|h m s]; cbn [dop_ok apply_dop]; intros H C.
  - apply set_date_consistent, H.
  - destruct C as (V & D & W & Q & E); unfold consistent; fields.
    unfold doy2ce; repeat (split; [assumption|]); lia.
  - apply set_md_consistent, H.
  - unfold set_date_ce; pose proof (ce2date_valid c) as V.
    destruct (ce2date c) as [[y m] d]; destruct V as [V _].
    apply set_date_consistent, V.
  - apply set_doy_consistent, H.
  - apply set_doy_consistent, week2doy_range, H.
  - apply set_doy_consistent, md2doy_range, month_first, H.
  - unfold set_date_quarter; destruct (quarter2doy_val q H) as [-> V]; apply set_doy_consistent, md2doy_range, V.
  - destruct C as (V & D & W & Q & E); unfold consistent; fields; auto.
Qed.

Lemma dops_consistent ops : forall dt, Forall dop_ok ops -> consistent dt ->
  consistent (fold_left apply_dop ops dt).
Proof.
  induction ops as [|o ops IH]; intros dt H C; [exact C|].
  inversion H; subst; cbn [fold_left]; apply IH; auto; apply dop_consistent; auto.
Qed.

(** From any (even garbage) record, a full set_date establishes consistency. *)
Lemma dops_consistent_any dt y m d ops : valid_md m d -> Forall dop_ok ops ->
  consistent (fold_left apply_dop (DSet y m d :: ops) dt).
Proof.
  intros V H; cbn [fold_left apply_dop]; apply dops_consistent; auto.
  apply set_date_consistent, V.
Qed.

Lemma set_doy_effect dt m d : valid_md m d ->
  let after := set_date_doy dt (md2doy m d) in
  year after = year dt /\ month after = m /\ day after = d.
Proof.
  intros V; cbv zeta; unfold set_date_doy; fields.
  rewrite doy2md_md2doy by assumption; auto.
Qed.

Lemma dop_effect_ok dt o : dop_ok o -> dop_effect o dt (apply_dop dt o).
Proof.
  destruct o as [y m d|y|m d|c|dy|w|m|q|h m s]; cbn [dop_ok apply_dop dop_effect]; intros H;
    try (cbn; auto; fail).
  - unfold set_date_ce; pose proof (ce2date_valid c) as V.
    destruct (ce2date c) as [[y m] d]; destruct V as [V E].
    fields; unfold doy2ce; unfold date2ce in E; lia.
  - split; [reflexivity|]. apply set_doy_doy, H.
  - split; [reflexivity|].
    assert (doy (set_date_week dt w) = 7 * (w - 1) + 1) as E.
    { unfold set_date_week; rewrite set_doy_doy by (apply week2doy_range, H); unfold week2doy; lia. }
    split; auto.
    pose proof (set_doy_consistent dt _ (week2doy_range w H)) as (_ & _ & W & _).
    fold (set_date_week dt w) in W; rewrite E in W; unfold in_week in W; lia.
  - unfold set_date_month.
    destruct (set_doy_effect dt m 1 (month_first m H)) as (A & B & C); auto.
  - unfold set_date_quarter; destruct (quarter2doy_val q H) as [-> V].
    destruct (set_doy_effect dt _ 1 V) as (A & B & C).
    pose proof (set_doy_consistent dt _ (md2doy_range _ _ V)) as (_ & _ & _ & Q & _).
    rewrite B in Q; unfold in_quarter in Q.
    split; [assumption|]. split; [lia|]. split; auto.
  - cbn; auto 10.
Qed.

Lemma dop_clock dt o : same_clock o dt (apply_dop dt o).
Proof.
  unfold same_clock.
  destruct o as [y m d|y|m d|c|dy|w|m|q|h m s]; cbn [apply_dop]; try (cbn; auto; fail).
  unfold set_date_ce; destruct (ce2date c) as [[y m] d]; cbn; auto.
Qed.

Lemma copy_date_id a b : copy_date a b = a.
Proof. destruct a; reflexivity. Qed.

(** ** durations *)
Lemma set_secs_year dt s : 0 <= s < 365 * 86400 ->
  let r := set_secs dt s in
  duration (year r) (month r) (day r) (hh r) (mm r) (ss r) = s /\
  year r = 0 /\ normal_duration (month r) (day r) (hh r) (mm r) (ss r).
Proof.
  intros H; cbv zeta; unfold set_secs, take_unit.
  replace (s >=? 946080000) with false by lia.
  destruct (s >=? 2592000) eqn:E1;
  match goal with |- context [?a >=? 86400] => destruct (a >=? 86400) eqn:E2 end;
  match goal with |- context [?a >=? 3600] => destruct (a >=? 3600) eqn:E3 end;
  match goal with |- context [?a >=? 60] => destruct (a >=? 60) eqn:E4 end;
  fields;
  unfold duration, normal_duration; lia.
Qed.

Lemma set_secs_months_refuted :
  exists s, 0 <= s /\ forall dt,
    year (set_secs dt s) = 0 /\ month (set_secs dt s) = 24.
Proof.
  exists (2 * 365 * 86400); split; [lia|]; intros dt; split; vm_compute; reflexivity.
Qed.

Lemma set_secs_sum_refuted :
  exists s, 0 <= s /\ in_int s /\ forall dt, let r := set_secs dt s in
    duration (year r) (month r) (day r) (hh r) (mm r) (ss r) <> s.
Proof.
  exists 946080000; split; [lia|]; split; [unfold in_int; lia|].
  intros dt; vm_compute; discriminate.
Qed.
