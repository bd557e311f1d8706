(** C49. *)
From Verif Require Import Base Loops BaseFacts LoopsFacts DateModel DateSpec DateProofs SeasonModel SeasonSpec SeasonProofs.
From Coq Require Import Sorting.Sorted.

(** The days used are those of the season, also over the turn of the year.
    Missing: a season of one day. *)
Theorem C49_days_partial lo hi : 1 <= lo <= 365 -> 1 <= hi <= 365 -> lo <> hi ->
  exists s, compile_season lo hi = Ret s /\ forall d, used (s_days s) d <-> in_season lo hi d.
Proof.
  intros L H N. destruct (season_ok lo hi L H) as (s & E & (_ & _ & D) & _). exists s. split; auto. intros d. rewrite D.
  unfold flagged, in_season. destruct (Z.ltb_spec lo hi), (Z.leb_spec lo hi); lia.
Qed.

(** The season of one day is the whole year. *)
Theorem C49_one_day day : 1 <= day <= 365 ->
  exists s, compile_season day day = Ret s /\ forall d, used (s_days s) d <-> 1 <= d <= 365.
Proof.
  intros H. destruct (season_ok day day H H) as (s & E & (_ & _ & D) & _). exists s. split; auto. intros d. rewrite D.
  unfold flagged. rewrite Z.ltb_irrefl. lia.
Qed.
Theorem C49_one_day_refuted : ~ (forall lo hi, 1 <= lo <= 365 -> 1 <= hi <= 365 ->
  exists s, compile_season lo hi = Ret s /\ forall d, used (s_days s) d <-> in_season lo hi d).
Proof.
  intros H. destruct (H 182 182 ltac:(lia) ltac:(lia)) as (s & E & D). destruct (C49_one_day 182 ltac:(lia)) as (s' & E' & D').
  assert (s' = s) by congruence. subst s'. assert (used (s_days s) 1) as U by (apply D'; lia). apply D in U. unfold in_season in U. cbn in U. lia.
Qed.

(** A week, month or quarter is used iff one of its days is. *)
Theorem C49_periods lo hi : 1 <= lo <= 365 -> 1 <= hi <= 365 ->
  exists s, compile_season lo hi = Ret s /\
    (forall w, used (s_weeks s) w <-> exists d, 1 <= d <= 365 /\ used (s_days s) d /\ in_week d w) /\
    (forall m, used (s_months s) m <-> exists d, 1 <= d <= 365 /\ used (s_days s) d /\ in_month d m) /\
    (forall q, used (s_quarters s) q <-> exists d, 1 <= d <= 365 /\ used (s_days s) d /\ in_quarter_day d q).
Proof.
  intros L H. destruct (season_ok lo hi L H) as (s & E & _ & (_ & _ & W) & (_ & _ & M) & (_ & _ & Q) & _). exists s. split; auto.
  split; [|split].
  - intros w. rewrite W. split; intros (d & D1 & D2 & D3); exists d; split; auto; split; auto; apply week_unique; auto.
  - intros m. rewrite M. split; intros (d & D1 & D2 & D3); exists d; split; auto; split; auto; apply month_unique; auto.
  - intros q. rewrite Q. split; intros (d & D1 & D2 & D3); exists d; split; auto; split; auto; apply quarter_unique; auto.
Qed.

(** The dates of the folded time series: all years; first days of the used
    quarters, months and weeks and all used days, each once and in order. *)
Theorem C49_folds lo hi first_year ny : 1 <= lo <= 365 -> 1 <= hi <= 365 -> 1 <= ny ->
  exists s f, compile_season lo hi = Ret s /\ compile_folds first_year ny s = Ret f /\
    map year (fm_years f) = map (fun k => first_year + Z.of_nat k) (seq 0 (Z.to_nat ny)) /\
    (lists (used (s_quarters s)) (map quarter (fm_quarters f)) /\ zlen (fm_quarters f) = s_nq s /\
      forall x, In x (fm_quarters f) -> consistent x /\ year x = first_year + ny - 1 /\ month x = 3 * quarter x - 2 /\ day x = 1) /\
    (lists (used (s_months s)) (map month (fm_months f)) /\ zlen (fm_months f) = s_nm s /\
      forall x, In x (fm_months f) -> consistent x /\ year x = first_year + ny - 1 /\ day x = 1) /\
    (lists (used (s_weeks s)) (map week (fm_weeks f)) /\ zlen (fm_weeks f) = s_nw s /\
      forall x, In x (fm_weeks f) -> consistent x /\ year x = first_year + ny - 1 /\ doy x = 7 * week x - 6) /\
    (lists (used (s_days s)) (map doy (fm_days f)) /\ zlen (fm_days f) = s_nd s /\
      forall x, In x (fm_days f) -> consistent x /\ year x = first_year + ny - 1).
Proof.
  intros L H N. destruct (season_ok lo hi L H) as (s & E & (D1 & D2 & D3) & (W1 & W2 & W3) & (M1 & M2 & M3) & (Q1 & Q2 & Q3) & Nd & Nw & Nm & Nq).
  exists s. unfold compile_folds. pose proof (years_ok first_year (Z.to_nat ny) 0 (set_date init_date 2000 1 1)) as Y.
  destruct (fold_years first_year (Z.to_nat ny) 0 (set_date init_date 2000 1 1)) as [ys d]. destruct Y as (Y1 & _ & Y2).
  specialize (Y2 ltac:(lia)). rewrite Z2Nat.id in Y2 by lia. rewrite Z.add_0_r in Y2.
  rewrite Nq, Nm, Nw, Nd. unfold zlen at 1 2 3 4. rewrite !Nat2Z.id.
  assert (EQ : forall d j, 1 <= j <= 4 -> year (set_date_quarter d j) = year d /\
    (quarter (set_date_quarter d j) = j /\ consistent (set_date_quarter d j) /\ month (set_date_quarter d j) = 3 * j - 2 /\ day (set_date_quarter d j) = 1)).
  { intros d1 j J. pose proof (dop_effect_ok d1 (DQuarter j) J) as F. cbn [apply_dop dop_effect] in F.
    destruct F as (F1 & F2 & F3 & F4). split; auto. split; auto. split.
    - apply (set_doy_consistent d1 (quarter2doy j)). destruct (quarter2doy_val j J) as (-> & V). apply md2doy_range. auto.
    - split; [lia|auto]. }
  assert (EM : forall d j, 1 <= j <= 12 -> year (set_date_month d j) = year d /\
    (month (set_date_month d j) = j /\ consistent (set_date_month d j) /\ day (set_date_month d j) = 1)).
  { intros d1 j J. pose proof (dop_effect_ok d1 (DMonth j) J) as F. cbn [apply_dop dop_effect] in F.
    destruct F as (F1 & F2 & F3). split; auto. split; auto. split; auto.
    apply (set_doy_consistent d1 (md2doy j 1)). apply md2doy_range. now apply month_first. }
  assert (EW : forall d j, 1 <= j <= 52 -> year (set_date_week d j) = year d /\
    (week (set_date_week d j) = j /\ consistent (set_date_week d j) /\ doy (set_date_week d j) = 7 * j - 6)).
  { intros d1 j J. pose proof (dop_effect_ok d1 (DWeek j) J) as F. cbn [apply_dop dop_effect] in F.
    destruct F as (F1 & F2 & F3). split; auto. split; auto. split; [|lia].
    apply (set_doy_consistent d1 (week2doy j)). now apply week2doy_range. }
  assert (ED : forall d j, 1 <= j <= 365 -> year (set_date_doy d j) = year d /\ (doy (set_date_doy d j) = j /\ consistent (set_date_doy d j))).
  { intros d1 j J. pose proof (dop_effect_ok d1 (DDoy j) J) as F. cbn [apply_dop dop_effect] in F.
    destruct F as (F1 & F2). split; auto. split; auto. now apply set_doy_consistent. }
  set (Yr := first_year + ny - 1) in *.
  pose proof (fold_ok set_date_quarter 5 (s_quarters s) Q2 ltac:(lia) _ d 1 ltac:(lia) eq_refl) as RQ. change (5 - 1) with 4 in RQ.
  rewrite RQ. cbn [bind]. unfold last_date.
  destruct (scan_ok set_date_quarter (fun j => 1 <= j <= 4) (fun j x => quarter x = j /\ consistent x /\ month x = 3 * j - 2 /\ day x = 1) Yr EQ (chosen (s_quarters s) 1 4) d Y2 (chosen_ok _ _ _ (fun k K => K))) as (FQ & YQ).
  set (qs := scan set_date_quarter d (chosen (s_quarters s) 1 4)) in *. clearbody qs. set (dq := last qs d) in *. clearbody dq.
  pose proof (fold_ok set_date_month 13 (s_months s) M2 ltac:(lia) _ dq 1 ltac:(lia) eq_refl) as RM. change (13 - 1) with 12 in RM.
  rewrite RM. cbn [bind]. unfold last_date.
  destruct (scan_ok set_date_month (fun j => 1 <= j <= 12) (fun j x => month x = j /\ consistent x /\ day x = 1) Yr EM (chosen (s_months s) 1 12) dq YQ (chosen_ok _ _ _ (fun k K => K))) as (FM & YM).
  set (ms := scan set_date_month dq (chosen (s_months s) 1 12)) in *. clearbody ms. set (dm := last ms dq) in *. clearbody dm.
  pose proof (fold_ok set_date_week 53 (s_weeks s) W2 ltac:(lia) _ dm 1 ltac:(lia) eq_refl) as RW. change (53 - 1) with 52 in RW.
  rewrite RW. cbn [bind]. unfold last_date.
  destruct (scan_ok set_date_week (fun j => 1 <= j <= 52) (fun j x => week x = j /\ consistent x /\ doy x = 7 * j - 6) Yr EW (chosen (s_weeks s) 1 52) dm YM (chosen_ok _ _ _ (fun k K => K))) as (FW & YW).
  set (ws := scan set_date_week dm (chosen (s_weeks s) 1 52)) in *. clearbody ws. set (dw := last ws dm) in *. clearbody dw.
  pose proof (fold_ok set_date_doy 366 (s_days s) D2 ltac:(lia) _ dw 1 ltac:(lia) eq_refl) as RD. change (366 - 1) with 365 in RD.
  rewrite RD. cbn [bind].
  destruct (scan_ok set_date_doy (fun j => 1 <= j <= 365) (fun j x => doy x = j /\ consistent x) Yr ED (chosen (s_days s) 1 365) dw YW (chosen_ok _ _ _ (fun k K => K))) as (FD & YD).
  set (ds := scan set_date_doy dw (chosen (s_days s) 1 365)) in *. clearbody ds.
  assert (KEY : forall (field : date -> Z) (R : date -> Prop) (l : list Z) (xs : list date), Forall2 (fun j x => field x = j /\ R x) l xs ->
    map field xs = l /\ zlen xs = zlen l /\ forall x, In x xs -> R x).
  { intros field R l xs F. induction F as [|j x l xs (F1 & F2) F (I1 & I2 & I3)]; [repeat split; auto; contradiction|].
    cbn [map]. split; [congruence|]. split; [unfold zlen in *; cbn [length]; lia|]. intros y [<- |I]; auto. }
  assert (SUB : forall flags n, (forall k, used flags k -> 1 <= k <= n) -> lists (used flags) (chosen flags 1 n)).
  { intros flags n R. destruct (chosen_lists flags 1 n) as (C1 & C2). split; auto. intros k. rewrite C2. split; [tauto|]. auto. }
  eexists. split; [exact E|]. split; [reflexivity|]. cbn [fm_years fm_quarters fm_months fm_weeks fm_days].
  split.
  { clear - Y1. revert Y1. generalize (seq 0 (Z.to_nat ny)). intros l F. remember (map (fun i => 0 + Z.of_nat i) l) as ks eqn:K. revert l K.
    induction F as [|k x ks xs (F1 & _) F IH]; intros [|i l] K; cbn [map] in *; try discriminate; auto. inversion K; subst. f_equal; auto. }
  destruct (KEY quarter (fun x => consistent x /\ year x = Yr /\ month x = 3 * quarter x - 2 /\ day x = 1) (chosen (s_quarters s) 1 4) qs) as (A1 & A2 & A3).
  { eapply F2_impl; [|exact FQ]. cbv beta. intros j x (X1 & X2 & X3 & X4 & X5). rewrite X2. repeat (split; auto). }
  destruct (KEY month (fun x => consistent x /\ year x = Yr /\ day x = 1) (chosen (s_months s) 1 12) ms) as (B1 & B2 & B3).
  { eapply F2_impl; [|exact FM]. cbv beta. intros j x (X1 & X2 & X3 & X4). auto. }
  destruct (KEY week (fun x => consistent x /\ year x = Yr /\ doy x = 7 * week x - 6) (chosen (s_weeks s) 1 52) ws) as (C1 & C2 & C3).
  { eapply F2_impl; [|exact FW]. cbv beta. intros j x (X1 & X2 & X3 & X4). rewrite X2. auto. }
  destruct (KEY doy (fun x => consistent x /\ year x = Yr) (chosen (s_days s) 1 365) ds) as (G1 & G2 & G3).
  { eapply F2_impl; [|exact FD]. cbv beta. intros j x (X1 & X2 & X3). auto. }
  assert (PR : forall d, 1 <= d <= 365 -> 1 <= doy2week d <= 52 /\ 1 <= doy2m d <= 12 /\ 1 <= doy2quarter d <= 4).
  { intros d1 R. pose proof (week_spec d1 R) as Wk. pose proof (proj2 (month_unique d1 _ R) eq_refl) as (dd & (V & _) & _).
    pose proof (proj2 (quarter_unique d1 _ R) eq_refl) as (mm & _ & V2 & _). unfold in_week in Wk. lia. }
  split; [split; [rewrite A1; apply SUB|split; [exact A2|exact A3]]|split; [split; [rewrite B1; apply SUB|split; [exact B2|exact B3]]|
    split; [split; [rewrite C1; apply SUB|split; [exact C2|exact C3]]|split; [rewrite G1; apply SUB|split; [exact G2|exact G3]]]]].
  - intros k K. apply Q3 in K. destruct K as (d1 & R & _ & <-). apply PR; auto.
  - intros k K. apply M3 in K. destruct K as (d1 & R & _ & <-). apply PR; auto.
  - intros k K. apply W3 in K. destruct K as (d1 & R & _ & <-). apply PR; auto.
  - intros k K. apply D3 in K. unfold flagged in K. destruct (lo <? hi); lia.
Qed.

(** December and January: four weeks and a bit. *)
Example C49_case : exists s, compile_season 340 10 = Ret s /\ s_nd s = 36 /\ s_nm s = 2 /\ s_nq s = 2 /\ s_nw s = 6 /\
  exists f, compile_folds 2015 3 s = Ret f /\ map month (fm_months f) = [1; 12].
Proof. eexists. split; [vm_compute; reflexivity|]. repeat (split; [reflexivity|]). eexists. split; vm_compute; reflexivity. Qed.

Print Assumptions C49_days_partial.
Print Assumptions C49_one_day.
Print Assumptions C49_one_day_refuted.
Print Assumptions C49_periods.
Print Assumptions C49_folds.
