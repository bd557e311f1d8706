From Verif Require Import Base BaseFacts CStr CStrFacts DateModel DateSpec DateProofs
  DateTextModel DateTextSpec.

Lemma four_print y : 0 <= y <= 9999 -> print_0d 4 y = four y.
Proof.
  intros H; unfold print_0d, pad0, dec_nonneg, four, digit; cbn [dec_digits].
  replace (y <? 0) with false by lia.
  destruct (y <? 10) eqn:E1; [|destruct (y / 10 <? 10) eqn:E2; [|destruct (y / 10 / 10 <? 10) eqn:E3;
    [|replace (y / 10 / 10 / 10 <? 10) with true by lia]]];
  cbn [length repeat Nat.sub app]; repeat (f_equal; [lia|]); f_equal; lia.
Qed.

Lemma two_print y : 0 <= y <= 99 -> print_0d 2 y = two y.
Proof.
  intros H; unfold print_0d, pad0, dec_nonneg, two, digit; cbn [dec_digits].
  replace (y <? 0) with false by lia.
  destruct (y <? 10) eqn:E1; [|replace (y / 10 <? 10) with true by lia];
  cbn [length repeat Nat.sub app]; repeat (f_equal; [lia|]); f_equal; lia.
Qed.

Lemma compact_date_text y m d size :
  0 <= y <= 9999 -> 0 <= m <= 99 -> 0 <= d <= 99 ->
  compact_date y m d size = if size <=? 8 then Exit else Ret (yyyymmdd y m d).
Proof.
  intros Y M D; unfold compact_date.
  rewrite four_print, !two_print by lia.
  unfold snprintf_or_exit, yyyymmdd.
  change (zlen (four y ++ two m ++ two d)) with 8.
  destruct (8 >=? size) eqn:E; destruct (size <=? 8) eqn:E2; auto; lia.
Qed.

Lemma long_date_text y m d h mi s tz size :
  0 <= y <= 9999 -> 0 <= m <= 99 -> 0 <= d <= 99 ->
  0 <= h <= 99 -> 0 <= mi <= 99 -> 0 <= s <= 99 -> 0 <= tz <= 9 -> 23 <= size ->
  long_date y m d h mi s tz size = Ret (iso_date_time y m d h mi s ++ [46; 48 + tz; 90]) /\
  long_date y m d h mi s 99 size = Ret (iso_date_time y m d h mi s).
Proof.
  intros Y M D HH MI SS TZ SZ; unfold long_date.
  rewrite four_print, !two_print by lia.
  replace (negb (tz =? 99)) with true by lia.
  change (negb (99 =? 99)) with false; cbn iota.
  assert (print_d tz = [48 + tz]) as ->.
  { unfold print_d; replace (tz <? 0) with false by lia.
    unfold dec_nonneg; cbn [dec_digits]; replace (tz <? 10) with true by lia.
    f_equal; lia. }
  unfold snprintf_or_exit.
  split.
  - match goal with |- (if zlen ?t >=? _ then _ else _) = _ =>
      change (zlen t) with 22 end.
    replace (22 >=? size) with false by lia. reflexivity.
  - match goal with |- (if zlen ?t >=? _ then _ else _) = _ =>
      change (zlen t) with 19 end.
    replace (19 >=? size) with false by lia. reflexivity.
Qed.

Lemma digits_no_sep l : all_digits l ->
  Forall (fun c => memz c date_seps = false) l /\ Forall (fun c => memz c line_end = false) l.
Proof.
  intros H; split; apply Forall_forall; intros c Hc;
  pose proof (proj1 (Forall_forall _ _) H c Hc) as B; apply memz_false;
  cbv beta in B; intros I; vm_compute in I; lia.
Qed.

Lemma take_until_app_clean s l r : Forall (fun c => memz c s = false) l ->
  take_until s (l ++ r) = l ++ take_until s r.
Proof. induction 1 as [|c l H _ IH]; cbn; auto. rewrite H, IH; auto. Qed.

Lemma date_digits y m d : 0 <= y -> 0 <= m -> 0 <= d -> all_digits (yyyymmdd y m d).
Proof.
  intros; unfold all_digits, yyyymmdd, four, two, digit; cbn [app];
  repeat (constructor; [lia|]); constructor.
Qed.

Definition accepted (y m d : Z) : Prop :=
  1900 <= y <= 2099 /\ 1 <= m <= 12 /\ 1 <= d <= 31 /\ 1 <= md2doy m d <= 365.

Lemma first_word y m d rest : 0 <= y -> 0 <= m -> 0 <= d -> ends_word rest ->
  exists r, strtok date_seps (take_until line_end (yyyymmdd y m d ++ rest)) = Some (yyyymmdd y m d, r).
Proof.
  intros Y M D E.
  destruct (digits_no_sep _ (date_digits y m d Y M D)) as [F1 F2].
  rewrite take_until_app_clean by assumption.
  exists (tl (take_until line_end rest)).
  apply strtok_clean; auto.
  - discriminate.
  - destruct rest as [|c rest]; [left; reflexivity|].
    cbn [take_until]; destruct (memz c line_end) eqn:Q; [left; reflexivity|].
    right; exists c, (take_until line_end rest); split; auto.
    apply memz_false in Q. apply memz_spec. cbn in E; unfold boundary in E.
    destruct E as [E|E]; [exact E|].
    exfalso; apply Q; unfold line_end; cbn [In]; intuition.
Qed.

Lemma date_set_fields y m d : let r := set_date init_date y m d in
  year r = y /\ month r = m /\ day r = d /\ doy r = md2doy m d /\ ce r = y * 365 + md2doy m d /\
  week r = doy2week (md2doy m d).
Proof. cbv zeta; fields; unfold doy2ce; repeat split. Qed.

Lemma from_string_8 d0 y m d rest :
  0 <= y <= 9999 -> 0 <= m <= 99 -> 0 <= d <= 99 -> ends_word rest -> zlen rest < 1016 ->
  date_from_string d0 (yyyymmdd y m d ++ rest) =
  (let dt := set_date init_date y m d in
      if (year dt <? 1900) || (year dt >? 2100) then Ret (CANCEL, d0)
      else if (month dt <? 1) || (month dt >? 12) then Ret (CANCEL, d0)
      else if (day dt <? 1) || (day dt >? 31) then Ret (CANCEL, d0)
      else if (doy dt <? 1) || (doy dt >? 365) then Ret (CANCEL, d0)
      else if (week dt <? 1) || (week dt >? 52) then Ret (CANCEL, d0)
      else if (ce dt <? 1900 * 365) || (ce dt >? 2100 * 365) then Ret (CANCEL, d0)
      else Ret (SUCCESS, dt)).
Proof.
  intros Y M D E L; unfold date_from_string, copy_string.
  assert (zlen (yyyymmdd y m d ++ rest) = 8 + zlen rest) as ->.
  { unfold zlen; rewrite app_length, Nat2Z.inj_add; reflexivity. }
  replace (8 + zlen rest >=? 1024) with false by lia. cbn [bind].
  destruct (first_word y m d rest) as (r & ->); try lia; auto.
  change (zlen (yyyymmdd y m d)) with 8; cbn [Z.eqb Pos.eqb negb].
  change (firstn 4 (yyyymmdd y m d)) with (four y).
  change (firstn 2 (skipn 4 (yyyymmdd y m d))) with (two m).
  change (firstn 2 (skipn 6 (yyyymmdd y m d))) with (two d).
  rewrite <- four_print, <- !two_print by lia.
  rewrite !atoi_print_0d by lia. reflexivity.
Qed.

Lemma date_round_trip d0 y m d rest :
  1900 <= y <= 2099 -> valid_md m d -> ends_word rest -> zlen rest < 1016 ->
  exists dt, date_from_string d0 (yyyymmdd y m d ++ rest) = Ret (SUCCESS, dt) /\
    year dt = y /\ month dt = m /\ day dt = d /\ consistent dt /\
    hh dt = 0 /\ mm dt = 0 /\ ss dt = 0 /\ tz dt = 0.
Proof.
  intros Y V E L.
  pose proof (md2doy_range _ _ V) as R.
  assert (1 <= m <= 12 /\ 1 <= d <= 31) as [M D].
  { destruct V as [M D]; split; auto. split_month M; tab; lia. }
  exists (set_date init_date y m d).
  split; [|split; [|split; [|split; [|split]]]]; try reflexivity.
  2: apply set_date_consistent; assumption.
  2: auto.
  rewrite from_string_8 by (auto; lia). cbv zeta.
  destruct (date_set_fields y m d) as (-> & -> & -> & -> & -> & ->).
  pose proof (week_spec _ R) as W; unfold in_week in W.
  repeat match goal with
  | |- context [if ?b then Ret (CANCEL, _) else _] => replace b with false by lia
  end. reflexivity.
Qed.

Lemma strtok_None l s : strtok s l = None <-> Forall (fun c => memz c s = true) l.
Proof.
  unfold strtok; induction l as [|c l IH]; cbn [skip_while].
  - split; intros; constructor.
  - destruct (memz c s) eqn:E.
    + rewrite IH; split; intros H; [constructor; auto|inversion H; auto].
    + split; [discriminate|]. intros H; inversion H; congruence.
Qed.

Lemma blank_spec l : blank l <-> strtok date_seps (take_until line_end l) = None.
Proof.
  rewrite strtok_None; induction l as [|c l IH]; cbn [take_until blank].
  - split; intros; constructor.
  - destruct (memz c line_end) eqn:E.
    + apply memz_spec in E; cbn in E. split; intros; [constructor|].
      intuition.
    + apply memz_false in E; cbn in E.
      split; intros H.
      * destruct H as [H|[H|[H|[H1 H2]]]]; try (exfalso; apply E; intuition; fail).
        constructor; [apply memz_spec; exact H1 | apply IH; exact H2].
      * inversion H; subst. right; right; right.
        split; [apply memz_spec; assumption | apply IH; assumption].
Qed.

Lemma from_string_total d0 s : zlen s < 1024 ->
  (blank s -> date_from_string d0 s = UB) /\
  (~ blank s -> exists r, date_from_string d0 s = Ret r /\ fst r <> FAILURE).
Proof.
  intros L; unfold date_from_string, copy_string.
  replace (zlen s >=? 1024) with false by lia; cbn [bind].
  rewrite blank_spec.
  destruct (strtok date_seps (take_until line_end s)) as [[ptr r]|]; split; intros H.
  - discriminate.
  - destruct (negb (zlen ptr =? 8)) eqn:E.
    { exists (CANCEL, init_date); split; [reflexivity|discriminate]. }
    assert (zlen ptr = 8) as LP by lia.
    rewrite !atoi_short by (unfold zlen in *; rewrite ?firstn_length, ?skipn_length; lia).
    cbn [bind].
    repeat match goal with |- context [if ?b then _ else _] =>
      destruct b; [eexists; split; [reflexivity|discriminate]|] end.
    eexists; split; [reflexivity|discriminate].
  - reflexivity.
  - congruence.
Qed.

Lemma from_string_accepts d0 s dt : date_from_string d0 s = Ret (SUCCESS, dt) ->
  (exists w r, strtok date_seps (take_until line_end s) = Some (w, r) /\ zlen w = 8) /\
  1900 <= year dt <= 2099 /\ 1 <= month dt <= 12 /\ 1 <= day dt <= 31 /\
  doy dt = spec_doy (month dt) (day dt) /\ 1 <= doy dt <= 365 /\
  in_week (doy dt) (week dt) /\ ce dt = 365 * year dt + doy dt.
Proof.
  unfold date_from_string, copy_string.
  destruct (zlen s >=? 1024); [discriminate|]; cbn [bind].
  destruct (strtok date_seps (take_until line_end s)) as [[ptr r]|]; [|discriminate].
  destruct (negb (zlen ptr =? 8)) eqn:E; [discriminate|].
  assert (zlen ptr = 8) as LP by lia.
  rewrite !atoi_short by (unfold zlen in *; rewrite ?firstn_length, ?skipn_length; lia).
  cbn [bind].
  set (y := atoi_val (firstn 4 ptr)).
  set (m := atoi_val (firstn 2 (skipn 4 ptr))).
  set (d := atoi_val (firstn 2 (skipn 6 ptr))).
  destruct (date_set_fields y m d) as (Fy & Fm & Fd & Fdoy & Fce & Fw).
  cbv zeta.
  repeat match goal with |- context [if ?b then Ret (CANCEL, _) else _] =>
    let Q := fresh "Q" in destruct b eqn:Q; [discriminate|] end.
  intros H; inversion H as [H1]; clear H.
  rewrite Fy, Fm, Fd, Fdoy, Fce, Fw in *.
  split; [exists ptr, r; auto|].
  assert (1 <= m <= 12) by lia.
  assert (1 <= md2doy m d <= 365) by lia.
  split; [lia|]. split; [lia|]. split; [lia|].
  split; [apply md2doy_correct; auto|].
  split; [lia|]. split; [apply week_spec; auto|]. lia.
Qed.

Lemma from_string_wrong_length d0 s w r : zlen s < 1024 ->
  strtok date_seps (take_until line_end s) = Some (w, r) -> zlen w <> 8 ->
  date_from_string d0 s = Ret (CANCEL, init_date).
Proof.
  intros L E N; unfold date_from_string, copy_string.
  replace (zlen s >=? 1024) with false by lia; cbn [bind]. rewrite E.
  replace (negb (zlen w =? 8)) with true by lia. reflexivity.
Qed.

(** Out-of-range numbers are refused. *)
Lemma from_string_rejects d0 y m d rest :
  0 <= y <= 9999 -> 0 <= m <= 99 -> 0 <= d <= 99 -> ends_word rest -> zlen rest < 1016 ->
  ~ (1900 <= y <= 2099 /\ 1 <= m <= 12 /\ 1 <= d <= 31) ->
  date_from_string d0 (yyyymmdd y m d ++ rest) = Ret (CANCEL, d0).
Proof.
  intros Y M D E L N. rewrite from_string_8 by auto. cbv zeta.
  destruct (date_set_fields y m d) as (-> & -> & -> & -> & -> & ->).
  repeat match goal with
  | |- context [if ?b then Ret (CANCEL, _) else _] => destruct b eqn:?; [reflexivity|]
  end. exfalso; lia.
Qed.
