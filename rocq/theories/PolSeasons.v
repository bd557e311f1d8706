(** The dates of the polar coordinates and the regular seasons. *)
From Coq Require Import Reals.
From Flocq Require Import Core IEEE754.BinarySingleNaN.
From Verif Require Import Base BaseFacts Loops LoopsFacts Float FloatFacts FloatInt PolModel PolSpec.
#[local] Open Scope Z_scope.

Definition day_back (d : Z) : outcome Z := int_of (doy_of_rad (rad_of_doy d)).
Definition day_checks (d : Z) : bool :=
  match day_back d with
  | Ret x => if existsb (Z.eqb d) lost_days then x =? d - 1 else x =? d
  | _ => false
  end.
Lemma all_days : forallb day_checks (map (Z.add 1) (zupto 365)) = true.
Proof. vm_compute. reflexivity. Qed.
Lemma day_back_spec d : 1 <= d <= 365 -> day_back d = Ret (if existsb (Z.eqb d) lost_days then d - 1 else d).
Proof.
  intros H. pose proof all_days as A. rewrite forallb_forall in A. specialize (A d).
  unfold day_checks in A. destruct (day_back d) as [x| |]; [|discriminate A..|]; [|exfalso|exfalso]; [f_equal| |].
  - assert (In d (map (Z.add 1) (zupto 365))) as I.
    { apply in_map_iff. exists (d - 1). split; [lia|]. apply zupto_In; lia. }
    specialize (A I). destruct (existsb (Z.eqb d) lost_days); lia.
  - enough (false = true) by discriminate. apply A. apply in_map_iff. exists (d - 1). split; [lia|]. apply zupto_In; lia.
  - enough (false = true) by discriminate. apply A. apply in_map_iff. exists (d - 1). split; [lia|]. apply zupto_In; lia.
Qed.

Lemma int_of_f32 z : (Z.abs z <= 2 ^ 24) -> int_of (f32_of_Z z) = Ret z.
Proof.
  intros H. unfold int_of. rewrite (trunc_isZ _ z) by (apply isZ32; auto). cbn [of_option bind].
  unfold chk_int, in_intb. replace ((-2147483648 <=? z) && (z <=? 2147483647)) with true by lia. reflexivity.
Qed.
Lemma doy2ce_ok d y : Z.abs d <= 1000 -> Z.abs y <= 1000000 -> doy2ce d y = Ret (day_number y d).
Proof.
  intros D Y. unfold doy2ce, day_number, chk_int, in_intb.
  replace ((-2147483648 <=? y * 365) && (y * 365 <=? 2147483647)) with true by lia. cbn [bind].
  replace ((-2147483648 <=? y * 365 + d) && (y * 365 + d <=? 2147483647)) with true by lia. f_equal. lia.
Qed.

(** The date of a polar coordinate. *)
Lemma coord_date L d v y : 1 <= d <= 365 -> Z.abs y <= 100000 ->
  exists p, polar_coords L (rad_of_doy d) v (f32_of_Z y) = Ret p /\ p_val p = v /\ p_year p = y /\
    p_ce p = day_number y (if existsb (Z.eqb d) lost_days then d - 1 else d).
Proof.
  intros D Y. unfold polar_coords. rewrite int_of_f32 by lia. cbn [bind].
  fold (day_back d). rewrite day_back_spec by auto. cbn [bind].
  rewrite doy2ce_ok by (destruct (existsb (Z.eqb d) lost_days); lia). cbn [bind].
  eexists. split; [reflexivity|]. cbn [p_val p_year p_ce]. auto.
Qed.

(** Regular seasons. *)
Lemma day_number_S y d : day_number (y + 1) d = day_number y d + 365.
Proof. unfold day_number. lia. Qed.

Lemma season_of_eq start ce s : day_number s start <= ce < day_number (s + 1) start -> season_of start ce = s.
Proof. unfold season_of, day_number. intros H. symmetry. apply (Z.div_unique _ 365 s (ce - start - 365 * s)); lia. Qed.
Lemma season_of_range start ce : day_number (season_of start ce) start <= ce < day_number (season_of start ce + 1) start.
Proof. unfold season_of, day_number. pose proof (Z.div_mod (ce - start) 365 ltac:(lia)). pose proof (Z.mod_pos_bound (ce - start) 365 ltac:(lia)). lia. Qed.

Lemma regular_step start step y p : 0 <= start <= 365 -> 0 <= y <= 100000 -> 0 <= p_ce p <= 1000000000 ->
  (t <- doy2ce start y ;;
   b <- (if t <=? p_ce p then d <- chk_int (p_ce p - t) ;; Ret (d <=? step) else Ret false) ;; Ret b)
  = Ret ((day_number y start <=? p_ce p) && (p_ce p - day_number y start <=? step)).
Proof.
  intros H Y C. rewrite doy2ce_ok by lia. cbn [bind].
  destruct (day_number y start <=? p_ce p) eqn:E; cbn [andb]; [|reflexivity].
  unfold chk_int, in_intb.
  replace ((-2147483648 <=? p_ce p - day_number y start) && (p_ce p - day_number y start <=? 2147483647)) with true
    by (unfold day_number in *; lia). reflexivity.
Qed.

(** [prev] is the day of the entry before; [y] - 1 its season. *)
Lemma regular_from start step l : 0 <= start <= 365 -> 1 <= step <= 364 ->
  forall y prev, 0 <= y -> day_number (y - 1) start <= prev < day_number y start -> 0 <= prev ->
  days_from (step + 1) prev (map p_ce l) -> Forall (fun p => 0 <= p_ce p <= 30000000) l ->
  regular step start (y - 1) y l = Ret (map (fun p => with_season p (season_of start (p_ce p))) l).
Proof.
  intros S0 S1. induction l as [|p r IH]; intros y prev Y R P D F; [reflexivity|].
  cbn [map days_from] in D. destruct D as [D1 D2]. inversion F as [|? ? Fp Fr]; subst.
  cbn [regular map].
  assert (y <= 100000) as Yb by (unfold day_number in *; lia).
  pose proof (regular_step start step y p S0 ltac:(lia) ltac:(lia)) as E.
  destruct (doy2ce start y) as [t| |]; cbn [bind] in E |- *; try discriminate E.
  destruct (if t <=? p_ce p then d <- chk_int (p_ce p - t) ;; Ret (d <=? step) else Ret false) as [b| |];
    cbn [bind] in E |- *; try discriminate E. injection E as ->.
  destruct (day_number y start <=? p_ce p) eqn:E1; cbn [andb].
  - replace (p_ce p - day_number y start <=? step) with true by (unfold day_number in *; lia). cbn iota.
    assert (season_of start (p_ce p) = y) as Q by (apply season_of_eq; unfold day_number in *; lia).
    replace (y - 1 + 1) with (y + 1 - 1) by lia.
    rewrite (IH (y + 1) (p_ce p)); auto; [|lia|unfold day_number in *; lia|lia].
    cbn [bind]. rewrite Q. replace (y + 1 - 1) with y by lia. reflexivity.
  - assert (season_of start (p_ce p) = y - 1) as Q.
    { apply season_of_eq. replace (y - 1 + 1) with y by lia. unfold day_number in *; lia. }
    rewrite (IH y (p_ce p)); auto; [|unfold day_number in *; lia|lia].
    cbn [bind]. rewrite Q. reflexivity.
Qed.

Lemma regular_all start step p l : 0 <= start <= 365 -> 1 <= step <= 364 ->
  0 <= p_ce p <= start + step -> days_in_order (step + 1) (map p_ce (p :: l)) -> Forall (fun p => 0 <= p_ce p <= 30000000) l ->
  start - 365 <= p_ce p ->
  regular step start (-1) 0 (p :: l) = Ret (map (fun p => with_season p (season_of start (p_ce p))) (p :: l)).
Proof.
  intros S0 S1 P D F B. cbn [map days_in_order] in D.
  cbn [regular map].
  pose proof (regular_step start step 0 p S0 ltac:(lia) ltac:(lia)) as E.
  destruct (doy2ce start 0) as [t| |]; cbn [bind] in E |- *; try discriminate E.
  destruct (if t <=? p_ce p then d <- chk_int (p_ce p - t) ;; Ret (d <=? step) else Ret false) as [b| |];
    cbn [bind] in E |- *; try discriminate E. injection E as ->.
  destruct (day_number 0 start <=? p_ce p) eqn:E1; cbn [andb].
  - replace (p_ce p - day_number 0 start <=? step) with true by (unfold day_number in *; lia). cbn iota.
    assert (season_of start (p_ce p) = 0) as Q by (apply season_of_eq; unfold day_number in *; lia).
    pose proof (regular_from start step l S0 S1 1 (p_ce p)) as R. change (1 - 1) with 0 in R. change (-1 + 1) with 0. change (0 + 1) with 1.
    rewrite R; auto; [|lia|unfold day_number in *; lia|lia]. cbn [bind]. rewrite Q. reflexivity.
  - assert (season_of start (p_ce p) = -1) as Q by (apply season_of_eq; unfold day_number in *; lia).
    pose proof (regular_from start step l S0 S1 0 (p_ce p)) as R. change (0 - 1) with (-1) in R.
    rewrite R; auto; [|lia|unfold day_number in *; lia|lia]. cbn [bind]. rewrite Q. reflexivity.
Qed.

(** A series that starts later finds no season at all. *)
Lemma regular_none start step l : 0 <= start <= 365 ->
  Forall (fun p => start + step < p_ce p <= 1000000000) l -> 0 <= step ->
  regular step start (-1) 0 l = Ret (map (fun p => with_season p (-1)) l).
Proof.
  intros S0 F S1. induction F as [|p r Fp Fr IH]; [reflexivity|]. cbn [regular map].
  pose proof (regular_step start step 0 p S0 ltac:(lia) ltac:(lia)) as E.
  destruct (doy2ce start 0) as [t| |]; cbn [bind] in E |- *; try discriminate E.
  destruct (if t <=? p_ce p then d <- chk_int (p_ce p - t) ;; Ret (d <=? step) else Ret false) as [b| |];
    cbn [bind] in E |- *; try discriminate E. injection E as ->.
  replace (p_ce p - day_number 0 start <=? step) with false by (unfold day_number; lia). rewrite andb_false_r. cbn iota.
  rewrite IH. reflexivity.
Qed.
