(** The loop over the seasons: every season sees the whole series. *)
From Coq Require Import Reals Lra.
From Flocq Require Import Core IEEE754.BinarySingleNaN.
From Verif Require Import Base BaseFacts Float FloatFacts FloatInt RoundModel RoundFacts PolModel PolSpec PolFloat PolCum PolEvents.
#[local] Open Scope Z_scope.

Fixpoint ascending (l : list polar) : Prop :=
  match l with [] => True | p :: r => Forall (fun q => p_season p <= p_season q) r /\ ascending r end.

Lemma split_season s l : ascending l -> exists A seg B, l = A ++ seg ++ B /\
  Forall (fun p => p_season p < s) A /\ Forall (fun p => p_season p = s) seg /\ Forall (fun p => s < p_season p) B.
Proof.
  induction l as [|p r IH]; intros H.
  { exists [], [], []. repeat split; constructor. }
  destruct H as [H1 H2]. destruct (IH H2) as (A & seg & B & E & FA & FS & FB).
  destruct (Z.lt_trichotomy (p_season p) s) as [C|[C|C]].
  - exists (p :: A), seg, B. rewrite E. repeat split; auto.
  - assert (A = []) as ->.
    { destruct A as [|a A]; auto. exfalso. inversion FA; subst. inversion H1; subst. lia. }
    exists [], (p :: seg), B. cbn [app] in *. rewrite E. repeat split; auto.
  - assert (A = []) as ->.
    { destruct A as [|a A]; auto. exfalso. inversion FA; subst. inversion H1; subst. lia. }
    assert (seg = []) as ->.
    { destruct seg as [|a A]; auto. exfalso. inversion FS; subst. cbn [app] in H1. inversion H1; subst. lia. }
    exists [], [], (p :: B). cbn [app] in *. rewrite E. repeat split; auto.
Qed.
Lemma ascending_app a b : ascending (a ++ b) -> ascending a /\ ascending b.
Proof.
  induction a as [|p r IH]; cbn [app ascending]; [auto|]. intros [H1 H2]. apply Forall_app in H1. destruct (IH H2). tauto.
Qed.

(** A suffix of the series behaves like the series, when all entries before it are of earlier seasons. *)
Lemma season_run_suffix L k theta t0 s A1 l : Forall (fun p => p_season p < s) A1 -> ascending (A1 ++ l) ->
  season_run L k theta t0 s (last_of None A1) l =
  match season_run L k theta t0 s None (A1 ++ l) with
  | Ret (r, mv) => Ret (r, mv) | UB => UB | Exit => Exit end.
Proof.
  intros F As. destruct (ascending_app _ _ As) as [_ Al].
  destruct (split_season s l Al) as (A & seg & B & -> & FA & FS & FB).
  unfold season_run.
  rewrite (pass_split k s A seg B) by auto. rewrite (app_assoc A1 A), (pass_split k s (A1 ++ A) seg B) by (auto; apply Forall_app; auto).
  rewrite last_of_app.
  set (st := walk k (last_of (last_of None A1) A) seg (head B) season_st0).
  destruct (doy2ce (v_doy theta) s); cbn [bind]; auto.
  repeat match goal with |- context [polar_vector ?a ?b ?c] => destruct (polar_vector a b c); cbn [bind]; auto end.
  repeat match goal with |- context [ce_from_vector ?a ?b ?c] => destruct (ce_from_vector a b c); cbn [bind]; auto end.
  rewrite (int_split k s A seg B) by auto. rewrite (int_split k s (A1 ++ A) seg B) by (auto; apply Forall_app; auto).
  rewrite !last_of_app. reflexivity.
Qed.
Lemma season_run_move L k theta t0 s A1 l r mv : Forall (fun p => p_season p < s) A1 -> ascending (A1 ++ l) ->
  season_run L k theta t0 s (last_of None A1) l = Ret (r, mv) ->
  exists A2 l2, A1 ++ l = A2 ++ l2 /\ Forall (fun p => p_season p < s + 1) A2 /\
    match mv with Some x => x | None => (last_of None A1, l) end = (last_of None A2, l2).
Proof.
  intros F As E. destruct (ascending_app _ _ As) as [_ Al].
  destruct (split_season s l Al) as (A & seg & B & -> & FA & FS & FB).
  unfold season_run in E.
  rewrite (pass_split k s A seg B) in E by auto.
  destruct (doy2ce (v_doy theta) s); cbn [bind] in E; try discriminate E.
  repeat match type of E with context [polar_vector ?a ?b ?c] => destruct (polar_vector a b c); cbn [bind] in E; try discriminate E end.
  repeat match type of E with context [ce_from_vector ?a ?b ?c] => destruct (ce_from_vector a b c); cbn [bind] in E; try discriminate E end.
  rewrite (int_split k s A seg B) in E by auto. injection E as _ <-.
  assert (Forall (fun p => p_season p < s + 1) A1) as F1 by (eapply Forall_impl; [|exact F]; cbn; lia).
  destruct B as [|b B].
  - exists A1, (A ++ seg ++ []). auto.
  - exists (A1 ++ A ++ seg), (b :: B). rewrite <- !app_assoc. split; auto. split.
    + apply Forall_app. split; auto. apply Forall_app. split; (eapply Forall_impl; [|eassumption]); cbn; lia.
    + rewrite !last_of_app. reflexivity.
Qed.

(** The value of metric [m] in year [y]. *)
Lemma write_metrics_spec r y ms bands bands' : length ms = length bands -> write_metrics r y ms bands = Ret bands' ->
  length ms = length bands' /\
  (forall m b', In (m, b') (combine ms bands') -> exists b v, In (m, b) (combine ms bands) /\ stored r m = Ret v /\ set_at b y v = Some b').
Proof.
  revert bands bands'. induction ms as [|m ms IH]; intros [|b bs] bands' L E; cbn in L; try discriminate.
  - cbn in E. injection E as <-. split; auto. intros m b' [].
  - cbn [write_metrics] in E. destruct (stored r m) as [v| |] eqn:Ev; cbn [bind] in E; try discriminate E.
    destruct (set_at b y v) as [b1|] eqn:Eb; cbn [bind of_option] in E; try discriminate E.
    destruct (write_metrics r y ms bs) as [bs'| |] eqn:Eb'; cbn [bind] in E; try discriminate E. injection E as <-.
    destruct (IH bs bs' ltac:(lia) Eb') as [L' H]. split; [cbn; lia|].
    intros m' b' [I|I].
    + injection I as <- <-. exists b, v. repeat split; auto. left; auto.
    + destruct (H m' b' I) as (b0 & v0 & I0 & S0 & W0). exists b0, v0. repeat split; auto. right; auto.
Qed.

Lemma band_inj theta s s' : band_of theta s = band_of theta s' -> s = s'.
Proof. unfold band_of. destruct (v_doy theta <? 182); lia. Qed.

(** The whole loop. *)
Lemma season_loop_spec L k theta t0 ms l : ascending l ->
  forall n s A1 l1 bands bands', 
  A1 ++ l1 = l -> Forall (fun p => p_season p < s) A1 -> length ms = length bands ->
  season_loop L k theta t0 ms n s (last_of None A1) l1 bands = Ret bands' ->
  length ms = length bands' /\
  (forall s', s <= s' < s + Z.of_nat n -> exists v r mv, get_at t0 s' = Some v /\
     season_run L k theta (v_ce v) s' None l = Ret (r, mv) /\
     (forall m b', In (m, b') (combine ms bands') -> exists x, stored r m = Ret x /\ get_at b' (band_of theta s') = Some x)) /\
  (forall m b', In (m, b') (combine ms bands') -> exists b, In (m, b) (combine ms bands) /\ zlen b' = zlen b /\
     (forall y, (forall s', s <= s' < s + Z.of_nat n -> y <> band_of theta s') -> get_at b' y = get_at b y)).
Proof.
  intros As. induction n as [|n IH]; intros s A1 l1 bands bands' E F Lb H; cbn [season_loop] in H.
  { injection H as <-. split; auto. split; [intros s' S'; lia|]. intros m b' I. exists b'. split; auto. }
  destruct (get_at t0 s) as [v|] eqn:Ev; cbn [bind of_option] in H; try discriminate H.
  assert (ascending (A1 ++ l1)) as As1 by (rewrite E; auto).
  pose proof (season_run_suffix L k theta (v_ce v) s A1 l1 F As1) as Q. rewrite E in Q.
  destruct (season_run L k theta (v_ce v) s (last_of None A1) l1) as [[r mv]| |] eqn:Er; cbn [bind] in H; try discriminate H.
  destruct (season_run L k theta (v_ce v) s None l) as [[r' mv']| |] eqn:Er'; try discriminate Q. injection Q as <- <-.
  cbn [fst snd] in H.
  destruct (write_metrics r (band_of theta s) ms bands) as [b1| |] eqn:Ew; cbn [bind] in H; try discriminate H.
  destruct (write_metrics_spec _ _ _ _ _ Lb Ew) as [Lb1 W].
  destruct (season_run_move _ _ _ _ _ _ _ _ _ F As1 Er) as (A2 & l2 & E2 & F2 & M). rewrite M in H.
  destruct (IH (s + 1) A2 l2 b1 bands') as (I1 & I2 & I3); auto; [congruence|].
  split; auto. split.
  - intros s' S'. destruct (Z.eq_dec s' s) as [->|N].
    + exists v, r, mv. split; auto. split; auto. intros m b' I. destruct (I3 m b' I) as (b & Ib & Zb & Gb).
      destruct (W m b Ib) as (b0 & x & I0 & S0 & W0). exists x. split; auto. rewrite Gb.
      * eapply get_set_same; eauto.
      * intros s'' S'' C. apply band_inj in C. lia.
    + destruct (I2 s' ltac:(lia)) as (v' & r' & m' & G' & R' & H'). exists v', r', m'. auto.
  - intros m b' I. destruct (I3 m b' I) as (b & Ib & Zb & Gb). destruct (W m b Ib) as (b0 & x & I0 & S0 & W0).
    exists b0. split; auto. split.
    + rewrite Zb. apply set_at_length in W0. exact W0.
    + intros y Y. rewrite Gb by (intros s' S'; apply Y; lia). eapply get_set_other; eauto.
      intros C. apply (Y s); auto. lia.
Qed.

(** The seasons given by the code never fall. *)
Lemma regular_ascending step start l : forall s y l', regular step start s y l = Ret l' ->
  ascending l' /\ Forall (fun p => s <= p_season p) l' /\ Forall2 (fun p p' => p' = with_season p (p_season p')) l l'.
Proof.
  induction l as [|p r IH]; intros s y l' E; cbn [regular] in E.
  { injection E as <-. split; [exact I|]. split; constructor. }
  destruct (doy2ce start y) as [t| |]; cbn [bind] in E; try discriminate E.
  destruct (if t <=? p_ce p then d <- chk_int (p_ce p - t) ;; Ret (d <=? step) else Ret false) as [b| |]; cbn [bind] in E; try discriminate E.
  set (s' := if b then s + 1 else s) in *. set (y' := if b then y + 1 else y) in *.
  destruct (regular step start s' y' r) as [l1| |] eqn:E1; cbn [bind] in E; try discriminate E. injection E as <-.
  destruct (IH _ _ _ E1) as (A & F & G). assert (s <= s') by (unfold s'; destruct b; lia).
  split; [split; auto|]. split.
  - constructor; [cbn; auto|]. eapply Forall_impl; [|exact F]. cbn. lia.
  - constructor; auto.
Qed.

Lemma same_ascending l l' : Forall2 same_but_cum l l' -> ascending l -> ascending l'.
Proof.
  induction 1 as [|p q r r' H F IH]; [auto|]. cbn [ascending]. intros [A1 A2]. split; [|auto].
  clear IH A2. rewrite (same_season _ _ H). induction F as [|a b r r' Hab F IH]; constructor.
  - inversion A1; subst. rewrite (same_season _ _ Hab). auto.
  - apply IH. inversion A1; auto.
Qed.
Lemma accumulate_fields l l' : accumulate l = Ret l' -> Forall2 same_but_cum l l'.
Proof.
  destruct l as [|p r]; [discriminate|]. rewrite accumulate_norm. intros E.
  assert (l' = norm (with_cum p (p_val p) :: running (p_season p) (p_val p) r)) as -> by congruence.
  eapply F2_trans; [exact same_trans| |apply norm_fields]. constructor; [reflexivity|apply running_fields].
Qed.

(** No number in, no number out: an empty part of the growing season is undefined behaviour. *)
Lemma vector_nan L : atan2_nan L -> polar_vector L B754_nan B754_nan = UB.
Proof. intros H. unfold polar_vector, vector_rad. cbn [widen]. rewrite H. reflexivity. Qed.

Lemma walk_zero k seg : forall prev nxt st,
  (count (fun p => within p (k_start k) (k_end k)) seg = 0 -> x_grow (walk k prev seg nxt st) = x_grow st /\ y_grow (walk k prev seg nxt st) = y_grow st) /\
  (count (fun p => within p (k_start k) (k_mid k)) seg = 0 -> x_early (walk k prev seg nxt st) = x_early st /\ y_early (walk k prev seg nxt st) = y_early st) /\
  (count (fun p => within p (k_mid k) (k_end k)) seg = 0 -> x_late (walk k prev seg nxt st) = x_late st /\ y_late (walk k prev seg nxt st) = y_late st).
Proof.
  induction seg as [|p r IH]; intros prev nxt st; cbn [walk count]; [auto|].
  destruct (IH (Some p) nxt (season_step k prev p (match head r with Some q => Some q | None => nxt end) st)) as (A & B & C).
  pose proof (count_nonneg (fun p => within p (k_start k) (k_end k)) r).
  pose proof (count_nonneg (fun p => within p (k_start k) (k_mid k)) r).
  pose proof (count_nonneg (fun p => within p (k_mid k) (k_end k)) r).
  split; [|split]; intros Z.
  - destruct A as [A1 A2]; [destruct (within p (k_start k) (k_end k)); lia|]. rewrite A1, A2.
    cbn [season_step x_grow y_grow]. destruct (within p (k_start k) (k_end k)); [lia|auto].
  - destruct B as [A1 A2]; [destruct (within p (k_start k) (k_mid k)); lia|]. rewrite A1, A2.
    cbn [season_step x_early y_early]. destruct (within p (k_start k) (k_mid k)); [lia|auto].
  - destruct C as [A1 A2]; [destruct (within p (k_mid k) (k_end k)); lia|]. rewrite A1, A2.
    cbn [season_step x_late y_late]. destruct (within p (k_mid k) (k_end k)); [lia|auto].
Qed.

(** A season that returns has an entry in the early and in the late growing season. *)
Lemma season_run_windows L k theta t0 s l r mv A seg B : atan2_nan L ->
  l = A ++ seg ++ B -> Forall (fun p => p_season p < s) A -> Forall (fun p => p_season p = s) seg -> Forall (fun p => s < p_season p) B ->
  season_run L k theta t0 s None l = Ret (r, mv) ->
  r_st r = walk k (last_of None A) seg (head B) season_st0 /\
  r_int r = walk_int k (r_green r) (r_base r) (last_of None A) seg integrals0 /\
  r_green r = middle (p_val (t_start (r_st r))) (p_val (t_end (r_st r))) /\
  r_base r = middle (p_val (t_left (r_st r))) (p_val (t_right (r_st r))) /\
  r_theta0 r = t0 /\ doy2ce (v_doy theta) s = Ret (r_theta r) /\
  (exists p, In p seg /\ within p (k_start k) (k_end k) = true) /\
  (exists p, In p seg /\ within p (k_start k) (k_mid k) = true) /\
  (exists p, In p seg /\ within p (k_mid k) (k_end k) = true).
Proof.
  intros N -> FA FS FB E. unfold season_run in E. rewrite (pass_split k s A seg B) in E by auto.
  set (st := walk k (last_of None A) seg (head B) season_st0) in *.
  destruct (doy2ce (v_doy theta) s) as [tc| |]; cbn [bind] in E; try discriminate E.
  destruct (walk_counts k seg (last_of None A) (head B) season_st0) as (C1 & C2 & C3). fold st in C1, C2, C3.
  cbn [season_st0 n_grow n_early n_late] in C1, C2, C3. rewrite !Z.add_0_l in *.
  destruct (walk_zero k seg (last_of None A) (head B) season_st0) as (Z1 & Z2 & Z3). fold st in Z1, Z2, Z3.
  cbn [season_st0 x_grow y_grow x_early y_early x_late y_late] in Z1, Z2, Z3.
  pose proof (count_nonneg (fun p => within p (k_start k) (k_end k)) seg) as P1.
  pose proof (count_nonneg (fun p => within p (k_start k) (k_mid k)) seg) as P2.
  pose proof (count_nonneg (fun p => within p (k_mid k) (k_end k)) seg) as P3.
  assert (f32_div zero32 (f32_of_Z 0) = B754_nan) as NN by reflexivity.
  assert (n_grow st <> 0) as G1.
  { intros Z0. destruct Z1 as [X Y]; [lia|]. rewrite Z0, X, Y, NN, (vector_nan L N) in E. discriminate E. }
  destruct (polar_vector L (f32_div (x_grow st) (f32_of_Z (n_grow st))) (f32_div (y_grow st) (f32_of_Z (n_grow st)))) as [g| |]; cbn [bind] in E; try discriminate E.
  assert (n_early st <> 0) as G2.
  { intros Z0. destruct Z2 as [X Y]; [lia|]. rewrite Z0, X, Y, NN, (vector_nan L N) in E. discriminate E. }
  destruct (polar_vector L (f32_div (x_early st) (f32_of_Z (n_early st))) (f32_div (y_early st) (f32_of_Z (n_early st)))) as [e| |]; cbn [bind] in E; try discriminate E.
  assert (n_late st <> 0) as G3.
  { intros Z0. destruct Z3 as [X Y]; [lia|]. rewrite Z0, X, Y, NN, (vector_nan L N) in E. discriminate E. }
  destruct (polar_vector L (f32_div (x_late st) (f32_of_Z (n_late st))) (f32_div (y_late st) (f32_of_Z (n_late st)))) as [w| |]; cbn [bind] in E; try discriminate E.
  repeat match type of E with context [ce_from_vector ?a ?b ?c] => destruct (ce_from_vector a b c); cbn [bind] in E; try discriminate E end.
  rewrite (int_split k s A seg B) in E by auto. injection E as <- _. cbn [r_st r_int r_green r_base r_theta r_theta0].
  repeat split; auto; apply count_pos; lia.
Qed.
