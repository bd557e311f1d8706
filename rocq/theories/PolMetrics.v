(** The metrics written for a pixel. *)
From Coq Require Import Reals Lra.
From Flocq Require Import Core IEEE754.BinarySingleNaN.
From Verif Require Import Base BaseFacts Loops LoopsFacts Float FloatFacts FloatInt RoundModel RoundFacts InterpModel InterpProofs ChunkProofs PolModel PolSpec PolFloat PolSeasons PolCum PolEvents PolLoop PolCoords PolVector PolAdapt PolPixel.
#[local] Open Scope Z_scope.

(** Whether there was any observation. *)
Lemma coords_flag L nodata year_min ny step : in_short nodata -> 1 <= step ->
  forall l left ps ok, Forall (legal_obs year_min ny) l -> every_step step l -> coords L nodata year_min left l = Ret (ps, ok) ->
  (flt zero32 (fst left) = true \/ exists o, In o l /\ o_val o <> nodata) -> ok = true.
Proof.
  intros N S. induction l as [|o r IH]; intros left ps ok F E H V; cbn [coords] in H.
  { injection H as <- <-. reflexivity. }
  inversion F as [|? ? Fo Fr]; subst.
  destruct (fill nodata left o r) as [v ok1] eqn:Ef.
  destruct (chk_int (o_year o - year_min)) as [yr| |]; try discriminate. cbn [bind] in H.
  destruct (polar_coords L _ _ _) as [p| |]; try discriminate. cbn [bind] in H.
  destruct (coords L nodata year_min _ r) as [[ps' ok2]| |] eqn:Ec; try discriminate. cbn [bind fst snd] in H. injection H as <- <-.
  assert (every_step step r) as Er by (cbn [every_step] in E; destruct r; [exact I|destruct E; auto]).
  assert (0 < o_ce o < 2 ^ 24) as Co by (unfold legal_obs in Fo; lia).
  unfold fill in Ef. destruct (o_val o =? nodata) eqn:Eo.
  - destruct (flt zero32 (fst left)) eqn:Fl.
    + cbn [andb] in Ef. rewrite (IH left ps' ok2 Fr Er Ec (or_introl Fl)).
      destruct (flt zero32 (fst (next_valid nodata r _))); injection Ef as _ <-; reflexivity.
    + destruct V as [V|(q & [->|Iq] & Vq)]; [discriminate|lia|].
      rewrite (IH left ps' ok2 Fr Er Ec (or_intror (ex_intro _ q (conj Iq Vq)))).
      cbn [andb] in Ef.
      assert (flt zero32 (fst (next_valid nodata r (f32_of_Z INT_MIN, f32_of_Z nodata))) = true) as Nv.
      { clear -Iq Vq Fr. induction r as [|x r IH]; [contradiction|]. inversion Fr as [|? ? Fx Fr']; subst. cbn [next_valid].
        destruct (o_val x =? nodata) eqn:Ex; [apply IH; auto; destruct Iq as [->|]; auto; lia|]. cbn [fst]. apply pos_flt. unfold legal_obs in Fx. lia. }
      rewrite Nv in Ef. injection Ef as _ <-. reflexivity.
  - injection Ef as _ <-. rewrite (IH _ ps' ok2 Fr Er Ec); auto. left. cbn [fst]. apply pos_flt. auto.
Qed.
Lemma coords_none L nodata year_min l : forall ps ok, l <> [] -> (forall o, In o l -> o_val o = nodata) ->
  coords L nodata year_min (f32_of_Z INT_MIN, f32_of_Z nodata) l = Ret (ps, ok) -> ok = false.
Proof.
  intros ps ok Ne V H. destruct l as [|o r]; [congruence|]. cbn [coords] in H.
  assert (fill nodata (f32_of_Z INT_MIN, f32_of_Z nodata) o r = (f32_of_Z nodata, false)) as Ef.
  { unfold fill. rewrite (V o (or_introl eq_refl)), Z.eqb_refl. cbn [fst snd]. rewrite int_min_neg. cbn [andb].
    assert (forall q, In q r -> o_val q = nodata) as Vr by (intros q Q; apply V; right; auto). clear -Vr.
    replace (next_valid nodata r (f32_of_Z INT_MIN, f32_of_Z nodata)) with (f32_of_Z INT_MIN, f32_of_Z nodata); [cbn [fst]; now rewrite int_min_neg|].
    induction r as [|x r IH]; auto. cbn [next_valid]. rewrite (Vr x (or_introl eq_refl)), Z.eqb_refl. apply IH. intros q Q. apply Vr. right; auto. }
  rewrite Ef in H. destruct (chk_int (o_year o - year_min)) as [yr| |]; try discriminate. cbn [bind] in H.
  destruct (polar_coords L _ _ _) as [p| |]; try discriminate. cbn [bind] in H.
  destruct (coords L nodata year_min _ r) as [[ps' ok2]| |]; try discriminate. cbn [bind fst snd] in H. now injection H as <- <-.
Qed.

(** An entry of the series and the observation it comes from. *)
Definition entry_of (nodata year_min : Z) (o : obs) (p : polar) : Prop :=
  p_ce p = day_of year_min o /\ val_ok (p_val p) /\ (o_val o <> nodata -> p_val p = clamp (f32_of_Z (o_val o))).

Theorem pixel_facts L k opct nodata year_min ms l pct bands :
  atan2_range L -> thresholds_ok k -> 1 <= k_step k <= 364 -> 1 <= k_ny k <= 1000 -> in_short nodata ->
  legal_series (k_step k) year_min (k_ny k) l -> (exists o, In o l /\ o_val o <> nodata) ->
  pixel L k opct nodata year_min false ms l = Ret (pct, bands) ->
  exists theta fl, 0 <= v_doy theta <= 365 /\ Forall2 (entry_of nodata year_min) l fl /\ asc (map p_ce fl) /\ length ms = length bands /\
    (forall s, 0 <= s < k_ny k - 1 -> exists r A seg B, season_of_pixel L k theta s fl r A seg B /\
       (forall m b, In (m, b) (combine ms bands) -> exists x, stored r m = Ret x /\ get_at b (band_of theta s) = Some x)) /\
    (forall m b y, In (m, b) (combine ms bands) -> zlen b = k_ny k /\
       ((forall s, 0 <= s < k_ny k - 1 -> y <> band_of theta s) -> 0 <= y < k_ny k -> get_at b y = Some nodata)).
Proof.
  intros Ra Th St Ny Nd Lg V H. unfold pixel in H. pose proof Lg as [F E].
  assert (match l with [] => True | o :: _ => left_ok nodata (o_ce o) (f32_of_Z INT_MIN, f32_of_Z nodata) end) as Lo by (destruct l; [exact I|left; reflexivity]).
  destruct (coords_ok L nodata year_min (k_ny k) (k_step k) Nd ltac:(lia) l _ Lo F E) as (ps & ok & Ec & G1 & G2).
  pose proof (coords_flag L nodata year_min (k_ny k) (k_step k) Nd ltac:(lia) l _ ps ok F E Ec (or_intror V)) as ->.
  rewrite Ec in H. cbn [bind fst snd] in H.
  destruct (if opct then _ else _) as [pc| |]; try discriminate. cbn [bind] in H.
  destruct (metrics L k nodata ms ps) as [bs| |] eqn:Em; try discriminate. cbn [bind] in H. injection H as -> ->.
  destruct (metrics_facts L k nodata year_min ms l ps bands Ra Th St Ny Lg G1 Em) as (theta & fl & T & K & Ln & M1 & M2).
  destruct (dates_asc year_min (k_ny k) (k_step k) l ps ltac:(lia) F E G1) as [A _].
  exists theta, fl. split; auto. split.
  { clear -K G1 G2. revert fl K. revert G2. induction G1 as [|o p l ps [H1 H2] G IH]; intros G2 fl K; inversion K as [|? q ? fl' [K1 K2] K']; subst; [constructor|].
    inversion G2 as [|? ? ? ? V G2']; subst. constructor; [|apply IH; auto]. split; [|split].
    - rewrite K1, H1. unfold day_of, day_number. lia.
    - rewrite K2. exact H2.
    - intros W. rewrite K2. auto. }
  split; [destruct (keeps_dates _ _ K) as [-> _]; exact A|]. auto.
Qed.

Lemma asc_app a b : asc (a ++ b) -> asc a /\ asc b /\ forall x y, In x a -> In y b -> x <= y.
Proof.
  induction a as [|z a IH]; cbn; [tauto|]. intros [H1 H2]. destruct (IH H2) as (I1 & I2 & I3).
  rewrite Forall_forall in H1. split; [split; auto; apply Forall_forall; intros y Y; apply H1, in_app_iff; auto|]. split; auto.
  intros x y [->|X] Y; [apply H1, in_app_iff; auto|auto].
Qed.

(** The events of a season of a pixel, in order. *)
Lemma so_events L k theta s fl r A seg B : thresholds_ok k -> asc (map p_ce fl) -> season_of_pixel L k theta s fl r A seg B ->
  let t := r_st r in
  (p_ce (PolModel.t_left t) <= p_ce (t_start t) <= p_ce (t_mid t)) /\ (p_ce (t_mid t) <= p_ce (t_end t) <= p_ce (t_right t)) /\
  (p_ce (t_start t) <= p_ce (t_peak t) <= p_ce (t_end t)) /\
  In (PolModel.t_left t) fl /\ In (t_start t) fl /\ In (t_mid t) fl /\ In (t_peak t) fl /\ In (t_end t) fl /\ In (t_right t) fl /\
  (B2R (p_val (t_start t)) <= B2R (p_val (t_peak t)))%R /\ (B2R (p_val (t_mid t)) <= B2R (p_val (t_peak t)))%R /\
  in_season k (t_peak t) = true /\ (forall p, In p seg -> in_season k p = true -> (B2R (p_val p) <= B2R (p_val (t_peak t)))%R).
Proof.
  intros Th As [Sp Sh St _ _ _ W1 W2 W3 _ _ _] t. subst t. 
  pose proof (walk_events k (last_of None A) seg (head B) Th Sh) as Ev. rewrite <- St in Ev.
  rewrite Sp, !map_app in As. destruct (asc_app _ _ As) as (_ & As2 & _). destruct (asc_app _ _ As2) as (As3 & _ & As4).
  assert (forall q p, head B = Some q -> In p seg -> p_ce p <= p_ce q) as Hd.
  { intros q p Q I. apply As4; apply in_map; auto. destruct B; [discriminate|]. injection Q as ->. left; auto. }
  destruct (events_order k seg (head B) (r_st r) Th Sh Ev As3 Hd) as (O1 & O2 & O3).
  pose proof (walk_peak_spec k (last_of None A) seg (head B) Th Sh W1) as Pk. cbv zeta in Pk. rewrite <- St in Pk. destruct Pk as (P1 & P2 & P3 & P4).
  destruct Ev as [E1 E2 E3 E4 E5].
  assert (forall p, In p seg -> In p fl) as In1 by (intros p I; rewrite Sp, !in_app_iff; auto).
  apply find_in in E1 as F1. apply find_in in E2 as F2. apply find_in in E3 as F3. apply find_in in E4 as F4.
  destruct Th as (T1 & T2 & T3 & T4 & T5 & T6 & T7).
  assert (in_season k (t_start (r_st r)) = true) as SS.
  { destruct W2 as (p & Ip & Wp). apply (within_R seg) in Wp; auto.
    apply (within_R seg); try tauto. split; [apply (reached_R seg); tauto|].
    assert (B2R (p_cum (t_start (r_st r))) <= B2R (p_cum p))%R; [|lra].
    eapply (find_earlier_share (fun q => reached q (k_start k)) seg); eauto; [apply (reached_R seg); auto; lra|].
    apply Sh. }
  assert (in_season k (t_mid (r_st r)) = true) as SM.
  { destruct W3 as (p & Ip & Wp). apply (within_R seg) in Wp; auto.
    apply (within_R seg); try tauto. assert (B2R (k_mid k) <= B2R (p_cum (t_mid (r_st r))))%R by (apply (reached_R seg); tauto).
    split; [lra|].
    assert (B2R (p_cum (t_mid (r_st r))) <= B2R (p_cum p))%R; [|lra].
    eapply (find_earlier_share (fun q => reached q (k_mid k)) seg); eauto; [apply (reached_R seg); auto; lra|].
    apply Sh. }
  repeat split; try tauto; try (apply O3; auto); try (apply In1; tauto); try (apply P4; tauto).
  - rewrite E5. destruct B as [|q B]; cbn [head].
    + destruct (shared_last seg Sh) as (q & z & -> & _). rewrite last_last. apply In1, in_app_iff. right; left; auto.
    + rewrite Sp, !in_app_iff. right; right; left; auto.
Qed.

Lemma entry_in nodata year_min ny l fl p : Forall (legal_obs year_min ny) l -> Forall2 (entry_of nodata year_min) l fl -> In p fl ->
  exists o, In o l /\ entry_of nodata year_min o p /\ 0 <= p_ce p <= 365 * ny.
Proof.
  intros F G. induction G as [|o q l fl H G IH]; [contradiction|]. inversion F as [|? ? Fo Fr]; subst. intros [->|I].
  - exists o. split; [left; auto|]. split; auto. destruct H as [H _]. unfold day_of in H. unfold legal_obs in Fo. pose proof (back_range (o_doy o)). nia.
  - destruct (IH Fr I) as (o' & I1 & I2). exists o'. split; [right|]; auto.
Qed.

Lemma to_short_id z : -32768 <= z <= 32767 -> to_short z = z.
Proof. intros H. unfold to_short. rewrite Z.mod_small by lia. lia. Qed.

Lemma short_trunc {p e} (x : binary_float p e) z : short_of_float x = Ret z -> trunc_of x = Some z /\ in_short z.
Proof.
  unfold short_of_float. destruct (trunc_of x) as [t|]; try discriminate. cbn [of_option bind]. destruct (in_shortb t) eqn:E; try discriminate.
  intros [= <-]. split; auto. now apply in_shortb_spec.
Qed.
Lemma trunc_fin {p e} (x : binary_float p e) z : trunc_of x = Some z -> fin x.
Proof. destruct x; try discriminate; reflexivity. Qed.
Lemma short_mono {p e} (x y : binary_float p e) a b : short_of_float x = Ret a -> short_of_float y = Ret b -> (B2R x <= B2R y)%R -> a <= b.
Proof.
  intros H1 H2 H. apply short_trunc in H1. apply short_trunc in H2. destruct H1 as [H1 _], H2 as [H2 _].
  pose proof (trunc_fin _ _ H1) as F1. pose proof (trunc_fin _ _ H2) as F2.
  rewrite trunc_of_spec in H1, H2 by auto. injection H1 as <-. injection H2 as <-. now apply Ztrunc_le.
Qed.
Lemma short_clamp v z : in_short v -> short_of_float (clamp (f32_of_Z v)) = Ret z -> z = Z.max 0 v.
Proof.
  intros I H. apply short_trunc in H. destruct H as [H _]. destruct (short_fin v I) as [[F E] _]. unfold clamp in H.
  destruct (flt (f32_of_Z v) zero32) eqn:L.
  - apply flt_R in L; auto; [|reflexivity]. rewrite E in L. change (B2R zero32) with (IZR 0) in L. apply lt_IZR in L.
    cbn in H. injection H as <-. lia.
  - assert (~ (IZR v < 0)%R) as L'. { intros C. rewrite <- E in C. apply (proj2 (flt_R (f32_of_Z v) zero32 F eq_refl)) in C. congruence. }
    apply Rnot_lt_le in L'. apply (le_IZR 0) in L'. rewrite (trunc_isZ _ v) in H by (split; auto). injection H as <-. lia.
Qed.
