(** C82-C89: polarmetrics. *)
From Coq Require Import Reals Lra.
From Flocq Require Import Core IEEE754.BinarySingleNaN.
From Verif Require Import Base BaseFacts Loops LoopsFacts Float FloatFacts FloatInt RoundModel RoundFacts InterpModel InterpProofs ChunkProofs PolModel PolSpec PolFloat PolSeasons PolCum PolEvents PolLoop PolCoords PolVector PolAdapt PolPixel PolMetrics PolExact.
#[local] Open Scope Z_scope.

(** In a year of a pixel either a season was written, or no data. *)
Lemma year_cases L k opct nodata year_min ms l pct bands : atan2_range L -> legal_pixel k nodata year_min l ->
  pixel L k opct nodata year_min false ms l = Ret (pct, bands) ->
  exists theta fl, 0 <= v_doy theta <= 365 /\ Forall2 (entry_of nodata year_min) l fl /\ asc (map p_ce fl) /\ length ms = length bands /\
    forall y, (exists s r A seg B, 0 <= s < k_ny k - 1 /\ y = band_of theta s /\ season_of_pixel L k theta s fl r A seg B /\
                 forall m v, written ms bands m y v -> stored r m = Ret v) \/
              (forall m v, written ms bands m y v -> v = nodata).
Proof.
  intros Ra (Th & St & Ny & Nd & Lg & V) H.
  destruct (pixel_facts L k opct nodata year_min ms l pct bands Ra Th St ltac:(lia) Nd Lg V H) as (theta & fl & T & E & As & Ln & M1 & M2).
  exists theta, fl. split; auto. split; auto. split; auto. split; auto. intros y.
  assert ((exists s, 0 <= s < k_ny k - 1 /\ y = band_of theta s) \/ (forall s, 0 <= s < k_ny k - 1 -> y <> band_of theta s)) as [(s & S & ->)|Q].
  { unfold band_of. destruct (v_doy theta <? 182).
    - destruct (Z_le_gt_dec 0 y); [destruct (Z_lt_ge_dec y (k_ny k - 1))|]; [left; exists y; lia|right; intros; lia..].
    - destruct (Z_le_gt_dec 1 y); [destruct (Z_lt_ge_dec y (k_ny k))|]; [left; exists (y - 1); lia|right; intros; lia..]. }
  - left. destruct (M1 s S) as (r & A & seg & B & Sp & W). exists s, r, A, seg, B. split; auto. split; auto. split; auto.
    intros m v (b & I & G). destruct (W m b I) as (x & X1 & X2). congruence.
  - right. intros m v (b & I & G). destruct (M2 m b y I) as [Z1 Z2].
    pose proof (get_at_inv _ _ _ G). rewrite (Z2 Q ltac:(lia)) in G. congruence.
Qed.

(** ** C84: the dates of a season are in order. *)
Theorem C84_dates_in_order L k opct nodata year_min ms l pct bands : atan2_range L -> legal_pixel k nodata year_min l ->
  pixel L k opct nodata year_min false ms l = Ret (pct, bands) ->
  forall y m m' d d', written ms bands m y d -> written ms bands m' y d' ->
  (forall a b, date_rank m = Some a -> date_rank m' = Some b -> a <= b -> d <= d') /\
  (forall a, m' = DPS -> date_rank m = Some a -> a <= 1 -> d <= d') /\
  (forall a, m = DPS -> date_rank m' = Some a -> 3 <= a -> d <= d').
Proof.
  intros Ra Lp H y m m' d d' W W'. pose proof Lp as (Th & St & Ny & Nd & [F E] & V).
  destruct (year_cases L k opct nodata year_min ms l pct bands Ra Lp H) as (theta & fl & T & G & As & Ln & C).
  destruct (C y) as [(s & r & A & seg & B & S & Y & Sp & X)|X].
  2:{ rewrite (X m d W), (X m' d' W'). repeat split; intros; lia. }
  apply X in W. apply X in W'.
  destruct (so_events L k theta s fl r A seg B Th As Sp) as (O1 & O2 & O3 & I1 & I2 & I3 & I4 & I5 & I6 & _).
  assert (forall p, In p fl -> to_short (p_ce p) = p_ce p) as Sh.
  { intros p I. destruct (entry_in nodata year_min (k_ny k) l fl p F G I) as (_ & _ & _ & Bd). apply to_short_id. lia. }
  rewrite <- (Sh _ I1), <- (Sh _ I2), <- (Sh _ I3), <- (Sh _ I4), <- (Sh _ I5), <- (Sh _ I6) in *.
  repeat split; intros.
  - destruct m; try discriminate; destruct m'; try discriminate; cbn in *; injection W as <-; injection W' as <-;
      repeat match goal with K : Some _ = Some _ |- _ => injection K as <- end; try (subst; lia); try lia.
  - subst m'. destruct m; try discriminate; cbn in *; injection W as <-; injection W' as <-;
      repeat match goal with K : Some _ = Some _ |- _ => injection K as <- end; lia.
  - subst m. destruct m'; try discriminate; cbn in *; injection W as <-; injection W' as <-;
      repeat match goal with K : Some _ = Some _ |- _ => injection K as <- end; lia.
Qed.

(** ** C82: an event is an observation of the series, its date the day of the observation. *)
Lemma event_entry L k theta s fl r A seg B m m' d v : thresholds_ok k -> asc (map p_ce fl) -> season_of_pixel L k theta s fl r A seg B ->
  event m m' -> stored r m = Ret d -> stored r m' = Ret v -> exists p, In p fl /\ d = to_short (p_ce p) /\ short_of_float (p_val p) = Ret v.
Proof.
  intros Th As Sp Ev S1 S2. destruct (so_events L k theta s fl r A seg B Th As Sp) as (_ & _ & _ & I1 & I2 & I3 & I4 & I5 & I6 & _).
  inversion Ev; subst; cbn [stored] in *; injection S1 as <-; eexists; (split; [|split; [reflexivity|exact S2]]); assumption.
Qed.

Theorem C82_events_are_observations_partial L k opct nodata year_min ms l pct bands : atan2_range L -> legal_pixel k nodata year_min l ->
  pixel L k opct nodata year_min false ms l = Ret (pct, bands) ->
  forall y m m' d v, event m m' -> written ms bands m y d -> written ms bands m' y v ->
  (d = nodata /\ v = nodata) \/
  exists o, In o l /\ d = day_of year_min o /\ (o_val o <> nodata -> v = Z.max 0 (o_val o)).
Proof.
  intros Ra Lp H y m m' d v Ev W W'. pose proof Lp as (Th & St & Ny & Nd & [F E] & V).
  destruct (year_cases L k opct nodata year_min ms l pct bands Ra Lp H) as (theta & fl & T & G & As & Ln & C).
  destruct (C y) as [(s & r & A & seg & B & S & Y & Sp & X)|X]; [right|left; split; [exact (X m d W)|exact (X m' v W')]].
  apply X in W. apply X in W'.
  destruct (event_entry L k theta s fl r A seg B m m' d v Th As Sp Ev W W') as (p & Ip & -> & Sv).
  destruct (entry_in nodata year_min (k_ny k) l fl p F G Ip) as (o & Io & (E1 & _ & E2) & Bd).
  exists o. split; auto. split; [rewrite to_short_id by lia; exact E1|]. intros No. rewrite (E2 No) in Sv.
  apply short_clamp in Sv; auto. rewrite Forall_forall in F. apply (F o Io).
Qed.
(** The day is the date of the observation on all but seven days of the year ... *)
Theorem C82_day_of_observation_partial year_min o : ~ In (o_doy o) lost_days -> day_of year_min o = 365 * (o_year o - year_min) + o_doy o.
Proof.
  intros N. unfold day_of, back. destruct (existsb (Z.eqb (o_doy o)) lost_days) eqn:E; auto.
  apply existsb_exists in E. destruct E as (x & I & Q). apply Z.eqb_eq in Q. subst. contradiction.
Qed.
(** ... and one day early on these: the polar coordinates of the day 63 (4 March) are those of the day 62. *)
Theorem C82_day_lost_refuted L v : In 63 lost_days /\
  exists p, polar_coords L (rad_of_doy 63) v (f32_of_Z 0) = Ret p /\ p_doy p = 62 /\ p_ce p = 62.
Proof.
  split; [cbn; tauto|]. unfold polar_coords. rewrite int_of_f32 by lia. cbn [bind].
  assert (int_of (doy_of_rad (rad_of_doy 63)) = Ret 62) as -> by (vm_compute; reflexivity). cbn [bind].
  rewrite doy2ce_ok by lia. cbn [bind]. eexists. split; [reflexivity|]. split; reflexivity.
Qed.

(** ** C83: seasons begin at the same day of every year. *)
Theorem C83_seasons_by_date_partial year_min ny step start l ps : legal_series step year_min ny l -> Forall2 (of_obs year_min) l ps ->
  0 <= start <= 365 -> 1 <= step <= 364 -> ny <= 1000 ->
  (forall p, head ps = Some p -> p_ce p <= start + step) ->
  regular step start (-1) 0 ps = Ret (map (fun p => with_season p (season_of start (p_ce p))) ps).
Proof.
  intros [F E] G T S N Hd. destruct (dates_asc year_min ny step l ps ltac:(lia) F E G) as [A D].
  assert (Forall (fun p => 0 <= p_ce p <= 366000) ps) as B.
  { clear -F G N. induction G as [|o p l ps X G IH]; [constructor|]. inversion F as [|? ? Fo Fr]; subst. constructor; auto.
    pose proof (date_rel _ _ _ _ Fo X) as Dr. destruct X as [X _]. unfold legal_obs in Fo. unfold day_number in X.
    pose proof (back_range (o_doy o)). lia. }
  destruct ps as [|p ps]; [reflexivity|]. inversion B as [|? ? B1 B2]; subst. specialize (Hd p eq_refl).
  apply regular_all; auto; try lia. eapply Forall_impl; [|exact B2]. cbv beta. intros; lia.
Qed.
(** A series that begins later than one step after the start of the year has no seasons, so its metrics never exist. *)
Theorem C83_late_series_refuted L k nodata year_min ms l ps theta bands : atan2_range L -> thresholds_ok k -> 1 <= k_step k <= 364 -> 2 <= k_ny k <= 1000 ->
  k_adaptive k = false ->
  legal_series (k_step k) year_min (k_ny k) l -> Forall2 (of_obs year_min) l ps -> start_of_year L ps = Ret theta ->
  (forall p, head ps = Some p -> v_doy theta + k_step k < p_ce p) -> metrics L k nodata ms ps <> Ret bands.
Proof.
  intros Ra Th St Ny Ad [F E] G Et Hd H.
  destruct (start_range L ps theta Ra Et) as (Td & Tr & Ti).
  unfold metrics in H. rewrite Et in H. cbn [bind] in H.
  destruct (dates_asc year_min (k_ny k) (k_step k) l ps ltac:(lia) F E G) as [A D].
  assert (Forall (fun p => v_doy theta + k_step k < p_ce p <= 1000000000) ps) as B.
  { assert (Forall (fun p => p_ce p <= 366000) ps) as Bd.
    { clear -F G Ny. induction G as [|o p l ps X G IH]; [constructor|]. inversion F as [|? ? Fo Fr]; subst. constructor; auto.
      destruct X as [X _]. unfold legal_obs in Fo. unfold day_number in X. pose proof (back_range (o_doy o)). lia. }
    destruct ps as [|p ps]; [constructor|]. specialize (Hd p eq_refl). inversion Bd as [|? ? B1 B2]; subst.
    constructor; [lia|]. cbn [map asc] in A. destruct A as [A _]. rewrite Forall_map in A. rewrite Forall_forall in *.
    intros q Q. specialize (A q Q). specialize (B2 q Q). cbv beta in A. lia. }
  unfold seasons in H. rewrite regular_none in H by (auto; lia). cbn [bind] in H. unfold variable in H. rewrite Ad in H. cbn [negb bind fst snd] in H.
  destruct (accumulate (map (fun p => with_season p (-1)) ps)) as [c| |] eqn:Ea; try discriminate. cbn [bind fst snd] in H.
  pose proof (accumulate_fields _ _ Ea) as K.
  assert (Forall (fun p => p_season p = -1) c) as Sc.
  { assert (Forall (fun p => p_season p = -1) (map (fun p => with_season p (-1)) ps)) as S0 by (apply Forall_map, Forall_forall; reflexivity).
    clear -K S0. induction K as [|x y X Y R K IH]; constructor; inversion S0; subst; auto. rewrite (same_season _ _ R). auto. }
  replace (Z.to_nat (k_ns k)) with (S (Z.to_nat (k_ns k - 1))) in H by (unfold k_ns; lia). cbn [season_loop] in H.
  destruct (get_at (repeat _ _) 0) as [v|]; try discriminate. cbn [of_option bind] in H.
  destruct (season_run L k theta (v_ce v) 0 None c) as [[r mv]| |] eqn:Er; try discriminate.
  assert (atan2_nan L) as Rn by (apply (proj1 (Ra B754_nan B754_nan)); left; reflexivity).
  destruct (season_run_windows L k theta (v_ce v) 0 c r mv c [] [] Rn) as (_ & _ & _ & _ & _ & _ & (p & [] & _) & _); auto.
  - now rewrite app_nil_r.
  - eapply Forall_impl; [|exact Sc]. cbv beta. intros q Q. rewrite Q. lia.
Qed.

(** ** C85: the peak. *)
Theorem C85_peak_is_highest L k opct nodata year_min ms l pct bands : atan2_range L -> legal_pixel k nodata year_min l ->
  pixel L k opct nodata year_min false ms l = Ret (pct, bands) ->
  forall y m v w, m = VSS \/ m = VMS -> written ms bands VPS y v -> written ms bands m y w -> w <= v.
Proof.
  intros Ra Lp H y m v w Hm W W'. pose proof Lp as (Th & St & Ny & Nd & [F E] & V).
  destruct (year_cases L k opct nodata year_min ms l pct bands Ra Lp H) as (theta & fl & T & G & As & Ln & C).
  destruct (C y) as [(s & r & A & seg & B & S & Y & Sp & X)|X]; [|rewrite (X _ _ W), (X _ _ W'); lia].
  apply X in W. apply X in W'.
  destruct (so_events L k theta s fl r A seg B Th As Sp) as (_ & _ & _ & _ & _ & _ & _ & _ & _ & P1 & P2 & _).
  destruct Hm as [-> | ->]; cbn [stored] in *; [exact (short_mono _ _ _ _ W' W P1)|exact (short_mono _ _ _ _ W' W P2)].
Qed.
Theorem C85_peak_amplitude L k opct nodata year_min ms l pct bands : atan2_range L -> legal_pixel k nodata year_min l ->
  (forall o, In o l -> o_val o <> nodata) ->
  pixel L k opct nodata year_min false ms l = Ret (pct, bands) ->
  forall y v w a, written ms bands VPS y v -> written ms bands VMS y w -> written ms bands VPA y a ->
  (v = nodata /\ w = nodata /\ a = nodata) \/ (a = v - w /\ 0 <= a).
Proof.
  intros Ra Lp Full H y v w a W1 W2 W3. pose proof Lp as (Th & St & Ny & Nd & [F E] & V).
  destruct (year_cases L k opct nodata year_min ms l pct bands Ra Lp H) as (theta & fl & T & G & As & Ln & C).
  destruct (C y) as [(s & r & A & seg & B & S & Y & Sp & X)|X]; [right|left; split; [exact (X _ _ W1)|split; [exact (X _ _ W2)|exact (X _ _ W3)]]].
  apply X in W1. apply X in W2. apply X in W3.
  destruct (so_events L k theta s fl r A seg B Th As Sp) as (_ & _ & _ & _ & _ & I3 & I4 & _ & _ & _ & P2 & _).
  destruct (entry_in nodata year_min (k_ny k) l fl _ F G I3) as (o & Io & Eo & _).
  destruct (entry_in nodata year_min (k_ny k) l fl _ F G I4) as (q & Iq & Eq & _).
  rewrite Forall_forall in F.
  destruct (clamp_whole nodata year_min (k_ny k) o _ (F o Io) Eo (Full o Io)) as (n & Zn & Rn).
  destruct (clamp_whole nodata year_min (k_ny k) q _ (F q Iq) Eq (Full q Iq)) as (n' & Zn' & Rn').
  cbn [stored] in *. apply short_trunc in W1. apply short_trunc in W2. apply short_trunc in W3.
  rewrite (trunc_isZ _ _ Zn') in W1. rewrite (trunc_isZ _ _ Zn) in W2.
  rewrite (trunc_isZ _ _ (isZ32_sub _ _ _ _ Zn' Zn ltac:(lia))) in W3.
  destruct W1 as [[= <-] _], W2 as [[= <-] _], W3 as [[= <-] _]. split; auto.
  destruct Zn as [_ Zn], Zn' as [_ Zn']. rewrite Zn, Zn' in P2. apply le_IZR in P2. lia.
Qed.

(** ** C86: the integral is what lies below and what lies above the base. *)
Theorem C86_integrals_add_up L k opct nodata year_min ms l pct bands : atan2_range L -> legal_pixel k nodata year_min l ->
  (forall o, In o l -> o_val o <> nodata) -> k_step k <= 255 ->
  pixel L k opct nodata year_min false ms l = Ret (pct, bands) ->
  forall y t b s, written ms bands IBT y t -> written ms bands IBL y b -> written ms bands IST y s ->
  (t = nodata /\ b = nodata /\ s = nodata) \/ (0 <= b /\ 0 <= s /\ 0 <= t - b - s <= 1).
Proof.
  intros Ra Lp Full Ks H y t bl is W1 W2 W3. pose proof Lp as (Th & St & Ny & Nd & [F E] & V).
  destruct (year_cases L k opct nodata year_min ms l pct bands Ra Lp H) as (theta & fl & T & G & As & Ln & C).
  destruct (C y) as [(s & r & A & seg & B & S & Y & Sp & X)|X]; [right|left; split; [exact (X _ _ W1)|split; [exact (X _ _ W2)|exact (X _ _ W3)]]].
  apply X in W1. apply X in W2. apply X in W3. clear X.
  destruct (so_events L k theta s fl r A seg B Th As Sp) as (_ & _ & _ & I1 & _ & _ & _ & _ & I6 & _).
  assert (forall p, In p fl -> whole p) as Wh.
  { intros p Ip. destruct (entry_in nodata year_min (k_ny k) l fl p F G Ip) as (o & Io & Eo & _). rewrite Forall_forall in F.
    exact (clamp_whole nodata year_min (k_ny k) o p (F o Io) Eo (Full o Io)). }
  destruct (Wh _ I1) as (n1 & Z1 & R1). destruct (Wh _ I6) as (n6 & Z6 & R6).
  destruct Sp as [Spl _ _ Si _ Sb _ _ _ _ _ _].
  pose proof (isH_middle _ _ _ _ Z1 Z6 ltac:(lia)) as Hb. rewrite <- Sb in Hb.
  assert (Forall whole seg) as Ws by (apply Forall_forall; intros p Ip; apply Wh; rewrite Spl, !in_app_iff; auto).
  assert (zlen seg <= 365 * 88) as Ls.
  { pose proof (series_length year_min (k_ny k) (k_step k) l ltac:(lia) ltac:(lia) F E) as Sl.
    assert (length l = length fl) as Lf by (eapply F2_app_len; exact G). unfold zlen in *. rewrite Spl, !app_length in Lf. lia. }
  assert (isH zero64 0) as Hz by (split; [reflexivity|cbn; lra]).
  destruct (walk_exact k (r_green r) (r_base r) (n1 + n6) ltac:(lia) Hb ltac:(lia) seg (last_of None A) integrals0 0 0 Ws Hz Hz Hz ltac:(lia) ltac:(lia))
    as (S' & L' & H1 & H2 & H3 & H4 & H5 & H6); [unfold zlen in *; lia|].
  rewrite <- Si in H1, H2, H3. cbn [stored] in *.
  apply (per_exact _ _ _ H3) in W1; [|lia]. apply (per_exact _ _ _ H2) in W2; [|lia]. apply (per_exact _ _ _ H1) in W3; [|lia].
  subst. split; [apply Z.div_pos; lia|]. split; [apply Z.div_pos; lia|]. pose proof (parts_of_730 S' L' H4 H5). lia.
Qed.

(** A strongly oscillating season: the integral of the rising parts does not fit (0 and 10000 in turn every 15 days). *)
Definition swing (n : nat) : list polar :=
  map (fun i => mkPolar zero32 (f32_of_Z (if Nat.even i then 0 else 10000)) zero32 zero32 zero32 0 0 0 0) (seq 0 n).
Definition k0 : pol_par := mkPar (f32_div (f32_of_Z 1) (f32_of_Z 5)) (f32_div (f32_of_Z 1) (f32_of_Z 2)) (f32_div (f32_of_Z 4) (f32_of_Z 5)) true 2 15.
Theorem C86_rising_integral_refuted green base r :
  r_int r = walk_int k0 green base None (swing 24) integrals0 -> stored r IRR = UB.
Proof.
  intros H. cbn [stored]. rewrite H.
  assert (forall seg prev a b, i_rise a = i_rise b -> i_rise (walk_int k0 green base prev seg a) = i_rise (walk_int k0 zero32 zero32 prev seg b)) as W.
  { induction seg as [|p seg IH]; intros prev a b Q; cbn [walk_int]; auto. apply IH. unfold integral_step. cbn [i_rise]. now rewrite Q. }
  rewrite (W (swing 24) None integrals0 integrals0 eq_refl). vm_compute. reflexivity.
Qed.

(** ** C87: which years are written. *)
Theorem C87_years L k opct nodata year_min ms l pct bands : atan2_range L -> legal_pixel k nodata year_min l ->
  pixel L k opct nodata year_min false ms l = Ret (pct, bands) ->
  length ms = length bands /\ (forall b, In b bands -> zlen b = k_ny k) /\
  exists y, (y = 0 \/ y = k_ny k - 1) /\ forall m v, written ms bands m y v -> v = nodata.
Proof.
  intros Ra (Th & St & Ny & Nd & Lg & V) H.
  destruct (pixel_facts L k opct nodata year_min ms l pct bands Ra Th St ltac:(lia) Nd Lg V H) as (theta & fl & T & E & As & Ln & M1 & M2).
  split; auto. split.
  - intros b Ib. destruct (In_nth bands b [] Ib) as (n & N & Eb).
    destruct ms as [|m0 ms'] eqn:Em; [cbn in Ln; lia|]. rewrite <- Em in *.
    apply (M2 (nth n ms m0) b 0). rewrite <- Eb, <- combine_nth by auto. apply nth_In. rewrite combine_length. lia.
  - unfold band_of in *. destruct (v_doy theta <? 182).
    + exists (k_ny k - 1). split; auto. intros m v (b & Ib & G). destruct (M2 m b (k_ny k - 1) Ib) as [Z1 Z2].
      rewrite Z2 in G; [congruence|intros; lia|lia].
    + exists 0. split; auto. intros m v (b & Ib & G). destruct (M2 m b 0 Ib) as [Z1 Z2].
      rewrite Z2 in G; [congruence|intros; lia|lia].
Qed.
Lemma empty_written k nodata ms m y v : written ms (empty_bands k nodata ms) m y v -> v = nodata.
Proof.
  intros (b & I & G). apply empty_bands_In in I. subst b. apply get_at_In, repeat_spec in G. exact G.
Qed.
Theorem C87_no_data L k opct nodata year_min masked ms l pct bands :
  masked = true \/ (l <> [] /\ forall o, In o l -> o_val o = nodata) ->
  pixel L k opct nodata year_min masked ms l = Ret (pct, bands) ->
  length bands = length ms /\ forall m y v, written ms bands m y v -> v = nodata.
Proof.
  intros D H. unfold pixel in H.
  enough (bands = empty_bands k nodata ms) as ->.
  { split; [unfold empty_bands; now rewrite map_length|]. intros m y v. apply empty_written. }
  destruct masked; [congruence|]. destruct D as [D|[D1 D2]]; [discriminate|].
  destruct (coords L nodata year_min _ l) as [[ps ok]| |] eqn:Ec; try discriminate. cbn [bind fst snd] in H.
  destruct (if opct then _ else _) as [pc| |]; try discriminate. cbn [bind] in H.
  rewrite (coords_none L nodata year_min l ps ok D1 D2 Ec) in H. congruence.
Qed.
(** Without a metric the requested series of polar coordinates is not computed at all. *)
Theorem C87_coordinates_alone_refuted L k nodata year_min l : polar_ts L k true nodata year_min false [] l = Ret (CANCEL, (None, [])).
Proof. reflexivity. Qed.
(** A pixel without data gets 0, not nodata, in this series. *)
Lemma mul_zero x : is_finite x = true -> short_of_float (narrow (f64_mul (widen zero32) x)) = Ret 0.
Proof. destruct x as [s|s| |s m e B]; try discriminate; intros _; destruct s; reflexivity. Qed.
Theorem C87_coordinates_of_no_data_refuted L k nodata year_min o : trig_range L -> legal_obs year_min 1 o -> o_val o = nodata -> nodata < 0 ->
  exists bands, pixel L k true nodata year_min false [] [o] = Ret (Some ([0], [0]), bands).
Proof.
  intros Tr Fo V N. unfold pixel. cbn [coords]. unfold fill. rewrite V, Z.eqb_refl. cbn [next_valid fst snd]. rewrite int_min_neg. cbn [andb].
  assert (chk_int (o_year o - year_min) = Ret (o_year o - year_min)) as ->.
  { unfold chk_int, in_intb. unfold legal_obs in Fo. replace ((-2147483648 <=? o_year o - year_min) && (o_year o - year_min <=? 2147483647)) with true by lia. reflexivity. }
  cbn [bind].
  assert (in_short nodata) as Is by (rewrite <- V; apply Fo). destruct (short_fin nodata Is) as [[F E] _].
  rewrite (proj2 (flt_R (f32_of_Z nodata) zero32 F eq_refl)) by (rewrite E; apply (IZR_lt _ 0); auto).
  unfold polar_coords. rewrite int_of_f32 by (unfold legal_obs in Fo; lia). cbn [bind].
  pose proof (day_back_spec (o_doy o) ltac:(unfold legal_obs in Fo; lia)) as Db. unfold day_back in Db. rewrite Db. cbn [bind].
  rewrite doy2ce_ok by (unfold legal_obs in Fo; destruct (existsb _ _); lia). cbn [bind fst snd omap p_pcx p_pcy].
  assert (is_finite (widen (rad_of_doy (o_doy o))) = true) as Fw.
  { assert (int_of (doy_of_rad (rad_of_doy (o_doy o))) <> UB) as Q by (rewrite Db; discriminate).
    destruct (rad_of_doy (o_doy o)) as [[]|[]| |s m e B] eqn:Er; try (exfalso; apply Q; reflexivity); try reflexivity.
    apply (widen_R (B754_finite s m e B)). reflexivity. }
  destruct (Tr _ Fw) as (C1 & _ & C2 & _). rewrite !mul_zero by auto. cbn [bind andb]. eexists. reflexivity.
Qed.

(** ** C88: lengths and dates of mean vectors. *)
Lemma sub_short_range a b d : sub_short a b = Ret d -> -32768 <= a - b <= 32767 -> d = a - b.
Proof. unfold sub_short. destruct (chk_int (a - b)) as [x| |] eqn:C; try discriminate. unfold chk_int in C. destruct (in_intb (a - b)); try discriminate. injection C as <-. intros [= <-] R. now apply to_short_id. Qed.
Theorem C88_lengths L k opct nodata year_min ms l pct bands : atan2_range L -> legal_pixel k nodata year_min l ->
  pixel L k opct nodata year_min false ms l = Ret (pct, bands) ->
  forall y m a b n d d', span m a b -> written ms bands m y n -> written ms bands a y d -> written ms bands b y d' ->
  (n = nodata /\ d = nodata /\ d' = nodata) \/ n = d' - d.
Proof.
  intros Ra Lp H y m a b n d d' Sn W1 W2 W3. pose proof Lp as (Th & St & Ny & Nd & [F E] & V).
  destruct (year_cases L k opct nodata year_min ms l pct bands Ra Lp H) as (theta & fl & T & G & As & Ln & C).
  destruct (C y) as [(s & r & A & seg & B & S & Y & Sp & X)|X]; [right|left; split; [exact (X _ _ W1)|split; [exact (X _ _ W2)|exact (X _ _ W3)]]].
  apply X in W1. apply X in W2. apply X in W3.
  destruct (so_events L k theta s fl r A seg B Th As Sp) as (_ & _ & _ & I1 & I2 & I3 & I4 & I5 & I6 & _).
  assert (forall p, In p fl -> 0 <= p_ce p <= 32120) as Sh.
  { intros p I. destruct (entry_in nodata year_min (k_ny k) l fl p F G I) as (_ & _ & _ & Bd). lia. }
  pose proof (so_vec _ _ _ _ _ _ _ _ _ Sp) as Sv. pose proof (so_theta _ _ _ _ _ _ _ _ _ Sp) as Ts. unfold day_number in Ts.
  inversion Sn; subst; cbn [stored] in *; injection W2 as <-; injection W3 as <-.
  - pose proof (Sh _ I2). pose proof (Sh _ I5). apply sub_short_range in W1; [|lia]. rewrite !to_short_id by lia. exact W1.
  - pose proof (Sh _ I1). pose proof (Sh _ I6). apply sub_short_range in W1; [|lia]. rewrite !to_short_id by lia. exact W1.
  - pose proof (Sv (r_early r) ltac:(auto)). pose proof (Sv (r_late r) ltac:(auto)). apply sub_short_range in W1; [|lia]. rewrite !to_short_id by lia. exact W1.
Qed.
Theorem C88_vector_dates L k opct nodata year_min ms l pct bands : atan2_range L -> legal_pixel k nodata year_min l ->
  pixel L k opct nodata year_min false ms l = Ret (pct, bands) ->
  forall y m t d, m = DEV \/ m = DAV \/ m = DLV -> written ms bands DPY y t -> written ms bands m y d ->
  (t = nodata /\ d = nodata) \/ (t <= d <= t + 365 /\ exists s, 0 <= s < k_ny k - 1 /\ 365 * s <= t <= 365 * s + 365).
Proof.
  intros Ra Lp H y m t d Hm W1 W2. pose proof Lp as (Th & St & Ny & Nd & [F E] & V).
  destruct (year_cases L k opct nodata year_min ms l pct bands Ra Lp H) as (theta & fl & T & G & As & Ln & C).
  destruct (C y) as [(s & r & A & seg & B & S & Y & Sp & X)|X]; [right|left; split; [exact (X _ _ W1)|exact (X _ _ W2)]].
  apply X in W1. apply X in W2.
  pose proof (so_vec _ _ _ _ _ _ _ _ _ Sp) as Sv. pose proof (so_theta _ _ _ _ _ _ _ _ _ Sp) as Ts. unfold day_number in Ts.
  cbn [stored] in W1. injection W1 as <-. rewrite (to_short_id (r_theta r)) by lia.
  split; [|exists s; lia].
  destruct Hm as [-> |[-> | ->]]; cbn [stored] in W2; injection W2 as <-.
  - pose proof (Sv (r_early r) ltac:(auto)). rewrite to_short_id by lia. lia.
  - pose proof (Sv (r_grow r) ltac:(auto)). rewrite to_short_id by lia. lia.
  - pose proof (Sv (r_late r) ltac:(auto)). rewrite to_short_id by lia. lia.
Qed.
Theorem C88_start_shift_partial L k opct nodata year_min ms l pct bands : atan2_range L -> legal_pixel k nodata year_min l -> k_adaptive k = true ->
  pixel L k opct nodata year_min false ms l = Ret (pct, bands) ->
  forall y d, written ms bands DPV y d -> d = nodata \/ -183 <= d <= 183.
Proof.
  intros Ra Lp Ad H y d W1. pose proof Lp as (Th & St & Ny & Nd & [F E] & V).
  destruct (year_cases L k opct nodata year_min ms l pct bands Ra Lp H) as (theta & fl & T & G & As & Ln & C).
  destruct (C y) as [(s & r & A & seg & B & S & Y & Sp & X)|X]; [right|left; exact (X _ _ W1)].
  apply X in W1. pose proof (so_theta0 _ _ _ _ _ _ _ _ _ Sp) as T0. rewrite Ad in T0. cbn [stored] in W1. apply sub_short_range in W1; lia.
Qed.
(** With POL_ADAPTIVE = FALSE the starts do not move, yet the written difference is minus the start itself, not 0. *)
Theorem C88_start_shift_fixed_refuted L k opct nodata year_min ms l pct bands : atan2_range L -> legal_pixel k nodata year_min l -> k_adaptive k = false ->
  pixel L k opct nodata year_min false ms l = Ret (pct, bands) ->
  forall y d t, written ms bands DPV y d -> written ms bands DPY y t -> (d = nodata /\ t = nodata) \/ d = - t.
Proof.
  intros Ra Lp Ad H y d t W1 W2. pose proof Lp as (Th & St & Ny & Nd & [F E] & V).
  destruct (year_cases L k opct nodata year_min ms l pct bands Ra Lp H) as (theta & fl & T & G & As & Ln & C).
  destruct (C y) as [(s & r & A & seg & B & S & Y & Sp & X)|X]; [right|left; split; [exact (X _ _ W1)|exact (X _ _ W2)]].
  apply X in W1. apply X in W2. pose proof (so_theta0 _ _ _ _ _ _ _ _ _ Sp) as T0. rewrite Ad in T0.
  pose proof (so_theta _ _ _ _ _ _ _ _ _ Sp) as Ts. unfold day_number in Ts.
  cbn [stored] in W1, W2. rewrite T0 in W1. apply sub_short_range in W1; [|lia]. injection W2 as <-. rewrite to_short_id by lia. lia.
Qed.

(** ** C89: metrics exist for every pixel with data. *)
(** Every season of a pixel whose metrics were computed has a positive value, and entries in all its parts ... *)
Theorem C89_seasons_have_values_partial L k opct nodata year_min ms l pct bands : atan2_range L -> legal_pixel k nodata year_min l -> 2 <= k_ny k ->
  pixel L k opct nodata year_min false ms l = Ret (pct, bands) -> exists o, In o l /\ (o_val o <> nodata -> 0 < o_val o).
Proof.
  intros Ra Lp N2 H. pose proof Lp as (Th & St & Ny & Nd & Lg & V). pose proof Lg as [F E].
  destruct (pixel_facts L k opct nodata year_min ms l pct bands Ra Th St ltac:(lia) Nd Lg V H) as (theta & fl & T & G & As & Ln & M1 & M2).
  destruct (M1 0 ltac:(lia)) as (r & A & seg & B & Sp & _).
  destruct Sp as [Spl Sh Ss _ _ _ Wg _ _ _ _ _].
  destruct (walk_peak_spec k (last_of None A) seg (head B) Th Sh Wg) as (P1 & _ & P3 & _).
  set (p := t_peak _) in *. destruct (entry_in nodata year_min (k_ny k) l fl p F G) as (o & Io & (_ & _ & E2) & _); [rewrite Spl, !in_app_iff; auto|].
  exists o. split; auto. intros No. rewrite (E2 No) in P3. unfold clamp in P3.
  rewrite Forall_forall in F. destruct (short_fin (o_val o)) as [[F1 F2] _]; [apply (F o Io)|].
  destruct (flt (f32_of_Z (o_val o)) zero32); [cbn in P3; lra|]. rewrite F2 in P3. now apply lt_IZR in P3.
Qed.
(** ... so a pixel that is never positive (water, snow) has no metrics: the computation has undefined behaviour. *)
Theorem C89_never_positive_refuted L k opct nodata year_min ms l res : atan2_range L -> legal_pixel k nodata year_min l -> 2 <= k_ny k ->
  (forall o, In o l -> o_val o <> nodata /\ o_val o <= 0) -> pixel L k opct nodata year_min false ms l <> Ret res.
Proof.
  intros Ra Lp N2 Neg H. destruct res as [pct bands].
  destruct (C89_seasons_have_values_partial L k opct nodata year_min ms l pct bands Ra Lp N2 H) as (o & Io & P).
  destruct (Neg o Io) as [N1 N3]. specialize (P N1). lia.
Qed.

(** ** Concrete cases. *)
(** A library whose directions are always 1: the phenological year begins on day 240. *)
Definition half64c : f64 := f64_div (f64_of_Z 1) (f64_of_Z 2).
Definition L0 : libm := mkLibm (fun _ => half64c) (fun _ => half64c)
  (fun y x => if is_nan y || is_nan x then B754_nan else f64_of_Z 1).
Lemma L0_range : atan2_range L0.
Proof.
  intros y x. cbn [m_atan2 L0]. split.
  - intros [->| ->]; [reflexivity|now rewrite orb_true_r].
  - intros -> ->. cbn [orb]. destruct (isZ64 1 ltac:(lia)) as [F E]. split; [exact F|]. rewrite E. pose proof P_bounds. fold P. lra.
Qed.
Definition year_values : list Z := [300; 500; 900; 1500; 2500; 3500; 4000; 3800; 3000; 2000; 1000; 500].
(** Two years, every 30 days. *)
Definition series0 : list obs :=
  map (fun i => let ce := 365 * 2010 + 1 + 30 * Z.of_nat i in
                mkObs (nth (i mod 12) year_values 0) ((ce - 1) mod 365 + 1) ((ce - 1) / 365) ce) (seq 0 24).
Definition k1 : pol_par := mkPar (f32_div (f32_of_Z 1) (f32_of_Z 5)) (f32_div (f32_of_Z 1) (f32_of_Z 2)) (f32_div (f32_of_Z 4) (f32_of_Z 5)) true 2 30.
Definition ms0 : list metric := [DEM; DSS; DMS; DPS; DES; DLM; VPS; VMS; VPA; IBT; IBL; IST; DPY; DEV; DPV; LGS; VSS].
Example C84_case : exists pct bands, pixel L0 k1 true (-9999) 2010 false ms0 series0 = Ret (pct, bands) /\
  map (fun b => get_at b 1) bands = map Some [241; 301; 511; 541; 571; 631; 4000; 3500; 500; 2178; 1783; 394; 240; 423; 0; 270; 1000].
Proof. vm_compute. eexists. eexists. split; reflexivity. Qed.

Lemma k1_thresholds a : thresholds_ok (mkPar (k_start k1) (k_mid k1) (k_end k1) a 2 30).
Proof.
  unfold thresholds_ok. cbn [k_start k_mid k_end]. split; [reflexivity|]. split; [reflexivity|]. split; [reflexivity|].
  split; [apply (flt_R zero32 (k_start k1) eq_refl eq_refl); reflexivity|].
  split; [apply (fle_R (k_start k1) (k_mid k1) eq_refl eq_refl); reflexivity|].
  split; [apply (fle_R (k_mid k1) (k_end k1) eq_refl eq_refl); reflexivity|].
  destruct one32 as [F <-]. apply (flt_R (k_end k1) (f32_of_Z 1) eq_refl F). reflexivity.
Qed.
Example legal_case : legal_pixel k1 (-9999) 2010 series0 /\ (forall o, In o series0 -> o_val o <> -9999).
Proof.
  assert (forallb (fun o => (1 <=? o_doy o) && (o_doy o <=? 365) && (o_ce o =? 365 * o_year o + o_doy o) && (2010 <=? o_year o) && (o_year o <? 2012) && (300 <=? o_val o) && (o_val o <=? 4000)) series0 = true) as C by (vm_compute; reflexivity).
  rewrite forallb_forall in C.
  split; [|intros o I; specialize (C o I); lia].
  split; [exact (k1_thresholds true)|]. split; [cbn; lia|]. split; [cbn; lia|]. split; [unfold in_short; lia|]. split.
  - split; [|vm_compute; repeat split].
    apply Forall_forall. intros o I. specialize (C o I). unfold legal_obs, in_short. cbn [k_ny k1]. lia.
  - exists (mkObs 300 1 2010 733651). split; [vm_compute; left; reflexivity|discriminate].
Qed.
Example C85_case : exists p o, p = f32_of_Z 4000 /\ In o series0 /\ o_val o = 4000.
Proof. exists (f32_of_Z 4000), (nth 6 series0 (mkObs 0 0 0 0)). split; auto. split; [vm_compute; tauto|vm_compute; reflexivity]. Qed.
(** With fixed seasons: the start of the year is day 240 and the written shift -240. *)
Definition k2 : pol_par := mkPar (k_start k1) (k_mid k1) (k_end k1) false 2 30.
Example C88_fixed_case : exists pct bands, pixel L0 k2 false (-9999) 2010 false [DPY; DPV] series0 = Ret (pct, bands) /\
  bands = [[-9999; 240]; [-9999; -240]].
Proof. vm_compute. eexists. eexists. split; reflexivity. Qed.
(** A pixel of zeros, and one whose series begins on day 300. *)
Definition zeros : list obs := map (fun o => mkObs 0 (o_doy o) (o_year o) (o_ce o)) series0.
Example C89_zeros_case : pixel L0 k1 false (-9999) 2010 false [DEM] zeros = UB.
Proof. vm_compute. reflexivity. Qed.
Definition late : list obs := map (fun o => let ce := o_ce o + 299 in mkObs (o_val o) ((ce - 1) mod 365 + 1) ((ce - 1) / 365) ce) (firstn 14 series0).
Example C83_late_case : pixel L0 k1 false (-9999) 2010 false [DEM] late = UB /\ head late = Some (mkObs 300 300 2010 733950).
Proof. vm_compute. split; reflexivity. Qed.
Example C83_case : match coords L0 (-9999) 2010 (f32_of_Z INT_MIN, f32_of_Z (-9999)) series0 with
  | Ret (ps, ok) => (map (fun p => season_of 240 (p_ce p)) ps, ok)
  | _ => ([], false)
  end = (repeat (-1) 8 ++ repeat 0 13 ++ repeat 1 3, true).
Proof. vm_compute. reflexivity. Qed.
Example C87_masked_case : pixel L0 k1 false (-9999) 2010 true [DEM; VPS] series0 = Ret (None, [[-9999; -9999]; [-9999; -9999]]).
Proof. reflexivity. Qed.
Lemma L0_trig : trig_range L0.
Proof.
  intros x _. cbn [m_cos m_sin L0]. assert (is_finite half64c = true /\ (Rabs (B2R half64c) <= 1)%R) as [A B]; [|auto].
  split; [reflexivity|]. destruct (isZ64 1 ltac:(lia)) as [F E]. 
  assert (0 <= B2R half64c)%R by (apply (fle_R zero64 half64c eq_refl eq_refl); reflexivity).
  assert (B2R half64c <= 1)%R by (rewrite <- E; apply (fle_R half64c (f64_of_Z 1) eq_refl F); reflexivity).
  apply Rabs_le. lra.
Qed.

Print Assumptions C82_events_are_observations_partial.
Print Assumptions C82_day_of_observation_partial.
Print Assumptions C82_day_lost_refuted.
Print Assumptions C83_seasons_by_date_partial.
Print Assumptions C83_late_series_refuted.
Print Assumptions C84_dates_in_order.
Print Assumptions C85_peak_is_highest.
Print Assumptions C85_peak_amplitude.
Print Assumptions C86_integrals_add_up.
Print Assumptions C86_rising_integral_refuted.
Print Assumptions C87_years.
Print Assumptions C87_no_data.
Print Assumptions C87_coordinates_alone_refuted.
Print Assumptions C87_coordinates_of_no_data_refuted.
Print Assumptions C88_lengths.
Print Assumptions C88_vector_dates.
Print Assumptions C88_start_shift_partial.
Print Assumptions C88_start_shift_fixed_refuted.
Print Assumptions C89_seasons_have_values_partial.
Print Assumptions C89_never_positive_refuted.
