(** What the metrics of a pixel are made of. *)
From Coq Require Import Reals Lra.
From Flocq Require Import Core IEEE754.BinarySingleNaN.
From Verif Require Import Base BaseFacts Loops LoopsFacts Float FloatFacts FloatInt RoundModel RoundFacts InterpModel ChunkProofs PolModel PolSpec PolFloat PolSeasons PolCum PolEvents PolLoop PolCoords PolVector PolAdapt.
#[local] Open Scope Z_scope.

Lemma every_nth step l : every_step step l -> forall n, (n < length l)%nat -> nth n (map o_ce l) 0 = nth 0 (map o_ce l) 0 + step * Z.of_nat n.
Proof.
  induction l as [|o l IH]; intros E n N; [cbn in N; lia|]. destruct n as [|n]; [lia|].
  destruct l as [|q l]; [cbn in N; lia|]. destruct E as [E1 E2]. specialize (IH E2 n ltac:(cbn in *; lia)).
  change (nth (S n) (map o_ce (o :: q :: l)) 0) with (nth n (map o_ce (q :: l)) 0). rewrite IH.
  change (nth 0 (map o_ce (q :: l)) 0) with (o_ce q). change (nth 0 (map o_ce (o :: q :: l)) 0) with (o_ce o). lia.
Qed.

Lemma dates_index year_min ny step l ps : Forall (legal_obs year_min ny) l -> every_step step l -> Forall2 (of_obs year_min) l ps ->
  forall i j, 0 <= i -> i <= j < zlen ps -> at_ (map p_ce ps) j - at_ (map p_ce ps) i <= step * (j - i) + 1.
Proof.
  intros F E G i j I J.
  assert (forall n, (n < length ps)%nat -> nth n (map o_ce l) 0 - 365 * year_min - 1 <= nth n (map p_ce ps) 0 <= nth n (map o_ce l) 0 - 365 * year_min) as D.
  { clear -F G. induction G as [|o p l ps H G IH]; intros n N; [cbn in N; lia|]. inversion F as [|? ? Fo Fr]; subst.
    destruct n as [|n]; cbn [map nth]; [eapply date_rel; eauto|]. apply IH; auto. cbn in N. lia. }
  assert (length l = length ps) as Ln by (eapply F2_app_len; eauto).
  unfold zlen in J. unfold at_.
  pose proof (D (Z.to_nat i) ltac:(lia)). pose proof (D (Z.to_nat j) ltac:(lia)).
  rewrite (every_nth step l E (Z.to_nat i) ltac:(lia)) in *. rewrite (every_nth step l E (Z.to_nat j) ltac:(lia)) in *. rewrite !Z2Nat.id in * by lia. lia.
Qed.

(** The regular seasons of a legal series. *)
Lemma regular_labels year_min ny step start l ps ls : Forall (legal_obs year_min ny) l -> every_step step l -> Forall2 (of_obs year_min) l ps ->
  0 <= start <= 365 -> 1 <= step <= 364 -> ny <= 1000 -> regular step start (-1) 0 ps = Ret ls ->
  ls = map (fun p => with_season p (season_of start (p_ce p))) ps \/ ls = map (fun p => with_season p (-1)) ps.
Proof.
  intros F E G T S N H.
  destruct (dates_asc year_min ny step l ps ltac:(lia) F E G) as [A D].
  assert (Forall (fun p => 0 <= p_ce p <= 366000) ps) as B.
  { clear -F G N. induction G as [|o p l ps X G IH]; [constructor|]. inversion F as [|? ? Fo Fr]; subst. constructor; auto.
    pose proof (date_rel _ _ _ _ Fo X) as Dr. destruct X as [X _]. unfold legal_obs in Fo. unfold day_number in X.
    pose proof (back_range (o_doy o)). lia. }
  destruct ps as [|p ps]; [injection H as <-; left; reflexivity|].
  inversion B as [|? ? B1 B2]; subst.
  destruct (Z_le_gt_dec (p_ce p) (start + step)) as [C|C].
  - left. rewrite regular_all in H; auto; try lia; [congruence|].
    eapply Forall_impl; [|exact B2]. cbv beta. intros; lia.
  - right. rewrite regular_none in H; auto; try lia; [congruence|].
    constructor; [lia|]. cbn [map asc] in A. destruct A as [A _]. rewrite Forall_map in A.
    rewrite Forall_forall in *. intros q Q. specialize (A q Q). specialize (B2 q Q). cbv beta in A. lia.
Qed.

Lemma regular_spaced year_min ny step start l ps ls : Forall (legal_obs year_min ny) l -> every_step step l -> Forall2 (of_obs year_min) l ps ->
  0 <= start <= 365 -> 1 <= step <= 364 -> ny <= 1000 -> regular step start (-1) 0 ps = Ret ls -> spaced step (map p_season ls).
Proof.
  intros F E G T S N H i j I J D.
  assert (forall (f : Z -> Z) i, 0 <= i < zlen ps -> at_ (map (fun p => f (p_ce p)) ps) i = f (at_ (map p_ce ps) i)) as M.
  { intros f k K. unfold at_, zlen in *. rewrite (nth_indep _ 0 (f (p_ce polar0))) by (rewrite map_length; lia).
    rewrite (nth_indep (map p_ce ps) 0 (p_ce polar0)) by (rewrite map_length; lia).
    rewrite (map_nth (fun p => f (p_ce p))), map_nth. reflexivity. }
  destruct (regular_labels year_min ny step start l ps ls F E G T S N H) as [->| ->]; rewrite map_map in *; cbn [p_season with_season] in *.
  - rewrite zlen_map in J. rewrite !(M (season_of start)) in D by lia.
    pose proof (dates_index year_min ny step l ps F E G i j I ltac:(lia)) as B.
    pose proof (season_of_range start (at_ (map p_ce ps) i)) as R1. pose proof (season_of_range start (at_ (map p_ce ps) j)) as R2.
    unfold day_number in *. lia.
  - rewrite zlen_map in J. exfalso. rewrite !(M (fun _ => -1)) in D by lia. lia.
Qed.

(** Fields other than the season and the share. *)
Definition keeps (p q : polar) : Prop := p_ce q = p_ce p /\ p_val q = p_val p.
Lemma keeps_season l l' : Forall2 (fun p q => q = with_season p (p_season q)) l l' -> Forall2 keeps l l'.
Proof. induction 1 as [|p q l l' H G IH]; constructor; auto. rewrite H. split; reflexivity. Qed.
Lemma keeps_cum l l' : Forall2 same_but_cum l l' -> Forall2 keeps l l'.
Proof. induction 1 as [|p q l l' H G IH]; constructor; auto. rewrite H. split; reflexivity. Qed.
Lemma keeps_trans p q r : keeps p q -> keeps q r -> keeps p r.
Proof. intros [] []. split; congruence. Qed.
Lemma keeps_dates l l' : Forall2 keeps l l' -> map p_ce l' = map p_ce l /\ map p_val l' = map p_val l.
Proof. induction 1 as [|p q l l' [H1 H2] G [I1 I2]]; cbn; [auto|]. split; congruence. Qed.

(** The result of one season, with the part of the series it is made of. *)
Record season_of_pixel (L : libm) (k : pol_par) (theta : vec) (s : Z) (l : list polar) (r : season_res) (so_A so_seg so_B : list polar) : Prop := {
  so_split : l = so_A ++ so_seg ++ so_B;
  so_shared : shared so_seg;
  so_st : r_st r = walk k (last_of None so_A) so_seg (head so_B) season_st0;
  so_int : r_int r = walk_int k (r_green r) (r_base r) (last_of None so_A) so_seg integrals0;
  so_green : r_green r = middle (p_val (t_start (r_st r))) (p_val (t_end (r_st r)));
  so_base : r_base r = middle (p_val (t_left (r_st r))) (p_val (t_right (r_st r)));
  so_grow : exists p, In p so_seg /\ within p (k_start k) (k_end k) = true;
  so_early : exists p, In p so_seg /\ within p (k_start k) (k_mid k) = true;
  so_late : exists p, In p so_seg /\ within p (k_mid k) (k_end k) = true;
  so_theta : r_theta r = day_number s (v_doy theta);
  so_theta0 : if k_adaptive k then -183 <= r_theta0 r - r_theta r <= 183 else r_theta0 r = 0;
  so_vec : forall v, v = r_grow r \/ v = r_early r \/ v = r_late r -> r_theta r <= v_ce v <= r_theta r + 365 }.

Lemma season_run_vectors L k theta t0 s l r mv : atan2_range L -> 0 <= v_doy theta <= 365 -> 0 <= s <= 1000 ->
  season_run L k theta t0 s None l = Ret (r, mv) ->
  forall v, v = r_grow r \/ v = r_early r \/ v = r_late r -> day_number s (v_doy theta) <= v_ce v <= day_number s (v_doy theta) + 365.
Proof.
  intros Ra T S H. unfold season_run in H. rewrite doy2ce_ok in H by lia. cbn [bind] in H.
  set (st := season_pass k s None l season_st0) in *. cbv zeta in H.
  destruct (polar_vector L (f32_div (x_grow st) _) _) as [g| |] eqn:E1; try discriminate. cbn [bind] in H.
  destruct (polar_vector L (f32_div (x_early st) _) _) as [e| |] eqn:E2; try discriminate. cbn [bind] in H.
  destruct (polar_vector L (f32_div (x_late st) _) _) as [w| |] eqn:E3; try discriminate. cbn [bind] in H.
  destruct (ce_from_vector s theta g) as [g'| |] eqn:F1; try discriminate. cbn [bind] in H.
  destruct (ce_from_vector s theta e) as [e'| |] eqn:F2; try discriminate. cbn [bind] in H.
  destruct (ce_from_vector s theta w) as [w'| |] eqn:F3; try discriminate. cbn [bind] in H.
  destruct (integral_pass _ _ _ _ _ _ _) as [a mv']. injection H as <- <-. cbn [r_grow r_early r_late].
  destruct (vector_range L _ _ _ Ra E1) as [_ D1]. destruct (vector_range L _ _ _ Ra E2) as [_ D2]. destruct (vector_range L _ _ _ Ra E3) as [_ D3].
  intros v [-> |[-> | ->]]; [exact (vector_date s theta g _ T D1 S F1)|exact (vector_date s theta e _ T D2 S F2)|exact (vector_date s theta w _ T D3 S F3)].
Qed.

Lemma walk_nan_share k p : p_cum p = B754_nan -> within p (k_start k) (k_end k) = false.
Proof. intros H. unfold within, reached. rewrite H, fle_nan_r. reflexivity. Qed.

Lemma in_put l cs p : In p (put l cs) -> exists q, In q l /\ keeps q p /\ In (p_cum p) cs.
Proof.
  unfold put. rewrite in_map_iff. intros ([q c] & <- & I). cbn [fst snd]. exists q.
  split; [eapply in_combine_l; eauto|]. split; [split; reflexivity|]. cbn. eapply in_combine_r; eauto.
Qed.

Lemma empty_bands_In k nodata ms m b : In (m, b) (combine ms (empty_bands k nodata ms)) -> b = repeat nodata (Z.to_nat (k_ny k)).
Proof. unfold empty_bands. induction ms as [|x ms IH]; cbn; [tauto|]. intros [H|H]; [congruence|auto]. Qed.

(** Composition over the whole pixel. *)
Theorem metrics_facts L k nodata year_min ms l ps bands :
  atan2_range L -> thresholds_ok k -> 1 <= k_step k <= 364 -> 1 <= k_ny k <= 1000 ->
  legal_series (k_step k) year_min (k_ny k) l -> Forall2 (of_obs year_min) l ps ->
  metrics L k nodata ms ps = Ret bands ->
  exists theta fin_l, 0 <= v_doy theta <= 365 /\ Forall2 keeps ps fin_l /\ length ms = length bands /\
    (forall s, 0 <= s < k_ny k - 1 -> exists r A seg B, season_of_pixel L k theta s fin_l r A seg B /\
       (forall m b, In (m, b) (combine ms bands) -> exists x, stored r m = Ret x /\ get_at b (band_of theta s) = Some x)) /\
    (forall m b y, In (m, b) (combine ms bands) -> zlen b = k_ny k /\
       ((forall s, 0 <= s < k_ny k - 1 -> y <> band_of theta s) -> 0 <= y < k_ny k -> get_at b y = Some nodata)).
Proof.
  intros Ra Th St Ny [F E] G H.
  assert (atan2_nan L) as Rn by (apply (proj1 (Ra B754_nan B754_nan)); left; reflexivity).
  unfold metrics in H. destruct (start_of_year L ps) as [theta| |] eqn:Et; try discriminate. cbn [bind] in H.
  destruct (start_range L ps theta Ra Et) as (Td & Tr & Ti).
  destruct (seasons L k theta ps) as [[c t0]| |] eqn:Es; try discriminate. cbn [bind fst snd] in H.
  unfold seasons in Es. destruct (regular (k_step k) (v_doy theta) (-1) 0 ps) as [a| |] eqn:Er; try discriminate. cbn [bind] in Es.
  destruct (variable L (k_adaptive k) (k_ns k) (k_step k) theta a) as [[b t0']| |] eqn:Ev; try discriminate. cbn [bind fst snd] in Es.
  destruct (accumulate b) as [c'| |] eqn:Ea; try discriminate. cbn [bind] in Es. injection Es as -> ->.
  destruct (regular_ascending _ _ _ _ _ _ Er) as (As & Lo & K1).
  destruct (variable_ok L (k_adaptive k) (k_ns k) (k_step k) theta a b t0 Ra Td Tr Ti ltac:(lia) ltac:(unfold k_ns; lia) As
    (regular_spaced year_min (k_ny k) (k_step k) (v_doy theta) l ps a F E G Tr St ltac:(lia) Er) Lo Ev) as (Bs & K2 & V1 & V2).
  pose proof (accumulate_fields b c Ea) as K3. pose proof (same_ascending b c K3 Bs) as Cs.
  assert (Forall2 keeps ps b) as Kb by (eapply F2_trans; [apply keeps_trans|apply keeps_season; exact K1|apply keeps_season; exact K2]).
  assert (Forall2 keeps ps c) as Kc by (eapply F2_trans; [apply keeps_trans|exact Kb|apply keeps_cum; exact K3]).
  assert (Forall (fun p => val_ok (p_val p)) b) as Vb.
  { clear -G Kb. revert b Kb. induction G as [|o p l ps [_ H] G IH]; intros b Kb; inversion Kb as [|? q ? b' [_ Q] Kb']; subst; [constructor|].
    constructor; [rewrite Q; exact H|]. apply IH. exact Kb'. }
  assert (length ms = length (empty_bands k nodata ms)) as Le by (unfold empty_bands; now rewrite map_length).
  destruct (season_loop_spec L k theta t0 ms c Cs (Z.to_nat (k_ns k)) 0 [] c (empty_bands k nodata ms) bands eq_refl ltac:(constructor) Le H) as (L1 & L2 & L3).
  assert (Z.of_nat (Z.to_nat (k_ns k)) = k_ny k - 1) as Ens by (unfold k_ns; lia).
  exists theta, c. split; auto. split; auto. split; auto. split.
  - intros s S. destruct (L2 s ltac:(lia)) as (v & r & mv & Gv & Hr & Hb).
    destruct (split_season s b Bs) as (A & seg & B & Eb & FA & Fs & FB).
    (* the season has entries *)
    destruct seg as [|p0 seg0] eqn:Eseg.
    { exfalso. destruct (split_season s c Cs) as (A' & seg' & B' & Ec & FA' & Fs' & FB').
      destruct (season_run_windows L k theta (v_ce v) s c r mv A' seg' B' Rn Ec FA' Fs' FB' Hr) as (_ & _ & _ & _ & _ & _ & (p & Ip & _) & _).
      assert (exists q, In q b /\ p_season q = s) as (q & Iq & Sq).
      { assert (In p c) as Ipc by (rewrite Ec, !in_app_iff; auto). clear -K3 Ipc Ip Fs'. rewrite Forall_forall in Fs'.
        pose proof (Fs' p Ip) as Sp. clear Fs' Ip. induction K3 as [|x y b c X K IH]; [contradiction|]. destruct Ipc as [->|I].
        - exists x. split; [left; auto|]. rewrite <- (same_season _ _ X). exact Sp.
        - destruct (IH I) as (q & Q1 & Q2). exists q. split; [right|]; auto. }
      rewrite Eb, app_nil_l, in_app_iff in Iq. rewrite Forall_forall in FA, FB. destruct Iq as [Iq|Iq]; [specialize (FA q Iq)|specialize (FB q Iq)]; lia. }
    rewrite <- Eseg in *. assert (seg <> []) as Nseg by (rewrite Eseg; discriminate). clear Eseg p0 seg0.
    destruct (accumulate_split s A seg B Nseg FA Fs FB) as (A' & B' & Ec & KA & KB). rewrite <- Eb, Ea in Ec. injection Ec as Ec.
    assert (length (shares_of seg) = length seg) as Lsh by (unfold shares_of; rewrite map_length, sums_length, map_length; auto).
    assert (Forall (fun p => p_season p < s) A') as FA'.
    { clear -KA FA. induction KA as [|x y X Y R K IH]; constructor; inversion FA; subst; auto. rewrite (same_season _ _ R). auto. }
    assert (Forall (fun p => s < p_season p) B') as FB'.
    { clear -KB FB. induction KB as [|x y X Y R K IH]; constructor; inversion FB; subst; auto. rewrite (same_season _ _ R). auto. }
    pose proof (put_season s seg (shares_of seg) Lsh Fs) as Fs'.
    destruct (season_run_windows L k theta (v_ce v) s c r mv A' (put seg (shares_of seg)) B' Rn Ec FA' Fs' FB' Hr)
      as (W1 & W2 & W3 & W4 & W5 & W6 & W7 & W8 & W9).
    assert (Forall (fun p => val_ok (p_val p)) seg) as Vs by (rewrite Eb in Vb; apply Forall_app in Vb; destruct Vb as [_ Vb]; apply Forall_app in Vb; tauto).
    assert (exists p, In p seg /\ (0 < B2R (p_val p))%R) as Pos.
    { destruct (existsb (fun p => flt zero32 (p_val p)) seg) eqn:Ex.
      - apply existsb_exists in Ex. destruct Ex as (p & Ip & Fp). exists p. split; auto.
        rewrite Forall_forall in Vs. apply flt_R in Fp; [exact Fp|reflexivity|apply Vs; auto].
      - exfalso. assert (forall p, In p seg -> B2R (p_val p) = 0%R) as Z0.
        { intros p Ip. rewrite Forall_forall in Vs. destruct (Vs p Ip) as [Fp [Bp _]].
          destruct (Rle_lt_or_eq_dec 0 (B2R (p_val p)) Bp) as [C|C]; auto.
          assert (existsb (fun p => flt zero32 (p_val p)) seg = true); [|congruence].
          apply existsb_exists. exists p. split; auto. apply flt_R; auto. reflexivity. }
        pose proof (shares_of_none seg Nseg Vs Z0) as Nn. destruct W7 as (p & Ip & Wp).
        destruct (in_put _ _ _ Ip) as (q & _ & _ & Ic). rewrite Forall_forall in Nn. specialize (Nn _ Ic).
        rewrite (walk_nan_share k p Nn) in Wp. discriminate. }
    rewrite doy2ce_ok in W6 by lia. injection W6 as W6.
    exists r, A', (put seg (shares_of seg)), B'. split; [constructor; auto|].
    + apply shared_put; auto.
    + rewrite W5, <- W6. destruct (k_adaptive k).
      * apply (V1 eq_refl s v Gv).
      * apply (proj2 (V2 eq_refl) s v Gv).
    + rewrite <- W6. eapply season_run_vectors; eauto. lia.
    + intros m b0 I. destruct (Hb m b0 I) as (x & X1 & X2). eauto.
  - intros m b0 y I. destruct (L3 m b0 I) as (b1 & I1 & Z1 & Y1). apply empty_bands_In in I1. subst b1.
    split; [rewrite Z1, zlen_repeat; lia|]. intros Q Y. rewrite Y1 by (intros s' S'; apply Q; lia).
    apply get_repeat. lia.
Qed.
