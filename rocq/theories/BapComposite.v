(** Selecting and averaging the observations of a pixel. *)
From Coq Require Import Reals Lra Lia.
From Flocq Require Import Core.
From Verif Require Import Base Loops BaseFacts LoopsFacts StatsModel StatsSpec DateModel QaiModel QaiSpec QaiProofs AggModel ChunkProofs CsoProofs BapModel BapSpec BapProofs BapScores BapTargets BapCor BapPixel.
#[local] Open Scope Z_scope.

(** ** Water *)
Lemma counts_filter {A} (P : A -> Prop) (f : A -> bool) l : (forall a, In a l -> (f a = true <-> P a)) -> counts P l (zlen (filter f l)).
Proof.
  induction l as [|a l IH]; intros H; cbn [filter]; [constructor|]. specialize (IH ltac:(intros; apply H; now right)). pose proof (H a ltac:(now left)) as Ha.
  destruct (f a); [rewrite zlen_c; constructor; tauto|constructor; auto]. intros Pa. apply Ha in Pa. discriminate.
Qed.
Lemma counts_fun {A} (P : A -> Prop) l n : counts P l n -> forall m, counts P l m -> n = m.
Proof. intros C. induction C as [|a l n H C IH|a l n H C IH]; intros m M; inversion M; subst; auto; try contradiction. f_equal; auto. Qed.
Lemma water_flag q : in_short q -> (get_flag Water q =? 0) = false <-> Z.testbit q 5 = true.
Proof.
  intros S. rewrite get_flag_value by auto. unfold flag_value, layout, field. cbn [fst snd]. change (2 ^ 1) with 2.
  pose proof (Z.testbit_spec' q 5 ltac:(lia)) as T. rewrite Z.eqb_neq. rewrite <- T. destruct (Z.testbit q 5); cbn; split; intros; try discriminate; auto; lia.
Qed.
Lemma is_water_ok os : Forall (fun o => in_short (o_qai o)) os -> is_water os = true <-> water_pixel os.
Proof.
  intros F. rewrite Forall_forall in F. unfold is_water, water_pixel.
  assert (counts (fun o => o_valid o = true) os (zlen (filter o_valid os))) as C1 by (apply counts_filter; tauto).
  assert (filter (fun o => negb (get_flag Water (o_qai o) =? 0)) (filter o_valid os) = filter (fun o => o_valid o && negb (get_flag Water (o_qai o) =? 0)) os) as ->.
  { clear. induction os as [|o os IH]; cbn [filter]; auto. destruct (o_valid o); cbn [filter andb]; [|auto]. destruct (get_flag Water (o_qai o) =? 0); cbn [negb]; [auto|f_equal; auto]. }
  assert (counts (fun o => o_valid o = true /\ flagged_water o) os (zlen (filter (fun o => o_valid o && negb (get_flag Water (o_qai o) =? 0)) os))) as C2.
  { apply counts_filter. intros o I. rewrite andb_true_iff, negb_true_iff, (water_flag _ (F o I)). reflexivity. }
  pose proof (zlen_nonneg (filter o_valid os)).
  assert (zlen (filter (fun o => o_valid o && negb (get_flag Water (o_qai o) =? 0)) os) <= zlen (filter o_valid os)) as LE.
  { clear. induction os as [|o os IH]; cbn [filter]; [lia|]. destruct (o_valid o); cbn [andb]; [|auto]. destruct (negb _); rewrite ?zlen_c; lia. }
  split.
  - intros E. exists (zlen (filter o_valid os)), (zlen (filter (fun o => o_valid o && negb (get_flag Water (o_qai o) =? 0)) os)). split; auto. split; auto. lia.
  - intros (n & w & N & W & G). rewrite (counts_fun _ _ _ N _ C1) in G. rewrite (counts_fun _ _ _ W _ C2) in G. lia.
Qed.

(** ** Lists *)
Lemma split_at {A} (l : list A) i a : get_at l i = Some a -> exists before after, l = before ++ a :: after /\ zlen before = i.
Proof.
  revert i. induction l as [|x l IH]; intros i G.
  - apply get_at_inv in G. unfold zlen in G. cbn in G. lia.
  - pose proof (get_at_inv _ _ _ G) as Q. destruct (Z.eq_dec i 0) as [-> |N].
    + rewrite get_cons_0 in G. injection G as <-. exists [], l. auto.
    + rewrite get_cons_S in G by lia. destruct (IH _ G) as (p & q & -> & L). exists (x :: p), q. split; auto. rewrite zlen_c. lia.
Qed.
Lemma get_mid {A} (p q : list A) a : get_at (p ++ a :: q) (zlen p) = Some a.
Proof. rewrite get_app_r by lia. rewrite Z.sub_diag. apply get_cons_0. Qed.
Lemma F2_get {A B} (R : A -> B -> Prop) l l' : Forall2 R l l' -> zlen l = zlen l' /\ forall i a, get_at l i = Some a -> exists c, get_at l' i = Some c /\ R a c.
Proof.
  intros F. induction F as [|x y l l' Q F (IL & IH)].
  - split; auto. intros i a G. apply get_at_inv in G. unfold zlen in G. cbn in G. lia.
  - split; [rewrite !zlen_c; lia|]. intros i a G. pose proof (get_at_inv _ _ _ G) as K. destruct (Z.eq_dec i 0) as [-> |N].
    + rewrite get_cons_0 in G. injection G as <-. exists y. rewrite get_cons_0. auto.
    + rewrite get_cons_S in G by lia. rewrite get_cons_S by lia. auto.
Qed.
Lemma omap_get {A B} (f : A -> outcome B) (R : A -> B -> Prop) l : (forall i a, get_at l i = Some a -> exists y, f a = Ret y /\ R a y) ->
  exists ys, omap f l = Ret ys /\ zlen ys = zlen l /\ forall i a, get_at l i = Some a -> exists y, get_at ys i = Some y /\ R a y.
Proof.
  intros H. destruct (omap_all f R l) as (ys & E & F).
  { intros x I. apply In_get_at in I. destruct I as (i & _ & G). eauto. }
  apply F2_get in F. destruct F as (L & G). exists ys. split; auto.
Qed.

(** ** The scores of all observations *)
Section Pixel.
Variables (b : bap) (scale : R) (bands : option (Z * Z)) (nb : nat) (nodata : Z) (os : list obs).
Hypothesis SN : sane b.
Hypothesis US : Forall (usable b nb) os.
Hypothesis WB : water_pixel os -> water_bands scale bands os.

Lemma cors_ok : exists cors,
  (if positive (w_r b) then omap (fun p => cor_mean os (fst p) (snd p)) (combine (zupto (zlen os)) os) else Ret (map (fun _ => 0%R) os)) = Ret cors /\
  zlen cors = zlen os /\ forall before o after, os = before ++ o :: after -> exists c, get_at cors (zlen before) = Some c /\ (w_r b <> 0%R -> likeness o (before ++ after) c).
Proof.
  destruct (positive (w_r b)) eqn:P.
  - destruct (omap_get (fun p => cor_mean os (fst p) (snd p)) (fun p c => forall before after, os = before ++ snd p :: after -> zlen before = fst p -> likeness (snd p) (before ++ after) c) (combine (zupto (zlen os)) os)) as (cors & E & L & G).
    + intros i (t, a) Gi. rewrite get_combine in Gi. destruct (get_at (zupto (zlen os)) i) eqn:Gz; [|discriminate]. destruct (get_at os i) eqn:Go; [|discriminate].
      injection Gi as -> ->. pose proof (get_at_inv _ _ _ Go) as Ri. rewrite get_zupto in Gz by lia. injection Gz as <-. cbn [fst snd].
      destruct (split_at _ _ _ Go) as (before & after & EO & LB).
      assert (Forall (fun o => length (o_dat o) = nb) (before ++ a :: after)) as NB by (rewrite <- EO; eapply Forall_impl; [|exact US]; intros o; apply us_bands).
      destruct (cor_mean_ok before a after nb NB) as (l & PL & EC). rewrite <- EO, LB in EC. eexists. split; [exact EC|].
      intros before' after' EO' LB'. assert (before' = before /\ after' = after) as (-> & ->).
      { rewrite EO in EO'. assert (length before' = length before) as LL by (unfold zlen in *; lia). clear -EO' LL. revert before' LL EO'.
        induction before as [|x before IH]; intros [|y before'] LL E; cbn [app length] in *; try discriminate; [now injection E|].
        injection E as <- E. destruct (IH before' ltac:(lia) E) as (-> & ->). auto. }
      exists l. split; auto. split; [intros N; destruct l; [congruence|reflexivity]|]. intros ->. destruct before; unfold no_cor; lra.
    + exists cors. split; auto. split; [rewrite L; unfold zlen; rewrite combine_length, zupto_length; unfold zlen; lia|].
      intros before o after EO. assert (get_at (combine (zupto (zlen os)) os) (zlen before) = Some (zlen before, o)) as GC.
      { assert (get_at os (zlen before) = Some o) as GO by (rewrite EO; apply get_mid). rewrite get_combine, GO. apply get_at_inv in GO. now rewrite get_zupto by lia. }
      destruct (G _ _ GC) as (c & Gc & Q). exists c. split; [exact Gc|]. intros _. apply Q; auto.
  - exists (map (fun _ => 0%R) os). split; auto. split; [apply zlen_map|]. intros before o after EO. exists 0%R. split.
    + rewrite get_map. rewrite EO, get_mid. reflexivity.
    + intros N. exfalso. pose proof (ac_weights b (sn_accepted b SN)) as W. unfold weights_ok in W. assert (0 < w_r b)%R as Q by lra. apply positive_ok in Q. congruence.
Qed.

Definition in_unit (x : R) : Prop := (0 <= x <= 1)%R.
Definition bounded (s : scores) (dist : Z) : Prop :=
  (exists t d y, s_t s = Some t /\ s_d s = Some d /\ s_y s = Some y /\ in_unit t /\ in_unit d /\ in_unit y) /\
  in_unit (s_c s) /\ in_unit (s_h s) /\ in_unit (s_r s) /\ in_unit (s_v s) /\ in_short dist.

Lemma single_ok o others c s dist : good_scores b o c s dist -> (w_r b <> 0%R -> likeness o others c) -> single_scores b o others s dist.
Proof.
  intros (t & d & y & d' & y' & -> & TS & Wd & Wy & _) LK. pose proof (ac_weights b (sn_accepted b SN)) as W. pose proof (ac_req b (sn_accepted b SN)) as (R1 & _ & R3).
  unfold single_scores. cbn [s_d s_y s_c s_h s_r s_v]. split; [exists d, y, d', y'; auto|]. split; [apply cloud_ok; auto|]. split; [apply haze_score_ok; auto|].
  split; [exists c; split; auto; apply cor_score_ok; auto|]. apply view_ok; auto. lra.
Qed.

Lemma qai_ok : Forall (fun o => in_short (o_qai o)) os.
Proof. eapply Forall_impl; [|exact US]. intros o; apply us_qai. Qed.

Lemma pixel_stage old : length old = length os -> exists fin, zlen fin = zlen os /\
  (forall before o after, os = before ++ o :: after -> o_valid o = true -> exists s dist, get_at fin (zlen before) = Some (s, dist) /\
     pixel_scores b scale bands os o (before ++ after) s dist /\ bounded s dist) /\
  pixel b (static_targets b) scale bands nb nodata os old =
    (r <- (if b_select b then compositing b (haze_stats b (combine os (map fst fin))) (is_water os) nb nodata (elements os fin)
           else weighting b (haze_stats b (combine os (map fst fin))) (is_water os) nb nodata (elements os fin)) ;; Ret (r, fin)).
Proof.
  intros LO. unfold pixel. destruct cors_ok as (cors & -> & LC & GC). cbn [bind]. pose proof US as US0. rewrite Forall_forall in US0.
  destruct (omap_get (fun p => score_one b (static_targets b) (fst (fst p)) (snd (fst p)) (snd p))
     (fun p sd => o_valid (fst (fst p)) = true -> good_scores b (fst (fst p)) (snd (fst p)) (fst sd) (snd sd)) (combine (combine os cors) old)) as (new & EN & LN & GN).
  { intros i ((o, c), od) G. cbn [fst snd]. destruct (o_valid o) eqn:V.
    - assert (In o os) as I. { rewrite !get_combine in G. destruct (get_at os i) eqn:Go; [|discriminate]. destruct (get_at cors i); [|discriminate]. destruct (get_at old i); [|discriminate].
        injection G as -> _ _. eapply get_at_In; eauto. }
      destruct (score_full b SN nb o c od (US0 o I) V) as (s & dist & E & Q & _). exists (s, dist). split; auto.
    - unfold score_one. rewrite V. cbn [negb]. eexists. split; [reflexivity|discriminate]. }
  rewrite EN. cbn [bind].
  assert (zlen new = zlen os) as LN'. { rewrite LN. unfold zlen in *. rewrite !combine_length. lia. }
  assert (forall before o after, os = before ++ o :: after -> o_valid o = true -> exists c s dist, get_at new (zlen before) = Some (s, dist) /\ good_scores b o c s dist /\ (w_r b <> 0%R -> likeness o (before ++ after) c)) as GN'.
  { intros before o after EO V. destruct (GC before o after EO) as (c & Gc & LK).
    destruct (get_at_some old (zlen before)) as (od & Gd). { rewrite EO in LO. unfold zlen. rewrite app_length in LO. cbn [length] in LO. lia. }
    assert (get_at (combine (combine os cors) old) (zlen before) = Some (o, c, od)) as G. { assert (get_at os (zlen before) = Some o) as GO by (rewrite EO; apply get_mid). now rewrite !get_combine, GO, Gc, Gd. }
    destruct (GN _ _ G) as ((s, dist) & Gs & Q). exists c, s, dist. split; auto. }
  pose proof qai_ok as QS. destruct (is_water os) eqn:W.
  - apply (is_water_ok os QS) in W. pose proof (WB W) as WB0.
    destruct (omap_get (fun p => s <- water_one scale bands (fst p) (fst (snd p)) ;; Ret (s, snd (snd p)))
       (fun p sd => o_valid (fst p) = true -> exists s, water_one scale bands (fst p) (fst (snd p)) = Ret s /\ sd = (s, snd (snd p))) (combine os new)) as (fin & EF & LF & GF).
    { intros i (o, (s, dist)) G. cbn [fst snd]. rewrite get_combine in G. destruct (get_at os i) eqn:Go; [|discriminate]. destruct (get_at new i) eqn:Gn; [|discriminate]. injection G as -> ->.
      apply get_at_In in Go. unfold water_one. destruct (o_valid o) eqn:V; cbn [negb]; [|eexists; split; [reflexivity|discriminate]].
      destruct bands as [(i1, i2)|]; [|eexists; split; [reflexivity|eauto]]. destruct WB0 as (_ & WF). rewrite Forall_forall in WF. destruct (WF o Go) as (nir & sw2 & -> & -> & _). cbn [of_option bind].
      eexists. split; [reflexivity|]. eauto. }
    rewrite EF. cbn [bind]. exists fin. split; [rewrite LF; unfold zlen in *; rewrite combine_length; lia|]. split; [|reflexivity].
    intros before o after EO V. destruct (GN' before o after EO V) as (c & s & dist & Gn & Q & LK).
    assert (get_at (combine os new) (zlen before) = Some (o, (s, dist))) as G by (assert (get_at os (zlen before) = Some o) as GO by (rewrite EO; apply get_mid); now rewrite get_combine, GO, Gn).
    destruct (GF _ _ G) as (sd & Gs & K). destruct (K V) as (s' & EW & ->). cbn [fst snd] in *. exists s', dist. split; auto.
    assert (In o os) as Io by (rewrite EO; apply in_elt).
    pose proof (single_ok o (before ++ after) c s dist Q LK) as SS. destruct Q as (t & d & y & d' & y' & -> & TS & Wd & Wy & TT & T1 & T2 & T3 & T4).
    destruct (unit_scores b o c) as (U1 & U2 & U3 & U4). unfold water_one in EW. rewrite V in EW. cbn [negb] in EW. unfold pixel_scores.
    destruct bands as [(i1, i2)|].
    + destruct WB0 as (SP & WF). rewrite Forall_forall in WF. destruct (WF o Io) as (nir & sw2 & E1 & E2 & R2). rewrite E1, E2 in *. cbn [of_option bind] in EW. injection EW as <-.
      cbn [s_t s_d s_y s_c s_h s_r s_v] in *.
      assert (forall x, 0 <= x <= scale -> 0 <= (scale - x) / scale <= 1)%R as QQ.
      { intros x X. split; [apply Rmult_le_pos; [lra|apply Rlt_le; now apply Rinv_0_lt_compat]|]. apply Rmult_le_reg_r with scale; auto. unfold Rdiv. rewrite Rmult_assoc, Rinv_l by lra. lra. }
      specialize (QQ _ R2). split.
      * split; [exact SS|]. eexists. split; [reflexivity|]. split; [|intros [NW|?]; [contradiction|discriminate]]. intros _. exists nir, sw2. split; auto. split; auto. unfold water_total.
        destruct (Z.ltb_spec nir sw2); split; intros; try lia; field; lra.
      * refine (conj _ (conj U1 (conj U2 (conj U3 (conj U4 T4))))). do 3 eexists. split; [reflexivity|]. split; [reflexivity|]. split; [reflexivity|]. unfold in_unit. split; auto. destruct (nir <? sw2); lra.
    + injection EW as <-. split.
      * split; [exact SS|]. exists t. split; auto. split; auto. intros _. exists d', y'. auto.
      * refine (conj _ (conj U1 (conj U2 (conj U3 (conj U4 T4))))). exists t, d', y'. unfold in_unit. cbn [s_t s_d s_y]. auto 10.
  - cbn [bind]. exists new. split; auto. split; [|reflexivity].
    intros before o after EO V. destruct (GN' before o after EO V) as (c & s & dist & Gn & Q & LK). exists s, dist. split; auto.
    pose proof (single_ok o (before ++ after) c s dist Q LK) as SS. destruct Q as (t & d & y & d' & y' & -> & TS & Wd & Wy & TT & T1 & T2 & T3 & T4).
    destruct (unit_scores b o c) as (U1 & U2 & U3 & U4). split.
    + split; auto. exists t. split; auto. split; [|intros _; exists d', y'; auto]. intros NW. apply (is_water_ok os QS) in NW. congruence.
    + refine (conj _ (conj U1 (conj U2 (conj U3 (conj U4 T4))))). exists t, d', y'. unfold in_unit. cbn [s_t s_d s_y]. auto 10.
Qed.

(** An element with its scores. *)
Lemma element_ok fin o s dist : zlen fin = zlen os ->
  (forall before o after, os = before ++ o :: after -> o_valid o = true -> exists s dist, get_at fin (zlen before) = Some (s, dist) /\ pixel_scores b scale bands os o (before ++ after) s dist /\ bounded s dist) ->
  In (o, s, dist) (elements os fin) -> o_valid o = true -> usable b nb o /\ bounded s dist.
Proof.
  intros L H I V. apply In_get_at in I. destruct I as (i & _ & G). unfold elements in G. rewrite !get_combine, !get_map in G.
  destruct (get_at os i) as [o'|] eqn:Go; [|discriminate]. destruct (get_at fin i) as [(s', d')|] eqn:Gf; [|discriminate]. cbn [option_map fst snd] in G. injection G as -> -> ->.
  split; [rewrite Forall_forall in US; apply US; eapply get_at_In; eauto|]. destruct (split_at _ _ _ Go) as (p & q & EO & LP). destruct (H p o q EO V) as (s2 & d2 & G2 & _ & B). rewrite LP in G2. congruence.
Qed.

(** ** Conversions *)
Lemma tenthousand_ok x : in_unit x -> exists v, tenthousand (Some x) = Ret v /\ in_tenthousandths x v.
Proof.
  intros (A & B). unfold tenthousand, in_tenthousandths. cbn [option_map short_of_real].
  assert (0 <= x * 10000)%R as N by lra. assert (0 <= Ztrunc (x * 10000) <= 10000) as K.
  { split; [apply Ztrunc_le in N; now rewrite (Ztrunc_IZR 0) in N|]. apply Z.le_trans with (Ztrunc (IZR 10000)); [apply Ztrunc_le; lra|rewrite Ztrunc_IZR; lia]. }
  exists (Ztrunc (x * 10000)). assert (in_shortb (Ztrunc (x * 10000)) = true) as -> by (clear - K; unfold in_shortb; lia). split; auto.
  rewrite Ztrunc_floor by auto. split; [apply Zfloor_lb|apply Zfloor_ub].
Qed.
Lemma all_scores_ok t d y c h r v : in_unit t -> in_unit d -> in_unit y -> in_unit c -> in_unit h -> in_unit r -> in_unit v ->
  exists l, all_scores (Some t) (Some d) (Some y) (Some c) (Some h) (Some r) (Some v) (is_water os) = Ret l /\ score_bands os t d y c h r v l.
Proof.
  intros H1 H2 H3 H4 H5 H6 H7. unfold all_scores. destruct (tenthousand_ok t H1) as (a & -> & A). cbn [bind]. pose proof (is_water_ok os qai_ok) as W.
  destruct (is_water os).
  - eexists. split; [reflexivity|]. exists a. split; auto. split; auto. tauto.
  - destruct (tenthousand_ok d H2) as (a2 & E2 & A2). destruct (tenthousand_ok y H3) as (a3 & E3 & A3). destruct (tenthousand_ok c H4) as (a4 & E4 & A4).
    destruct (tenthousand_ok h H5) as (a5 & E5 & A5). destruct (tenthousand_ok r H6) as (a6 & E6 & A6). destruct (tenthousand_ok v H7) as (a7 & E7 & A7).
    cbn [omap]. rewrite E2, E3, E4, E5, E6, E7. cbn [bind]. eexists. split; [reflexivity|]. exists a. split; auto. split; [intros Q; apply W in Q; discriminate|].
    intros _. eexists. split; [reflexivity|]. apply Forall2_cons; [exact A2|]. apply Forall2_cons; [exact A3|]. apply Forall2_cons; [exact A4|]. apply Forall2_cons; [exact A5|]. apply Forall2_cons; [exact A6|]. apply Forall2_cons; [exact A7|]. constructor.
Qed.
End Pixel.

Lemma haze_exists b l : exists hs, haze_scores b l hs.
Proof.
  eexists. exists (fun p => o_valid (fst p) && negb (off_season b (snd p))). split; [|reflexivity]. apply Forall_forall. intros p _. apply season_ok.
Qed.
