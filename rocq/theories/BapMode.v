(** The two modes of compositing, and what they depend on. *)
From Coq Require Import Reals Lra Lia.
From Flocq Require Import Core.
From Verif Require Import Base Loops BaseFacts LoopsFacts StatsModel StatsSpec DateModel QaiModel AggModel ChunkProofs CsoProofs BapModel BapSpec BapProofs BapScores BapTargets BapCor BapPixel BapComposite.
#[local] Open Scope Z_scope.

Lemma counts_bound {A} (P : A -> Prop) l n : counts P l n -> 0 <= n <= zlen l.
Proof. intros C. induction C; rewrite ?zlen_c; try lia. unfold zlen; cbn; lia. Qed.
Lemma first_best_In b hs l e x : first_best b hs l e x -> In e l /\ may_use b hs e.
Proof. intros (p & q & -> & E & _). split; [apply in_elt|exact E]. Qed.
Lemma may_use_valid b hs e : may_use b hs e -> o_valid (fst (fst e)) = true.
Proof. intros ((V & _) & _). exact V. Qed.
Lemma to_short_id z : in_short z -> to_short z = z.
Proof. unfold in_short, to_short. intros. lia. Qed.

Section Modes.
Variables (b : bap) (scale : R) (bands : option (Z * Z)) (nb : nat) (nodata : Z) (os : list obs).
Hypothesis SN : sane b.
Hypothesis US : Forall (usable b nb) os.
Hypothesis WB : water_pixel os -> water_bands scale bands os.
Hypothesis MANY : zlen os <= 32767.

Lemma elements_len fin : zlen fin = zlen os -> zlen (elements os fin) = zlen os.
Proof. intros L. unfold elements, zlen in *. rewrite !combine_length, !map_length. lia. Qed.

Lemma compositing_ok fin : zlen fin = zlen os ->
  (forall before o after, os = before ++ o :: after -> o_valid o = true -> exists s dist, get_at fin (zlen before) = Some (s, dist) /\ pixel_scores b scale bands os o (before ++ after) s dist /\ bounded s dist) ->
  forall hs, haze_scores b (combine os (map fst fin)) hs ->
  exists r, compositing b (haze_stats b (combine os (map fst fin))) (is_water os) nb nodata (elements os fin) = Ret r /\
    ((exists e x n, first_best b hs (elements os fin) e x /\ counts (may_use b hs) (elements os fin) n /\ shows b os e n r) \/
     ((forall e, In e (elements os fin) -> ~ may_use b hs e) /\ shows_nothing b nb nodata r)).
Proof.
  intros L H hs HZ. unfold compositing.
  assert (forall o s dist, In (o, s, dist) (elements os fin) -> o_valid o = true -> usable b nb o /\ bounded s dist) as EL.
  { intros o s dist I V. eapply element_ok; eauto. }
  destruct (select_ok b (combine os (map fst fin)) hs HZ (elements os fin)) as (best & which & n & E & C & W).
  { intros ((o, s), dist) I G. pose proof (may_use_valid b hs _ G) as V. destruct (EL o s dist I V) as (_ & (t & d & y & T & _ & _ & (T0 & _) & _) & _). exists t. cbn [fst snd]. split; auto. lra. }
  rewrite E. pose proof (counts_bound _ _ _ C) as CB. rewrite elements_len in CB by auto.
  destruct which as [((o, s), dist)|].
  - destruct W as (N & FB). replace (0 <? n) with true by lia. destruct (first_best_In _ _ _ _ _ FB) as (I & G). pose proof (may_use_valid b hs _ G) as V. cbn [fst] in V.
    destruct (EL o s dist I V) as (U & BD). destruct BD as ((t & d & y & Et & Ed & Ey & Ut & Ud & Uy) & Uc & Uh & Ur & Uv & SD).
    assert (firstn nb (o_dat o) = o_dat o) as ->. { rewrite <- (us_bands _ _ _ U). apply firstn_all. }
    pose proof (us_year _ _ _ U). pose proof (us_doy _ _ _ U). pose proof (us_sensor _ _ _ U). pose proof (ac_year b (sn_accepted b SN)).
    rewrite (to_short_id n) by (unfold in_short; lia). rewrite (to_short_id (o_doy o)) by (unfold in_short; lia). rewrite (to_short_id (o_year o)) by (unfold in_short; lia).
    rewrite (to_short_id dist) by auto. rewrite (to_short_id (o_sensor o + 1)) by (unfold in_short; lia).
    destruct (all_scores_ok b scale bands nb os US WB t d y (s_c s) (s_h s) (s_r s) (s_v s) Ut Ud Uy Uc Uh Ur Uv) as (l & AL & SB). rewrite Et, Ed, Ey, AL. unfold when.
    destruct (out_scr b) eqn:OS; cbn [bind]; (eexists; split; [reflexivity|]); left; exists (o, s, dist), best, n; (split; [exact FB|]); (split; [exact C|]);
      unfold shows; cbn [r_bap r_inf r_scr]; rewrite OS; (split; [reflexivity|]); (split; [reflexivity|]); (split; [now intros|]); [|discriminate].
    intros _. exists l, t, d, y. auto 10.
  - destruct W as (-> & _ & NO). cbn [Z.ltb Z.compare]. eexists. split; [reflexivity|]. right. split; [exact NO|]. unfold shows_nothing, nothing. cbn [r_bap r_inf r_scr]. auto.
Qed.

Lemma nsum_ok {A} (f : A -> R) l : nsum (map (fun e => Some (f e)) l) = Some (sum f l).
Proof.
  unfold nsum. assert (forall l a, fold_left (num_op Rplus) (map (fun e => Some (f e)) l) (Some a) = Some (a + sum f l)%R) as G.
  { clear. induction l as [|x l IH]; intros a; cbn [map fold_left sum num_op]; [f_equal; ring|]. rewrite IH. f_equal. ring. }
  rewrite G. f_equal. ring.
Qed.
Lemma nsum_some {A} (g : A -> num) (f : A -> R) l : (forall e, In e l -> g e = Some (f e)) -> nsum (map g l) = Some (sum f l).
Proof. intros H. rewrite <- nsum_ok. f_equal. apply map_ext_in. exact H. Qed.

Lemma sum_between {A} (w v : A -> R) lo hi l : (forall e, In e l -> 0 <= w e /\ lo <= v e <= hi)%R ->
  (lo * sum w l <= sum (fun e => w e * v e) l <= hi * sum w l)%R.
Proof.
  induction l as [|x l IH]; intros H; cbn [sum]; [lra|]. pose proof (H x ltac:(now left)). assert (lo * sum w l <= sum (fun e => w e * v e) l <= hi * sum w l)%R by (apply IH; intros; apply H; now right). nra.
Qed.
Lemma mean_between {A} (w v : A -> R) lo hi l : (forall e, In e l -> 0 <= w e /\ lo <= v e <= hi)%R -> (0 < sum w l)%R ->
  (lo <= sum (fun e => w e * v e) l / sum w l <= hi)%R.
Proof.
  intros H P. pose proof (sum_between w v lo hi l H) as B. set (q := sum (fun e => w e * v e)%R l) in *. set (s := sum w l) in *.
  split; apply Rmult_le_reg_r with s; auto; unfold Rdiv; rewrite Rmult_assoc, Rinv_l by lra; lra.
Qed.
Lemma trunc_part x : integer_part x (Ztrunc x).
Proof.
  unfold integer_part. split; intros H.
  - rewrite Ztrunc_floor by auto. split; [apply Zfloor_lb|apply Zfloor_ub].
  - rewrite Ztrunc_ceil by lra. pose proof (Zceil_ub x). unfold Zceil in *. pose proof (Zfloor_ub (- x)). rewrite opp_IZR in *. lra.
Qed.
Lemma trunc_between x lo hi : (IZR lo <= x <= IZR hi)%R -> lo <= Ztrunc x <= hi.
Proof. intros (A & B). apply Ztrunc_le in A, B. rewrite Ztrunc_IZR in A, B. lia. Qed.

Lemma mean_unit_of us f : us <> [] -> (forall e, In e us -> in_unit (score_of f e)) -> in_unit (sum (score_of f) us / size us).
Proof.
  intros N H. assert (0 <= sum (score_of f) us <= size us)%R.
  { clear N. induction us as [|e us IH]; unfold size in *; cbn [sum length]; [cbn; lra|]. rewrite S_INR. pose proof (H e ltac:(now left)) as (A & B). specialize (IH ltac:(intros; apply H; now right)). lra. }
  assert (0 < size us)%R. { unfold size. apply lt_0_INR. destruct us; [congruence|cbn; lia]. }
  split; [apply Rmult_le_pos; [lra|apply Rlt_le; now apply Rinv_0_lt_compat]|]. apply Rmult_le_reg_r with (size us); auto. unfold Rdiv. rewrite Rmult_assoc, Rinv_l by lra. lra.
Qed.

Hypothesis VALUES : Forall (fun o => Forall in_short (o_dat o)) os.

Lemma inf_flags (c h : R) : let q := Z.lor (if num_lt (Some c) (1 / 100) then 2 else 0) (if num_lt (Some h) (1 / 100) then 8 else 0) in
  (Z.testbit q 1 = true <-> c < 1 / 100)%R /\ (Z.testbit q 3 = true <-> h < 1 / 100)%R /\ forall k, k <> 1 -> k <> 3 -> Z.testbit q k = false.
Proof.
  cbv zeta. cbn [num_lt]. rewrite !Z.lor_spec.
  assert (forall k, k <> 1 -> Z.testbit 2 k = false) as T2 by (intros k K; apply (Z.pow2_bits_false 1); congruence).
  assert (forall k, k <> 3 -> Z.testbit 8 k = false) as T8 by (intros k K; apply (Z.pow2_bits_false 3); congruence).
  split; [|split].
  - destruct (Rlt_dec c (1 / 100)), (Rlt_dec h (1 / 100)); cbv; split; intros; auto; try discriminate; contradiction.
  - destruct (Rlt_dec c (1 / 100)), (Rlt_dec h (1 / 100)); cbv; split; intros; auto; try discriminate; contradiction.
  - intros k K1 K3. rewrite Z.lor_spec. destruct (Rlt_dec c (1 / 100)), (Rlt_dec h (1 / 100)); rewrite ?T2, ?T8, ?Z.bits_0 by auto; reflexivity.
Qed.

Lemma weighting_ok fin : out_bap b = true -> zlen fin = zlen os ->
  (forall before o after, os = before ++ o :: after -> o_valid o = true -> exists s dist, get_at fin (zlen before) = Some (s, dist) /\ pixel_scores b scale bands os o (before ++ after) s dist /\ bounded s dist) ->
  forall hs, haze_scores b (combine os (map fst fin)) hs ->
  exists r us, weighting b (haze_stats b (combine os (map fst fin))) (is_water os) nb nodata (elements os fin) = Ret r /\ all_usable b hs (elements os fin) us /\
    ((0 < sum (score_of s_t) us)%R -> averages b os nb nodata us r) /\ ((sum (score_of s_t) us <= 0)%R -> shows_nothing b nb nodata r).
Proof.
  intros OB L H hs HZ. unfold weighting. cbv beta zeta. rewrite OB. cbn [negb].
  set (hz := haze_stats b (combine os (map fst fin))). set (us := filter (fun e => negb (skipped b hz (fst (fst e)) (snd (fst e)))) (elements os fin)).
  assert (all_usable b hs (elements os fin) us) as AU.
  { exists (fun e => negb (skipped b hz (fst (fst e)) (snd (fst e)))). split; auto. apply Forall_forall. intros e _. rewrite negb_true_iff. apply skipped_ok. exact HZ. }
  assert (forall o s dist, In (o, s, dist) us -> In o os /\ usable b nb o /\ bounded s dist) as EL.
  { intros o s dist I. unfold us in I. apply filter_In in I. destruct I as (I & K). apply negb_true_iff in K. apply (skipped_ok b _ hs) in K; auto.
    split; [|eapply element_ok; eauto; apply K]. unfold elements in I. apply in_combine_l in I. apply in_combine_l in I. exact I. }
  assert (forall e, In e us -> s_t (snd (fst e)) = Some (score_of s_t e) /\ s_d (snd (fst e)) = Some (score_of s_d e) /\ s_y (snd (fst e)) = Some (score_of s_y e) /\
     in_unit (score_of s_t e) /\ in_unit (score_of s_d e) /\ in_unit (score_of s_y e)) as SO.
  { intros ((o, s), dist) I. destruct (EL o s dist I) as (_ & _ & (t & d & y & Et & Ed & Ey & Ut & Ud & Uy) & _). unfold score_of. cbn [fst snd]. rewrite Et, Ed, Ey. auto 10. }
  assert (nsum (map (fun e => s_t (snd (fst e))) us) = Some (sum (score_of s_t) us)) as -> by (apply nsum_some; intros; now apply SO).
  assert (nsum (map (fun e => s_d (snd (fst e))) us) = Some (sum (score_of s_d) us)) as -> by (apply nsum_some; intros; now apply SO).
  assert (nsum (map (fun e => s_y (snd (fst e))) us) = Some (sum (score_of s_y) us)) as -> by (apply nsum_some; intros; now apply SO).
  assert (forall g : scores -> R, nsum (@map _ num (fun e => Some (g (snd (fst e)))) us) = Some (sum (score_of (fun s => Some (g s))) us)) as NS by (intros g; apply nsum_some; intros; reflexivity).
  rewrite (NS s_c), (NS s_h), (NS s_r), (NS s_v). cbn [option_map].
  assert (zlen us <= zlen os) as LU. { rewrite <- (elements_len fin L). unfold us, zlen. apply Nat2Z.inj_le. clear. induction (elements os fin) as [|e l IH]; cbn [filter length]; [lia|]. destruct (negb _); cbn [length]; lia. }
  cbn [num_gt]. destruct (Rlt_dec 0 (sum (score_of s_t) us)) as [P|P].
  - assert (us <> []) as NE by (intros E; rewrite E in P; cbn [sum] in P; lra).
    assert (IZR (zlen us) = size us) as -> by (unfold zlen, size; now rewrite INR_IZR_INZ).
    destruct (omap_get (fun k => short_of_real (num_op Rdiv (nsum (map (fun e => num_mul (IZR match get_at (o_dat (fst (fst e))) k with Some v => v | None => 0 end) (s_t (snd (fst e)))) us)) (Some (sum (score_of s_t) us))))
       (fun k v => integer_part (sum (fun e => score_of s_t e * band_of k e)%R us / sum (score_of s_t) us)%R v) (zupto (Z.of_nat nb))) as (bs & EB & LB & GB).
    { intros i k G. rewrite (nsum_some _ (fun e => score_of s_t e * band_of k e)%R). 2:{ intros e I. destruct (SO e I) as (-> & _). cbn [num_mul option_map]. f_equal. unfold band_of. destruct (get_at _ k); ring. }
      cbn [num_op short_of_real]. set (x := (sum (fun e => score_of s_t e * band_of k e)%R us / sum (score_of s_t) us)%R).
      assert (-32768 <= Ztrunc x <= 32767) as K.
      { apply trunc_between. unfold x. apply mean_between; auto. intros ((o, s), dist) I. destruct (SO _ I) as (_ & _ & _ & (T & _) & _). split; auto. destruct (EL o s dist I) as (Io & _).
        rewrite Forall_forall in VALUES. specialize (VALUES o Io). unfold band_of. cbn [fst snd]. destruct (get_at (o_dat o) k) as [v|] eqn:Gv; [|lra].
        pose proof (Forall_get_at _ _ _ _ VALUES Gv) as Sv. unfold in_short in Sv. split; apply IZR_le; lia. }
      exists (Ztrunc x). assert (in_shortb (Ztrunc x) = true) as -> by (clear - K; unfold in_shortb; lia). split; auto. apply trunc_part. }
    rewrite EB. cbn [bind].
    destruct (all_scores_ok b scale bands nb os US WB (sum (score_of s_t) us / size us) (sum (score_of s_d) us / size us) (sum (score_of s_y) us / size us)
      (sum (score_of (fun s => Some (s_c s))) us / size us) (sum (score_of (fun s => Some (s_h s))) us / size us) (sum (score_of (fun s => Some (s_r s))) us / size us) (sum (score_of (fun s => Some (s_v s))) us / size us)) as (l & AL & SB);
      try (apply mean_unit_of; [exact NE|]; intros ((o, s), dist) I; destruct (EL o s dist I) as (_ & _ & BD); pose proof (SO _ I) as SI; unfold bounded in BD; unfold score_of in *; cbn [fst snd] in *; tauto).
    rewrite AL. unfold when.
    assert (to_short (zlen us) = zlen us) as -> by (apply to_short_id; unfold in_short; pose proof (zlen_nonneg us); lia).
    assert (length bs = nb) as LBS. { unfold zlen in LB. rewrite zupto_length in LB. lia. }
    assert (forall k v, get_at bs k = Some v -> integer_part (sum (fun e => score_of s_t e * band_of k e)%R us / sum (score_of s_t) us)%R v) as GBS.
    { intros k v G. pose proof (get_at_inv _ _ _ G) as Rk. unfold zlen in Rk. rewrite LBS in Rk. destruct (GB k k) as (v' & G' & Q); [rewrite get_zupto by lia; reflexivity|]. congruence. }
    destruct (out_scr b) eqn:OS; cbn [bind]; (eexists; exists us; split; [reflexivity|]); (split; [exact AU|]); (split; [|intros; lra]); intros _;
      unfold averages; cbn [r_bap r_inf r_scr]; rewrite OS; (split; [exists bs; auto|]); (split; [|first [discriminate|intros _; exists l; auto]]);
      intros ->; eexists; unfold zlen; (split; [reflexivity|]); apply inf_flags.
  - exists (nothing b nb nodata), us. split; auto. split; auto. split; [intros; contradiction|]. intros _. unfold shows_nothing, nothing. cbn [r_bap r_inf r_scr]. auto.
Qed.
End Modes.

(** ** What the result depends on *)
Lemma select_filter b hz l : forall st, fold_left (select_step b hz) l st = fold_left (select_step b hz) (filter (fun e => o_valid (fst (fst e))) l) st.
Proof.
  induction l as [|e l IH]; intros ((best, which), n); cbn [filter]; auto. destruct (o_valid (fst (fst e))) eqn:V; cbn [fold_left]; [apply IH|].
  unfold select_step at 2. assert (skipped b hz (fst (fst e)) (snd (fst e)) = true) as -> by (unfold skipped; now rewrite V). apply IH.
Qed.
Lemma used_filter b hz l : filter (fun e => negb (skipped b hz (fst (fst e)) (snd (fst e)))) l =
  filter (fun e : obs * scores * Z => negb (skipped b hz (fst (fst e)) (snd (fst e)))) (filter (fun e => o_valid (fst (fst e))) l).
Proof.
  induction l as [|e l IH]; cbn [filter]; auto. destruct (o_valid (fst (fst e))) eqn:V; cbn [filter]; [now rewrite IH|].
  assert (skipped b hz (fst (fst e)) (snd (fst e)) = true) as -> by (unfold skipped; now rewrite V). exact IH.
Qed.
Lemma haze_filter b l : haze_stats b l = haze_stats b (filter (fun p => o_valid (fst p)) l).
Proof.
  unfold haze_stats. assert (filter (fun p => o_valid (fst p) && negb (off_season b (snd p))) l = filter (fun p => o_valid (fst p) && negb (off_season b (snd p))) (filter (fun p => o_valid (fst p)) l)) as ->; auto.
  induction l as [|e l IH]; cbn [filter]; auto. destruct (o_valid (fst e)) eqn:V; cbn [andb filter]; [rewrite V; cbn [andb]; now rewrite IH|exact IH].
Qed.
Lemma F2_filter {A} (valid : obs -> bool) (os : list obs) : forall (x y : list A), length x = length os -> length y = length os ->
  (forall i o u v, get_at os i = Some o -> get_at x i = Some u -> get_at y i = Some v -> valid o = true -> u = v) ->
  filter (fun p => valid (fst p)) (combine os x) = filter (fun p => valid (fst p)) (combine os y).
Proof.
  induction os as [|o os IH]; intros [|u x] [|v y] L1 L2 H; cbn [combine filter fst length] in *; auto; try discriminate.
  rewrite (IH x y ltac:(lia) ltac:(lia)).
  - destruct (valid o) eqn:V; auto. rewrite (H 0 o u v); auto; apply get_cons_0.
  - intros i o' u' v' G1 G2 G3. pose proof (get_at_inv _ _ _ G1). apply (H (i + 1)); rewrite get_cons_S by lia; replace (i + 1 - 1) with i by lia; assumption.
Qed.
Lemma elements_filter os fin : length fin = length os ->
  filter (fun e => o_valid (fst (fst e))) (elements os fin) = map (fun p => (fst p, fst (snd p), snd (snd p))) (filter (fun p => o_valid (fst p)) (combine os fin)) /\
  filter (fun p => o_valid (fst p)) (combine os (map fst fin)) = map (fun p => (fst p, fst (snd p))) (filter (fun p => o_valid (fst p)) (combine os fin)).
Proof.
  unfold elements. revert fin. induction os as [|o os IH]; intros [|(s, d) fin] L; cbn [combine map filter fst snd length] in *; auto; try discriminate.
  destruct (IH fin ltac:(lia)) as (I1 & I2). rewrite I1, I2. destruct (o_valid o); auto.
Qed.

Lemma mode_depends b water nb nodata os fin fin' : length fin = length os -> length fin' = length os ->
  filter (fun p => o_valid (fst p)) (combine os fin) = filter (fun p => o_valid (fst p)) (combine os fin') ->
  (if b_select b then compositing b (haze_stats b (combine os (map fst fin))) water nb nodata (elements os fin) else weighting b (haze_stats b (combine os (map fst fin))) water nb nodata (elements os fin)) =
  (if b_select b then compositing b (haze_stats b (combine os (map fst fin'))) water nb nodata (elements os fin') else weighting b (haze_stats b (combine os (map fst fin'))) water nb nodata (elements os fin')).
Proof.
  intros L L' E. destruct (elements_filter os fin L) as (E1 & E2). destruct (elements_filter os fin' L') as (E1' & E2').
  rewrite (haze_filter b (combine os (map fst fin))), (haze_filter b (combine os (map fst fin'))), E2, E2', E.
  set (hz := haze_stats b _). unfold compositing, weighting.
  rewrite (select_filter b hz (elements os fin)), (select_filter b hz (elements os fin')), (used_filter b hz (elements os fin)), (used_filter b hz (elements os fin')), E1, E1', E. reflexivity.
Qed.

(** The result does not depend on the scores left by the previous pixel. *)
Lemma pixel_fresh b scale bands nb nodata os old old' : sane b -> Forall (usable b nb) os -> length old = length os -> length old' = length os ->
  forall r fin r' fin', pixel b (static_targets b) scale bands nb nodata os old = Ret (r, fin) -> pixel b (static_targets b) scale bands nb nodata os old' = Ret (r', fin') -> r = r'.
Proof.
  intros SN US LO LO' r fin r' fin' P P'. unfold pixel in P, P'.
  destruct (cors_ok b nb nodata os SN US) as (cors & EC & LC & _). rewrite EC in P, P'. cbn [bind] in P, P'.
  destruct (omap _ (combine (combine os cors) old)) as [new| |] eqn:EN in P; try discriminate. cbn [bind] in P.
  destruct (omap _ (combine (combine os cors) old')) as [new'| |] eqn:EN' in P'; try discriminate. cbn [bind] in P'.
  apply omap_ret, F2_get in EN, EN'. destruct EN as (LN & GN). destruct EN' as (LN' & GN'). rewrite Forall_forall in US.
  assert (length cors = length os) as LC' by (unfold zlen in LC; lia).
  assert (length new = length os) as LNn. { unfold zlen in LN. rewrite !combine_length in LN. lia. }
  assert (length new' = length os) as LNn'. { unfold zlen in LN'. rewrite !combine_length in LN'. lia. }
  assert (forall i o u v, get_at os i = Some o -> get_at new i = Some u -> get_at new' i = Some v -> o_valid o = true -> u = v) as SAME.
  { intros i o u v G Gu Gv V. pose proof (get_at_inv _ _ _ G) as Ri.
    destruct (get_at_some cors i) as (c & Gc); [lia|]. destruct (get_at_some old i) as (x & Gx); [unfold zlen in *; lia|]. destruct (get_at_some old' i) as (x' & Gx'); [unfold zlen in *; lia|].
    destruct (GN i (o, c, x)) as (u' & Gu' & Fu); [now rewrite !get_combine, G, Gc, Gx|]. destruct (GN' i (o, c, x')) as (v' & Gv' & Fv); [now rewrite !get_combine, G, Gc, Gx'|].
    cbn [fst snd] in *. destruct (score_full b SN nb o c x (US o ltac:(eapply get_at_In; eauto)) V) as (s & dist & E & _ & A). rewrite (A x') in Fv. rewrite E in Fu. congruence. }
  destruct (is_water os).
  - destruct (omap _ (combine os new)) as [f| |] eqn:EF in P; try discriminate. cbn [bind] in P.
    destruct (omap _ (combine os new')) as [f'| |] eqn:EF' in P'; try discriminate. cbn [bind] in P'.
    apply omap_ret, F2_get in EF, EF'. destruct EF as (LF & GF). destruct EF' as (LF' & GF').
    assert (length f = length os) as LFn. { unfold zlen in LF. rewrite !combine_length in LF. lia. }
    assert (length f' = length os) as LFn'. { unfold zlen in LF'. rewrite !combine_length in LF'. lia. }
    assert (filter (fun p => o_valid (fst p)) (combine os f) = filter (fun p => o_valid (fst p)) (combine os f')) as EQ.
    { apply F2_filter; auto. intros i o u v G Gu Gv V. pose proof (get_at_inv _ _ _ G) as Ri.
      destruct (get_at_some new i) as (n & Gn); [unfold zlen in *; lia|]. destruct (get_at_some new' i) as (n' & Gn'); [unfold zlen in *; lia|].
      pose proof (SAME i o n n' G Gn Gn' V) as <-.
      destruct (GF i (o, n)) as (u' & Gu' & Fu); [now rewrite get_combine, G, Gn|]. destruct (GF' i (o, n)) as (v' & Gv' & Fv); [now rewrite get_combine, G, Gn'|]. congruence. }
    fold (elements os f) in P. fold (elements os f') in P'. rewrite (mode_depends b true nb nodata os f f' LFn LFn' EQ) in P.
    destruct (if b_select b then _ else _) as [q| |] in P, P'; try discriminate. cbn [bind] in P, P'. congruence.
  - cbn [bind] in P, P'.
    assert (filter (fun p => o_valid (fst p)) (combine os new) = filter (fun p => o_valid (fst p)) (combine os new')) as EQ by (apply F2_filter; auto).
    fold (elements os new) in P. fold (elements os new') in P'. rewrite (mode_depends b false nb nodata os new new' LNn LNn' EQ) in P.
    destruct (if b_select b then _ else _) as [q| |] in P, P'; try discriminate. cbn [bind] in P, P'. congruence.
Qed.
