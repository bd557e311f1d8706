(** C37: clear-sky observations. *)
From Coq Require Import Reals Lra Sorting.Sorted Permutation.
From Flocq Require Import Core.
From Verif Require Import Base BaseFacts Loops StatsModel StatsSpec StatsProofs ModeModel ModeProofs AggModel AggSpec AggProofs
  DateModel DateSpec DateProofs InterpProofs CsoModel CsoSpec CsoProofs.
#[local] Open Scope Z_scope.

(** The windows of a range: they start with the first day of the first month, are
    MONTH_STEP months long each, follow each other without gap or overlap, and no
    window starts in or after the last month. *)
Theorem C37_windows : forall d1 d2 step, 1 <= step <= 12 -> 1 <= month d1 <= 12 -> 1 <= month d2 <= 12 ->
  exists nw, number_windows d1 d2 step = Ret nw /\
    let bs := map ce (window_dates d1 nw step) in
    let i1 := 12 * year d1 + (month d1 - 1) in
    let i2 := 12 * year d2 + (month d2 - 1) in
    zlen (windows bs) = nw /\ StronglySorted Z.lt bs /\
    (forall w, 0 <= w < nw -> get_at (windows bs) w = Some (month_start (i1 + w * step), month_start (i1 + (w + 1) * step)) /\
                             i1 + w * step < i2) /\
    i2 <= i1 + nw * step /\
    (forall lo hi, In (lo, hi) (windows bs) -> 28 <= hi - lo <= 365) /\
    forall c, month_start i1 <= c < month_start (i1 + nw * step) -> exists! w, In w (windows bs) /\ fst w <= c < snd w.
Proof.
  intros d1 d2 step ST M1 M2.
  destruct (count_spec step (year d2) (month d2) ST M2 (Z.to_nat (12 * (year d2 - year d1) + 12)) (year d1) (month d1) 0 M1)
    as (nw & E & N & A & B); [lia|].
  exists nw. split; [exact E|]. cbv zeta. set (bs := map ce (window_dates d1 nw step)).
  set (i1 := 12 * year d1 + (month d1 - 1)).
  assert (forall w, 0 <= w <= nw -> get_at bs w = Some (month_start (i1 + w * step))) as G by (intros; apply window_dates_get; auto).
  assert (zlen bs = nw + 1) as LB by (apply window_dates_len; auto).
  assert (rising bs) as RI.
  { intros i j x y X Y L. pose proof (get_at_inv _ _ _ X). pose proof (get_at_inv _ _ _ Y).
    rewrite G in X by lia. rewrite G in Y by lia. injection X as <-. injection Y as <-. apply month_start_strict. nia. }
  assert (forall w, 0 <= w < nw -> get_at (windows bs) w = Some (month_start (i1 + w * step), month_start (i1 + (w + 1) * step))) as GW.
  { intros w W. apply windows_get. split; apply G; lia. }
  assert (zlen (windows bs) = nw) as LW.
  { unfold windows, zlen in *. rewrite combine_length. destruct bs; cbn [tl length] in *; lia. }
  split; [auto|]. split; [apply rising_sorted, RI|].
  split; [intros w W; split; [auto|]; specialize (A w W); unfold i1; lia|]. split; [unfold i1; lia|].
  assert (forall lo hi, In (lo, hi) (windows bs) -> exists w, 0 <= w < nw /\ get_at (windows bs) w = Some (lo, hi) /\
     lo = month_start (i1 + w * step) /\ hi = month_start (i1 + (w + 1) * step)) as IW.
  { intros lo hi I. apply In_get_at in I. destruct I as (w & W & X). rewrite LW in W. exists w. split; auto. split; auto.
    rewrite GW in X by auto. injection X as <- <-. auto. }
  split.
  - intros lo hi I. destruct (IW lo hi I) as (w & W & _ & -> & ->).
    replace (i1 + (w + 1) * step) with (i1 + w * step + step) by lia. set (i := i1 + w * step).
    pose proof (month_start_succ i). pose proof (month_start_mono (i + 1) (i + step)).
    pose proof (month_start_mono (i + step) (i + 12)). pose proof (month_start_12 i). lia.
  - intros c C. assert (exists w, 0 <= w < nw /\ month_start (i1 + w * step) <= c < month_start (i1 + (w + 1) * step)) as (w & W & X).
    { clear - C N. assert (forall n, 0 <= n -> month_start i1 <= c < month_start (i1 + n * step) ->
        exists w, 0 <= w < n /\ month_start (i1 + w * step) <= c < month_start (i1 + (w + 1) * step)) as Y; [|apply Y; auto].
      intros n0 N0. pattern n0. apply natlike_ind; auto.
      - rewrite Z.mul_0_l, Z.add_0_r. lia.
      - intros n Z IH H. unfold Z.succ in *. destruct (Z.ltb_spec c (month_start (i1 + n * step))) as [L|L].
        + destruct IH as (w & W & V); [lia|]. exists w. split; [lia|auto].
        + exists n. split; lia. }
    exists (month_start (i1 + w * step), month_start (i1 + (w + 1) * step)). split.
    + cbn [fst snd]. split; auto. eapply get_at_In, GW. auto.
    + intros [lo hi] [I V]. cbn [fst snd] in V. destruct (IW lo hi I) as (w' & W' & _ & -> & ->).
      assert (w = w') as ->; auto. destruct (Z.lt_trichotomy w w') as [L|[L|L]]; auto; exfalso.
      * pose proof (month_start_mono (i1 + (w + 1) * step) (i1 + w' * step)). nia.
      * pose proof (month_start_mono (i1 + (w' + 1) * step) (i1 + w * step)). nia.
Qed.

(** Whenever MONTH_STEP divides the number of months between the first and the last
    month - so always for MONTH_STEP = 1 - the last month of the requested range
    (in particular its last day) lies in no window.  Within a single month there is
    no window at all. *)
Theorem C37_last_month_refuted : forall d1 d2 step nw, 1 <= step <= 12 -> 1 <= month d1 <= 12 -> valid_md (month d2) (day d2) ->
  ce d2 = date2ce (year d2) (month d2) (day d2) ->
  (step | 12 * (year d2 - year d1) + (month d2 - month d1)) -> number_windows d1 d2 step = Ret nw ->
  (12 * year d1 + month d1 = 12 * year d2 + month d2 -> nw = 0) /\
  forall w, In w (windows (map ce (window_dates d1 nw step))) -> ~ fst w <= ce d2 < snd w.
Proof.
  intros d1 d2 step nw ST M1 V CE D E. assert (1 <= month d2 <= 12) as M2 by apply V.
  destruct (count_spec step (year d2) (month d2) ST M2 (Z.to_nat (12 * (year d2 - year d1) + 12)) (year d1) (month d1) 0 M1)
    as (k & E' & N & A & B); [lia|].
  unfold number_windows in E. rewrite E' in E. injection E as <-. cbn [Z.add]. split.
  - intros EQ. destruct (Z.eq_dec k 0) as [|NZ]; auto. specialize (A 0 ltac:(lia)). lia.
  - intros [lo hi] I C. cbn [fst snd] in C. apply In_get_at in I. destruct I as (w & _ & G). apply windows_get in G.
    destruct G as [G0 G]. pose proof (get_at_inv _ _ _ G0) as R0. pose proof (get_at_inv _ _ _ G) as R. rewrite window_dates_len in R by auto.
    rewrite window_dates_get in G by lia.
    assert (month_start (12 * year d1 + (month d1 - 1) + (w + 1) * step) = hi) as <- by congruence. clear G.
    destruct D as (c & D). specialize (A w).
    assert (12 * year d1 + (month d1 - 1) + (w + 1) * step <= 12 * year d2 + (month d2 - 1)) as LE.
    { assert (12 * year d1 + month d1 + w * step < 12 * year d2 + month d2) as LT.
      { destruct (Z.ltb_spec w k); [|lia]. apply A. lia. }
      assert (w * step < c * step) as X by lia. apply Z.mul_lt_mono_pos_r in X; [|lia].
      assert ((w + 1) * step <= c * step) by (apply Z.mul_le_mono_nonneg_r; lia). lia. }
    pose proof (month_start_mono _ _ LE) as MO. rewrite (month_start_ym (year d2)) in MO by auto.
    assert (md2doy (month d2) 1 <= md2doy (month d2) (day d2)).
    { rewrite !md2doy_correct by auto. unfold spec_doy. destruct V as [_ V]. lia. }
    unfold date2ce in CE. lia.
Qed.

(** First and last acquisition of every window. *)
Theorem C37_acquisitions : forall ces bs, StronglySorted Z.le ces -> StronglySorted Z.lt bs ->
  Forall2 (fun w r => is_range ces (fst w) (snd w) r) (windows bs) (ranges ces 0 bs).
Proof.
  intros ces bs SO SB. apply rising_sorted in SB. rewrite ranges_eq; auto.
  - assert (forall w, In w (windows bs) -> fst w < snd w) as L.
    { intros [lo hi] I. apply In_get_at in I. destruct I as (i & _ & G). apply windows_get in G. cbn [fst snd].
      destruct G as [G1 G2]. apply (SB _ _ _ _ G1 G2). lia. }
    revert L. induction (windows bs) as [|w l IH]; intros L; cbn [map]; constructor.
    + apply find_range_spec; auto. apply L. left; auto.
    + apply IH. intros x I. apply L. right; auto.
  - pose proof (zlen_nonneg ces). lia.
  - intros lo _. constructor.
Qed.

(** NUM, MIN, MAX, RNG and AVG: the number of clear observations in the window and
    the statistics of the gaps; any other requested metric is irrelevant. *)
Theorem C37_simple_partial : forall ms ces msk bs q,
  length msk = length ces -> StronglySorted Z.le ces -> zlen ces <= 32767 -> zlen q = zlen ces + 1 ->
  StronglySorted Z.lt bs -> Forall (fun w => snd w - fst w <= 16383) (windows bs) ->
  (forall out q', cso_pixel ms false ces msk bs q = Ret (out, q') ->
     Forall2 (fun w row => Forall2 (fun m v => simple m -> cso_described ces msk w m v) ms row) (windows bs) out) /\
  (Forall simple ms -> exists out q', cso_pixel ms false ces msk bs q = Ret (out, q')).
Proof.
  intros ms ces msk bs q LE SO NT LQ SB WI. apply rising_sorted in SB.
  assert (ranges ces 0 bs = map (full_range ces) (windows bs)) as ER.
  { apply ranges_eq; auto; [pose proof (zlen_nonneg ces); lia|]. intros lo _. constructor. }
  unfold cso_pixel. rewrite ER. split.
  - intros out q' H. apply windows_each in H; auto; [|split; auto]. destruct H as [H _].
    eapply Forall2_impl; [|exact H]. intros w row F. eapply Forall2_impl; [|exact F]. intros m v X S1. apply X. left. auto.
  - intros F. destruct (windows_total ces msk ms LE SO NT bs q) as (out & q' & E & _); auto; [split; auto| |exists out, q'; auto].
    intros w m _ I. left. rewrite Forall_forall in F. auto.
Qed.

(** The gaps are positive and add up to the window. *)
Theorem C37_gaps : forall ces msk lo hi, lo < hi ->
  let g := gaps lo (clear_dates ces msk lo hi) hi in
  g <> [] /\ Forall (fun d => 0 < d) g /\ total g = hi - lo.
Proof.
  intros ces msk lo hi L. cbv zeta. pose proof (clear_in ces msk lo hi) as F. split; [|split].
  - apply gaps_nonnil; auto. eapply Forall_impl; [|exact F]. cbn beta. intros; lia.
  - apply gaps_positive.
  - apply gaps_total; [lia|]. eapply Forall_impl; [|exact F]. cbn beta. intros; lia.
Qed.

(** All metrics are right if in every window there is a clear observation on the
    first day and no two on the same day. *)
Theorem C37_spread_partial : forall ms ces msk bs q,
  length msk = length ces -> StronglySorted Z.le ces -> zlen ces <= 32767 -> zlen q = zlen ces + 1 ->
  StronglySorted Z.lt bs -> Forall (fun w => snd w - fst w <= 16383) (windows bs) ->
  (forall w, In w (windows bs) -> let ds := clear_dates ces msk (fst w) (snd w) in
     hd_error ds = Some (fst w) /\ StronglySorted Z.lt ds /\
     forall m, In m ms -> exists_for (gaps (fst w) ds (snd w)) m) ->
  exists out q', cso_pixel ms false ces msk bs q = Ret (out, q') /\
     Forall2 (fun w row => Forall2 (cso_described ces msk w) ms row) (windows bs) out.
Proof.
  intros ms ces msk bs q LE SO NT LQ SB WI H. apply rising_sorted in SB.
  assert (ranges ces 0 bs = map (full_range ces) (windows bs)) as ER.
  { apply ranges_eq; auto; [pose proof (zlen_nonneg ces); lia|]. intros lo _. constructor. }
  unfold cso_pixel. rewrite ER.
  destruct (windows_total ces msk ms LE SO NT bs q) as (out & q' & E & _ & F); auto; [split; auto| |exists out, q'; auto].
  intros w m I J. right. destruct (H w I) as (HD & SD & X). cbv zeta in *. unfold gaps_of, dates_of. split; auto.
  pose proof (clear_in ces msk (fst w) (snd w)) as CI. destruct (clear_dates ces msk (fst w) (snd w)) as [|d ds]; [discriminate|].
  injection HD as ->. cbn [gaps]. rewrite Z.ltb_irrefl. symmetry. apply gaps_exact; auto.
  eapply Forall_impl; [|exact CI]. cbn beta. intros; lia.
Qed.

(** STD of a window with exactly one clear observation (usually two gaps) divides
    by zero: the conversion of the result to short is undefined. *)
Theorem C37_one_observation_refuted : forall ms ces msk bs q w,
  length msk = length ces -> StronglySorted Z.le ces -> zlen ces <= 32767 -> zlen q = zlen ces + 1 ->
  StronglySorted Z.lt bs -> Forall (fun w => snd w - fst w <= 16383) (windows bs) ->
  In STD ms -> In w (windows bs) -> zlen (clear_dates ces msk (fst w) (snd w)) = 1 ->
  forall r, cso_pixel ms false ces msk bs q <> Ret r.
Proof.
  intros ms ces msk bs q w LE SO NT LQ SB WI I W ONE [out q'] H. apply rising_sorted in SB.
  assert (ranges ces 0 bs = map (full_range ces) (windows bs)) as ER.
  { apply ranges_eq; auto; [pose proof (zlen_nonneg ces); lia|]. intros lo _. constructor. }
  unfold cso_pixel in H. rewrite ER in H. apply windows_each in H; auto; [|split; auto].
  apply (proj2 H I w W). exact ONE.
Qed.

Lemma std_of v n x : 0 <= x -> (IZR x * IZR x <= v / (n - 1) < IZR (x + 1) * IZR (x + 1))%R ->
  Ztrunc (standdev v n) = x.
Proof.
  intros X [A B]. unfold standdev, variance.
  assert (0 <= IZR x)%R by (apply IZR_le; auto). assert (0 <= IZR (x + 1))%R by (apply IZR_le; lia).
  rewrite Ztrunc_floor by apply sqrt_pos. apply Zfloor_imp. split.
  - rewrite <- (sqrt_square (IZR x)) by auto. apply sqrt_le_1_alt. auto.
  - rewrite <- (sqrt_square (IZR (x + 1))) by auto. apply sqrt_lt_1_alt. split; [|auto].
    apply Rle_trans with (IZR x * IZR x)%R; auto. apply Rmult_le_pos; auto.
Qed.

(** STD, with 2 observations and 3 gaps of 1, 1 and 29 days: 22 instead of 16. *)
Theorem C37_std_refuted :
  gaps 0 (clear_dates [1; 2] [true; true] 0 31) 31 = [1; 1; 29] /\
  (exists q', cso_pixel [STD] false [1; 2] [true; true] [0; 31] [0; 0; 0] = Ret ([[22]], q')) /\
  cso_described [1; 2] [true; true] (0, 31) STD 16.
Proof.
  split; [reflexivity|].
  assert (dev 2 [1; 1; 29] = 4704 / 9)%R as DV by (unfold dev, mean, size; cbn; field).
  split.
  - destruct (window_stats_spec false [1; 2] [true; true] 0 31 [0; 0; 0] (0, 1)) as (a & E & W); try reflexivity.
    + repeat constructor; lia.
    + lia.
    + right. cbn [fst snd]. change (zlen [1; 2]) with 2. split; [lia|]. split; [lia|]. intros t c G.
      pose proof (get_at_inv _ _ _ G) as R. change (zlen [1; 2]) with 2 in R.
      assert (t = 0 \/ t = 1) as [-> | ->] by lia; injection G as <-; lia.
    + exists (g_q a). unfold cso_pixel. cbv zeta.
      change (ranges [1; 2] 0 [0; 31]) with [(0, 1)]. cbn match. rewrite cso_windows_cons. cbn [existsb is_q orb].
      rewrite E. cbn [bind omap cso_value]. pose proof (wok_n _ _ _ _ _ W) as N. pose proof (wok_kurt _ _ _ _ _ W) as K.
      change (clear_dates [1; 2] [true; true] 0 31) with [1; 2] in N, K. change (gaps 0 [1; 2] 31) with [1; 1; 29] in K.
      rewrite N, K. destruct (run_kurt_spec (reals [1; 1; 29])) as (_ & V & _); [discriminate|]. rewrite V.
      change (reals [1; 1; 29]) with [1; 1; 29]%R. rewrite DV. unfold standdev_o. change (zlen [1; 2] =? 1) with false. cbn match.
      unfold short_of_real. rewrite (std_of _ _ 22); [reflexivity|lia|]. change (zlen [1; 2]) with 2. change (22 + 1) with 23. lra.
  - unfold cso_described. cbn [fst snd]. change (clear_dates [1; 2] [true; true] 0 31) with [1; 2].
    change (gaps 0 [1; 2] 31) with [1; 1; 29]. cbn [described]. change (reals [1; 1; 29]) with [1; 1; 29]%R. rewrite DV.
    symmetry. apply (std_of (4704 / 9) (size [1; 1; 29]) 16); [lia|].
    replace (size [1; 1; 29]) with 3%R by (unfold size; cbn; lra). change (16 + 1) with 17. lra.
Qed.

(** Quantiles, with 1 observation and gaps of 10 and 20 days: the median is 10. *)
Theorem C37_quantile_refuted :
  gaps 0 (clear_dates [10] [true] 0 30) 30 = [10; 20] /\
  (exists q', cso_pixel [Q 50] false [10] [true] [0; 30] [0; 0] = Ret ([[10]], q')) /\
  ~ cso_described [10] [true] (0, 30) (Q 50) 10.
Proof.
  split; [reflexivity|]. split.
  - eexists. unfold cso_pixel. cbv zeta. change (ranges [10] 0 [0; 30]) with [(0, 0)]. cbn match. rewrite cso_windows_cons.
    cbn [existsb is_q orb]. unfold window_stats. cbn [fst snd]. change (0 >? -1) with true. cbn match.
    change (zrange 0 0) with [0]. cbn [ofold]. unfold one_obs. cbn [of_option bind get_at].
    change (get_at [true] 0) with (Some true). change (get_at [10] 0) with (Some 10). cbn [of_option bind negb g_left].
    change (10 >? 0) with true. cbn match. change (chk_int (10 - 0)) with (Ret 10). cbn [bind].
    unfold add_gap at 1. cbn [g_q g_k g_n g_min g_max g_left g_kurt].
    change (set_at [0; 0] 0 10) with (Some [10; 0]). cbn [of_option bind g_q g_k g_n g_min g_max g_left g_kurt].
    change (chk_int (30 - 10)) with (Ret 20). cbn [bind]. change (20 >? 0) with true. cbn match.
    unfold add_gap. cbn [g_q g_k g_n g_min g_max g_left g_kurt]. change (set_at [10; 0] (0 + 1) 20) with (Some [10; 20]).
    cbn [of_option bind g_q g_k g_n g_min g_max g_left g_kurt omap cso_value]. unfold g_quantile, quantile. cbn [g_n g_q].
    change (0 + 1 =? 0) with false. cbn match. change (isort (firstn (Z.to_nat (0 + 1)) [10; 20])) with [10].
    change (IZR (0 + 1 - 1)) with 0%R. rewrite Rmult_0_r. change 0%R with (IZR 0). rewrite Ztrunc_IZR.
    change (0 =? 0 + 1 - 1) with true. cbn match. change (get_at [10] 0) with (Some 10). cbn [of_option bind].
    unfold short_of_real. rewrite Ztrunc_IZR. change (in_shortb 10) with true. cbn match. cbn [bind].
    cbn [cso_windows bind fst snd]. reflexivity.
  - unfold cso_described. cbn [fst snd]. change (gaps 0 (clear_dates [10] [true] 0 30) 30) with [10; 20]. cbn [described].
    intros (q & (s & i & a & b & PE & SO & I & GA & GB & ->) & V). change (zlen [10; 20]) with 2 in *. change (2 - 1) with 1 in *.
    assert (i = 0) as ->.
    { destruct I as [I1 I2]. assert (IZR i < 1)%R as J1 by lra. assert (0 < IZR (i + 1))%R as J2 by lra.
      apply lt_IZR in J1, J2. lia. }
    assert (s = [10; 20]) as ->.
    { pose proof (Permutation_length PE) as LS. destruct s as [|x [|y [|]]]; cbn in LS; try lia.
      apply Permutation_length_2 in PE. destruct PE as [[<- <-]|[<- <-]]; auto.
      apply StronglySorted_inv in SO. destruct SO as [_ F]. apply Forall_inv in F. lia. }
    injection GA as <-. change (Z.min (0 + 1) 1) with 1 in GB. injection GB as <-.
    assert (10 + (50 / 100 * 1 - 0) * (20 - 10) = 15)%R as EQ by lra. rewrite EQ, Ztrunc_IZR in V. lia.
Qed.

(** Quantiles of a window without any clear observation (one gap of 30 days) are 0. *)
Theorem C37_empty_quantile_refuted : forall k, 1 <= k <= 99 ->
  gaps 0 (clear_dates [10] [false] 0 30) 30 = [30] /\
  (exists q', cso_pixel [Q k] false [10] [false] [0; 30] [0; 0] = Ret ([[0]], q')) /\
  ~ cso_described [10] [false] (0, 30) (Q k) 0.
Proof.
  intros k K. split; [reflexivity|]. split.
  - eexists. unfold cso_pixel. cbv zeta. change (ranges [10] 0 [0; 30]) with [(0, 0)]. cbn match. rewrite cso_windows_cons.
    cbn [existsb is_q orb]. unfold window_stats. cbn [fst snd]. change (0 >? -1) with true. cbn match.
    change (zrange 0 0) with [0]. cbn [ofold]. unfold one_obs.
    change (get_at [false] 0) with (Some false). cbn [of_option bind negb g_left].
    change (chk_int (30 - 0)) with (Ret 30). cbn [bind]. change (30 >? 0) with true. cbn match.
    unfold add_gap. cbn [g_q g_k g_n g_min g_max g_left g_kurt]. change (set_at [0; 0] 0 30) with (Some [30; 0]).
    cbn [of_option bind omap cso_value]. unfold g_quantile. cbn [g_n g_q]. change (0 =? 0) with true. cbn match. cbn [bind].
    unfold short_of_real. change 0%R with (IZR 0). rewrite Ztrunc_IZR. change (in_shortb 0) with true. cbn match. cbn [bind].
    cbn [cso_windows bind fst snd]. reflexivity.
  - unfold cso_described. cbn [fst snd]. change (gaps 0 (clear_dates [10] [false] 0 30) 30) with [30]. cbn [described].
    intros (q & (s & i & a & b & PE & SO & I & GA & GB & ->) & V). change (zlen [30]) with 1 in *. change (1 - 1) with 0 in *.
    apply Permutation_length_1_inv in PE. subst s. rewrite Rmult_0_r in *.
    pose proof (get_at_In _ _ _ GA) as A. pose proof (get_at_In _ _ _ GB) as B. destruct A as [<-|[]], B as [<-|[]].
    replace (30 + (0 - IZR i) * (30 - 30))%R with 30%R in V by ring. rewrite Ztrunc_IZR in V. lia.
Qed.

(** With more observations than gaps (here two on the first day) the quantiles read
    what an earlier window or pixel left in the array. *)
Theorem C37_stale_refuted :
  gaps 0 (clear_dates [0; 0] [true; true] 0 30) 30 = [30] /\
  (exists q', cso_pixel [Q 50] false [0; 0] [true; true] [0; 30] [0; 0; 0] = Ret ([[15]], q')) /\
  (exists q', cso_pixel [Q 50] false [0; 0] [true; true] [0; 30] [0; 90; 0] = Ret ([[60]], q')).
Proof.
  assert (forall x, x = 0 \/ x = 90 -> exists q', cso_pixel [Q 50] false [0; 0] [true; true] [0; 30] [0; x; 0] = Ret ([[(30 + x) / 2]], q')) as H.
  { intros x X. eexists. unfold cso_pixel. cbv zeta. change (ranges [0; 0] 0 [0; 30]) with [(0, 1)]. cbn match. rewrite cso_windows_cons.
    cbn [existsb is_q orb]. unfold window_stats. cbn [fst snd]. change (0 >? -1) with true. cbn match.
    change (zrange 0 1) with [0; 1]. cbn [ofold]. unfold one_obs.
    change (get_at [true; true] 0) with (Some true). change (get_at [true; true] 1) with (Some true).
    change (get_at [0; 0] 0) with (Some 0). change (get_at [0; 0] 1) with (Some 0). cbn [of_option bind negb g_left].
    change (0 >? 0) with false. cbn match. cbn [bind g_left g_n g_k g_q g_min g_max g_kurt].
    change (0 >? 0) with false. cbn match. cbn [bind g_left g_n g_k g_q g_min g_max g_kurt].
    change (chk_int (30 - 0)) with (Ret 30). cbn [bind]. change (30 >? 0) with true. cbn match.
    unfold add_gap. cbn [g_q g_k g_n g_min g_max g_left g_kurt]. change (set_at [0; x; 0] 0 30) with (Some [30; x; 0]).
    cbn [of_option bind omap cso_value]. unfold g_quantile, quantile. cbn [g_n g_q].
    change (0 + 1 + 1 =? 0) with false. cbn match.
    change (firstn (Z.to_nat (0 + 1 + 1)) [30; x; 0]) with [30; x]. change (0 + 1 + 1 - 1) with 1.
    assert (Ztrunc (percent 50 * 1) = 0) as TR.
    { unfold percent. rewrite Ztrunc_floor by lra. apply Zfloor_imp. split; cbn; lra. }
    rewrite TR. change (0 =? 1) with false. cbn match. change (0 + 1) with 1.
    assert (exists a b, isort [30; x] = [a; b] /\ a + b = 30 + x) as (a & b & -> & AB).
    { destruct X as [-> | ->]; [exists 0, 30|exists 30, 90]; split; auto. }
    change (get_at [a; b] 0) with (Some a). change (get_at [a; b] 1) with (Some b). cbn [of_option bind].
    assert ((1 - (percent 50 * 1 - 0)) * IZR a + (percent 50 * 1 - 0) * IZR b = IZR ((30 + x) / 2))%R as EV.
    { assert (IZR a + IZR b = IZR (30 + x))%R as EA by (rewrite <- plus_IZR; f_equal; auto).
      assert (IZR (30 + x) = 2 * IZR ((30 + x) / 2))%R as EB by (rewrite <- mult_IZR; f_equal; destruct X as [-> | ->]; reflexivity).
      unfold percent. lra. }
    rewrite EV. unfold short_of_real. rewrite Ztrunc_IZR.
    replace (in_shortb ((30 + x) / 2)) with true by (destruct X as [-> | ->]; reflexivity). cbn match. cbn [bind].
    cbn [cso_windows bind fst snd]. reflexivity. }
  split; [reflexivity|]. split; [apply (H 0)|apply (H 90)]; auto.
Qed.

(** Examples: 2018 in monthly windows: December is lost. *)
Example C37_ex_windows :
  let d1 := set_date init_date 2018 1 1 in let d2 := set_date init_date 2018 12 31 in
  number_windows d1 d2 1 = Ret 11 /\ number_windows d1 d2 3 = Ret 4 /\
  map ce (window_dates d1 4 3) = [736571; 736661; 736752; 736844; 736936] /\
  valid_md (month d2) (day d2) /\ ce d2 = date2ce 2018 12 31 /\ (1 | 12 * (year d2 - year d1) + (month d2 - month d1)).
Proof.
  cbv zeta. split; [vm_compute; reflexivity|]. split; [vm_compute; reflexivity|]. split; [vm_compute; reflexivity|].
  split; [|split; [reflexivity|exists 11; reflexivity]]. unfold valid_md. vm_compute. intuition discriminate.
Qed.
Example C37_ex_series :
  let ces := [3; 10; 10; 31; 45] in let msk := [true; false; true; true; true] in let bs := [0; 31; 59; 90] in
  StronglySorted Z.le ces /\ StronglySorted Z.lt bs /\ windows bs = [(0, 31); (31, 59); (59, 90)] /\
  ranges ces 0 bs = [(0, 2); (3, 4); (-1, -1)] /\
  map (fun w => gaps (fst w) (clear_dates ces msk (fst w) (snd w)) (snd w)) (windows bs) = [[3; 7; 21]; [14; 14]; [31]].
Proof.
  cbv zeta. split; [repeat constructor; lia|]. split; [repeat constructor; lia|]. repeat split.
Qed.
Example C37_ex_spread : let ces := [0; 10; 31; 45] in let msk := [true; true; true; true] in
  forall w, In w (windows [0; 31; 59]) -> let ds := clear_dates ces msk (fst w) (snd w) in
  hd_error ds = Some (fst w) /\ StronglySorted Z.lt ds /\ exists_for (gaps (fst w) ds (snd w)) STD.
Proof.
  cbv zeta. intros w [<-|[<-|[]]]; (split; [reflexivity|]; split; [repeat constructor; lia|]; cbn; lia).
Qed.
Example C37_ex_one : In (0, 30) (windows [0; 30]) /\ zlen (clear_dates [10] [true] 0 30) = 1.
Proof. split; [left; reflexivity|reflexivity]. Qed.

Print Assumptions C37_windows.
Print Assumptions C37_last_month_refuted.
Print Assumptions C37_acquisitions.
Print Assumptions C37_simple_partial.
Print Assumptions C37_gaps.
Print Assumptions C37_spread_partial.
Print Assumptions C37_one_observation_refuted.
Print Assumptions C37_std_refuted.
Print Assumptions C37_quantile_refuted.
Print Assumptions C37_empty_quantile_refuted.
Print Assumptions C37_stale_refuted.
