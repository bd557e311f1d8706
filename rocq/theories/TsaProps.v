(** C129, C130, C131, C133. *)
From Verif Require Import Base Loops CStr BaseFacts LoopsFacts CStrFacts ChunkProofs ParamProofs DateModel DateSpec DateProofs SeasonModel SeasonSpec SeasonProofs TsaModel TsaSpec TsaProofs TsaLabels.
From Coq Require Import Sorting.Sorted.

(** ** C129: the days of the interpolated series *)
Definition inter_products : list (list Z) := [` "TSI"; ` "PCX"; ` "PCY"].
Definition days (b : brick) : list Z := map (fun l => ce (l_date l)) (b_bands b).

Lemma inter_bands p imgs bs b : zlen (tp_use p) = POL_LENGTH -> tp_none p = false -> 1 <= tp_step p -> ce (tp_lo p) <= ce (tp_hi p) ->
  time_series p imgs = Ret (Some bs) -> In (Some b) bs -> In (b_product b) inter_products ->
  exists n, 1 <= n /\ n = Z.quot (ce (tp_hi p) - ce (tp_lo p) + 1) (tp_step p) /\
    b_bands b = map (fun d => mkLabel d BLEND (compact d)) (inter_days d2000 (ce (tp_lo p)) (tp_step p) (zupto n)).
Proof.
  intros U NN S L H I P.
  assert (exists j, In j (table p (zlen imgs) (n_nrt p imgs) (n_steps p (zlen imgs))) /\ b_product b = i_name j /\ i_kind j = Inter /\ i_len j = n_steps p (zlen imgs)) as (j & J & N & K & E).
  { unfold table, info_pol. destruct P as [<-|[<-|[<-|[]]]].
    - eexists. rewrite !in_app_iff. split; [left; cbn [info_series In]; do 3 right; left; reflexivity|]. auto.
    - eexists. rewrite !in_app_iff. split; [do 6 right; left; left; cbn [In]; left; reflexivity|]. auto.
    - eexists. rewrite !in_app_iff. split; [do 6 right; left; left; cbn [In]; right; left; reflexivity|]. auto. }
  destruct (brick_entry p imgs bs b j U H I J N) as (E1 & _ & E2). unfold labels in E2. rewrite K, NN, E in E2. rewrite named_all in E2. assert (forall (x y : list (option label)), Ret x = Ret y -> x = y) as RI by (intros; congruence). apply RI in E2. apply map_some_inj in E2.
  rewrite E in E1. unfold n_steps in *. rewrite NN in *. eexists. split; [exact E1|]. split; [reflexivity|]. auto.
Qed.

(** The days of the bands are the days in steps of INT_DAY from the start of the
    period for which the whole step lies in the period.  Missing: the last,
    shorter step. *)
Theorem C129_days_partial : forall p imgs bs b, zlen (tp_use p) = POL_LENGTH -> tp_none p = false -> 1 <= tp_step p -> ce (tp_lo p) <= ce (tp_hi p) ->
  time_series p imgs = Ret (Some bs) -> In (Some b) bs -> In (b_product b) inter_products ->
  StronglySorted Z.lt (days b) /\
  (forall d, In d (days b) <-> exists k, 0 <= k /\ d = ce (tp_lo p) + k * tp_step p /\ d + tp_step p - 1 <= ce (tp_hi p)) /\
  forall l, In l (b_bands b) -> consistent (l_date l) /\ l_name l = day_text (l_date l).
Proof.
  intros p imgs bs b U NN S L H I P. destruct (inter_bands p imgs bs b U NN S L H I P) as (n & N1 & N2 & E).
  unfold days. rewrite E, !map_map. cbn [l_date]. change (map (fun x => ce x)) with (map ce). rewrite inter_ce. split; [|split].
  - clear - S. unfold zupto. rewrite map_map. generalize 0%nat. induction (Z.to_nat n) as [|k IH]; intros s; cbn [seq map]; constructor; auto.
    apply Forall_forall. intros x I. apply in_map_iff in I. destruct I as (j & <- & I). apply in_seq in I. nia.
  - intros d. rewrite in_map_iff. assert (forall k, k < n <-> (k + 1) * tp_step p <= ce (tp_hi p) - ce (tp_lo p) + 1) as Q.
    { intros k. subst n. rewrite Z.quot_div_nonneg by lia. clear - S L. set (w := ce (tp_hi p) - ce (tp_lo p) + 1). clearbody w. clear L. set (s := tp_step p) in *. clearbody s. split; intros X.
      - assert (s * (w / s) <= w) by (apply Z.mul_div_le; lia). nia.
      - apply Z.lt_le_trans with (k + 1); [lia|]. apply Z.div_le_lower_bound; lia. }
    split.
    + intros (k & <- & K). apply zupto_In in K. exists k. split; [lia|]. split; [lia|]. assert (k < n) as X by lia. apply Q in X. lia.
    + intros (k & K & -> & X). exists k. split; [lia|]. apply zupto_In. split; auto. apply Q. lia.
  - intros l J. apply in_map_iff in J. destruct J as (d & <- & J). cbn [l_date l_name]. split; [eapply inter_consistent; eauto|reflexivity].
Qed.
Print Assumptions C129_days_partial.

(** If the steps fill the period, all its step days have their band. *)
Theorem C129_filled : forall p imgs bs b, zlen (tp_use p) = POL_LENGTH -> tp_none p = false -> 1 <= tp_step p -> ce (tp_lo p) <= ce (tp_hi p) ->
  (tp_step p | ce (tp_hi p) - ce (tp_lo p) + 1) ->
  time_series p imgs = Ret (Some bs) -> In (Some b) bs -> In (b_product b) inter_products ->
  forall d, In d (days b) <-> ce (tp_lo p) <= d <= ce (tp_hi p) /\ (tp_step p | d - ce (tp_lo p)).
Proof.
  intros p imgs bs b U NN S L (m & M) H I P d. destruct (C129_days_partial p imgs bs b U NN S L H I P) as (_ & D & _). rewrite D. split.
  - intros (k & K & -> & X). split; [nia|]. exists k. lia.
  - intros (R & k & K). exists k. assert (0 <= k) by nia. split; auto. split; [lia|].
    assert (k + 1 <= m) by nia. nia.
Qed.
Print Assumptions C129_filled.

(** Cases: NDVI of two Landsat images. *)
Definition day0 (y m d : Z) : date := set_date init_date y m d.
Definition no_fold : fold_out := mkOut false false false.
Definition one_season : season := match compile_season 1 365 with Ret s => s | _ => mkSeason [] [] [] [] 0 0 0 0 end.
Definition par0 (index : list (list Z)) (hi : date) (step : Z) (nrt : bool) (fit_end : Z) (y m : fold_out) : tpar :=
  mkTpar (day0 2015 1 1) hi 1 365 (` "LNDLG") index false step fit_end true true nrt false true [` "AVG"; ` "STD"]
    y no_fold m no_fold no_fold false false true false (true :: repeat false 38) (false, []) (false, []) 2 one_season.
Definition imgs0 : list image := [mkImage (day0 2015 1 2) (` "LND08"); mkImage (day0 2015 1 9) (` "LND07")].
Definition days_of (product : list Z) (r : outcome (option (list (option brick)))) : list (list Z) :=
  match r with Ret (Some bs) => map days (filter (fun b => eq_text (b_product b) product) (bricks bs)) | _ => [] end.

(** Ten days in steps of three: there is no band for the tenth day. *)
Theorem C129_last_step_refuted : exists p imgs bs b,
  zlen (tp_use p) = POL_LENGTH /\ tp_none p = false /\ tp_step p = 3 /\ ce (tp_hi p) = ce (tp_lo p) + 9 /\
  time_series p imgs = Ret (Some bs) /\ In (Some b) bs /\ b_product b = ` "TSI" /\ ~ In (ce (tp_lo p) + 9) (days b).
Proof.
  pose (p := par0 [` "NDVI"] (day0 2015 1 10) 3 false 0 no_fold no_fold).
  assert (days_of (` "TSI") (time_series p imgs0) = [[735476; 735479; 735482]]) as D by (vm_compute; reflexivity).
  destruct (time_series p imgs0) as [[bs|]| |] eqn:E; try discriminate. cbn [days_of] in D.
  destruct (filter (fun b => eq_text (b_product b) (` "TSI")) (bricks bs)) as [|b l] eqn:F; [discriminate|].
  assert (In b (filter (fun b => eq_text (b_product b) (` "TSI")) (bricks bs))) as I by (rewrite F; cbn; auto).
  apply filter_In in I. destruct I as (I & N). unfold bricks in I. apply in_flat_map in I. destruct I as ([b'|] & I & X); [|contradiction]. destruct X as [->|[]].
  exists p, imgs0, bs, b. split; [reflexivity|]. split; [reflexivity|]. split; [reflexivity|]. split; [reflexivity|]. split; auto. split; auto. split; [now apply eq_text_iff|].
  cbn [map] in D. assert (days b = [735476; 735479; 735482]) as -> by congruence. change (ce (tp_lo p) + 9) with 735485. cbn [In]. lia.
Qed.
Print Assumptions C129_last_step_refuted.

(** ** C131: files *)
(** Exactly the requested products are written, once for each index, under
    different names.  Missing: that an index is not given twice, see below. *)
Theorem C131_files_partial : forall p imgs bs, zlen (tp_use p) = POL_LENGTH -> time_series p imgs = Ret (Some bs) ->
  written_files bs = flat_map (fun ix => map (file_text p ix) (asked p)) (tp_index p) /\ NoDup (asked p) /\
  (NoDup (tp_index p) -> NoDup (written_files bs)).
Proof.
  intros p imgs bs U H. destruct (asked_nodup p U) as (N & C). rewrite (files_ok p imgs bs U H). split; auto. split; auto. intros D. now apply files_nodup.
Qed.
Print Assumptions C131_files_partial.

(** A product of the result belongs to one of the indices, has as many bands as were
    labelled, and what it is computed from is in memory. *)
Theorem C131_sources : forall p imgs bs b, zlen (tp_use p) = POL_LENGTH -> time_series p imgs = Ret (Some bs) -> In (Some b) bs ->
  exists ix, In ix (tp_index p) /\ is_product p bs ix (b_product b) b /\ b_bands b <> [] /\
    (exists b', is_product p bs ix (` "TSS") b') /\ (exists b', is_product p bs ix (` "TSI") b') /\
    forall s, In (b_product b, s) sources -> exists b', is_product p bs ix s b' /\ b_bands b' <> [].
Proof.
  intros p imgs bs b U H I. destruct (series_brick p imgs bs b U H I) as (ix & i & X & T & C & R). exists ix. split; auto.
  assert (NE : forall i b, In i (table p (zlen imgs) (n_nrt p imgs) (n_steps p (zlen imgs))) -> compile_product p imgs (zlen imgs) (n_nrt p imgs) ix i = Ret (Some (Some b)) -> b_bands b <> []).
  { clear. intros i b I C. apply product_brick in C. destruct C as (_ & C1 & _ & _ & _ & _ & C2). intros E. rewrite E in C2. cbn [map] in C2.
    assert (forall {A} (f : Z -> outcome A), omap f (zupto (i_len i)) <> Ret []) as O.
    { intros A f O. apply omap_length in O. rewrite zupto_length in O. cbn in O. lia. }
    assert (forall text l, Ret (named text l) = Ret [] -> l = []) as NM by (intros text [|x l] Q; [auto|discriminate]).
    assert (forall set limit flags d k, fold_dates set limit flags (Z.to_nat (i_len i)) d k <> Ret []) as FD.
    { intros. destruct (Z.to_nat (i_len i)) eqn:Z; [lia|]. cbn [fold_dates]. destruct (next_used _ _ _ _); cbn [bind]; try discriminate. destruct (fold_dates _ _ _ _ _ _); cbn [bind]; discriminate. }
    assert (forall {A B} (f : A -> B) (o : outcome (list A)), o <> Ret [] -> (ns <- o ;; Ret (map f ns)) <> Ret []) as MP by (intros A B f [[|x l]| |] Q W; cbn in W; congruence || discriminate).
    unfold labels in C2. destruct (i_kind i).
    - apply O in C2. auto.
    - eapply MP in C2; auto.
    - destruct (tp_none p); [apply O in C2; auto|]. apply NM in C2. apply (f_equal (map ce)) in C2. rewrite inter_ce in C2. apply (f_equal (@length Z)) in C2. rewrite map_length, zupto_length in C2. cbn in C2. lia.
    - apply O in C2. auto.
    - apply NM in C2. destruct (Z.to_nat (i_len i)) eqn:Z; [lia|]. cbn [fold_years] in C2. destruct (fold_years _ _ _ _). discriminate.
    - revert C2. apply MP. apply FD.
    - revert C2. apply MP. apply FD.
    - revert C2. apply MP. apply FD.
    - revert C2. apply MP. apply FD.
    - apply NM in C2. destruct (Z.to_nat (i_len i)) eqn:Z; [lia|]. cbn [fold_years] in C2. destruct (fold_years _ _ _ _). discriminate.
    - eapply MP in C2; auto.
    - eapply MP in C2; auto.
    - eapply MP in C2; auto. }
  assert (G : forall i', In i' (table p (zlen imgs) (n_nrt p imgs) (n_steps p (zlen imgs))) -> i_enable i' > 0 -> exists b', is_product p bs ix (i_name i') b' /\ b_bands b' <> []).
  { intros i' I' E'. destruct (R i' I' E') as (b' & B1 & B2). exists b'. split; [|eapply NE; eauto]. apply product_brick in B2. destruct B2 as (_ & _ & B3 & B4 & _). repeat (split; auto). }
  pose proof C as C'. apply product_brick in C'. destruct C' as (C1 & C2 & C3 & C4 & _).
  split; [repeat (split; auto); congruence|]. split; [eapply NE; eauto|].
  split; [|split].
  - destruct (G (mkInfo (` "TSS") (zlen imgs) Full 1 (b2z (tp_tss p)))) as (b' & B & _); [unfold table; rewrite in_app_iff; left; cbn; auto|cbn; lia|eauto].
  - destruct (G (mkInfo (` "TSI") (n_steps p (zlen imgs)) Inter 1 (b2z (tp_tsi p)))) as (b' & B & _); [unfold table; rewrite in_app_iff; left; cbn; auto 6|cbn; lia|eauto].
  - intros s S. rewrite C3 in S. destruct (sources_ok p _ _ _ i s U T C1 S) as (i' & I' & <- & E'). apply G; auto.
Qed.
Print Assumptions C131_sources.
