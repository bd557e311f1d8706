(** C130, C131 (continued), C133. *)
From Verif Require Import Base Loops CStr BaseFacts LoopsFacts CStrFacts ChunkProofs ParamProofs DateModel DateSpec DateProofs SeasonModel SeasonSpec SeasonProofs TsaModel TsaSpec TsaProofs TsaLabels TsaProps.
From Coq Require Import Sorting.Sorted.

(** ** C131: all or nothing *)
(** Something to put into every product that is computed. *)
Record nothing_empty (p : tpar) (imgs : list image) : Prop := {
  ne_images : imgs <> [];
  ne_steps : tp_none p = false -> 1 <= tp_step p <= ce (tp_hi p) - ce (tp_lo p) + 1;
  ne_nrt : tp_nrt p = true -> recent p imgs <> [];
  ne_stm : tp_stm p = true -> tp_metrics p <> [];
  ne_pyp : fst (tp_pyp p) = true -> snd (tp_pyp p) <> [];
  ne_rsp : fst (tp_rsp p) = true -> snd (tp_rsp p) <> [];
  ne_years : 1 <= tp_ny p }.
(** All texts fit into their buffers. *)
Definition texts_fit (p : tpar) (imgs : list image) : Prop :=
  (forall im, In im imgs -> zlen (day_text (im_date im) ++ ` "_" ++ im_sensor im) < 1024) /\
  (forall ix product, In ix (tp_index p) -> zlen product <= 7 -> zlen (file_text p ix product) < 1024).

Lemma name_short p nt nr ni i : zlen (tp_use p) = POL_LENGTH -> In i (table p nt nr ni) -> zlen (i_name i) <= 7.
Proof.
  intros U I. apply (in_map i_name) in I. rewrite table_names in I by auto.
  assert (forallb (fun l => zlen l <=? 7) ([` "TSS"; ` "NRT"; ` "RMS"; ` "TSI"; ` "STM"] ++ flat_map (fun x => [` "FB" ++ x; ` "TR" ++ x; ` "CA" ++ x]) [` "Y"; ` "Q"; ` "M"; ` "W"; ` "D"] ++
  [` "PCX"; ` "PCY"] ++ map (fun t => t ++ ` "-POL") pol_tags ++ map (fun t => t ++ ` "-TRO") pol_tags ++ map (fun t => t ++ ` "-CAO") pol_tags ++ [` "PYP"; ` "RSP"]) = true) as E by (vm_compute; reflexivity).
  rewrite forallb_forall in E. specialize (E _ I). lia.
Qed.

Lemma zlen_pos {A} (l : list A) : l <> [] -> 1 <= zlen l.
Proof. destruct l; [congruence|]. unfold zlen. cbn [length]. lia. Qed.

Lemma season_counts lo hi s : 1 <= lo <= 365 -> 1 <= hi <= 365 -> compile_season lo hi = Ret s -> 1 <= s_nq s /\ 1 <= s_nm s /\ 1 <= s_nw s /\ 1 <= s_nd s.
Proof.
  intros L H E. destruct (season_ok lo hi L H) as (s' & E' & (D1 & D2 & D3) & (W1 & W2 & W3) & (M1 & M2 & M3) & (Q1 & Q2 & Q3) & Nd & Nw & Nm & Nq).
  assert (s' = s) as -> by congruence. clear E E'.
  assert (used (s_days s) hi) as UD by (apply D3; unfold flagged; destruct (Z.ltb_spec lo hi); lia).
  assert (PR : 1 <= doy2week hi <= 52 /\ 1 <= doy2m hi <= 12 /\ 1 <= doy2quarter hi <= 4).
  { pose proof (week_spec hi H) as Wk. pose proof (proj2 (month_unique hi _ H) eq_refl) as (dd & (V & _) & _).
    pose proof (proj2 (quarter_unique hi _ H) eq_refl) as (mm & _ & V2 & _). unfold in_week in Wk. lia. }
  assert (forall flags n k, 1 <= k <= n -> used flags k -> 1 <= zlen (chosen flags 1 n)) as C.
  { intros flags n k R K. apply zlen_pos. intros Z. assert (In k (chosen flags 1 n)) as I by (apply chosen_lists; auto). rewrite Z in I. contradiction. }
  rewrite Nd, Nw, Nm, Nq. destruct PR as (P1 & P2 & P3).
  split; [|split; [|split]].
  - eapply C; [exact P3|]. apply Q3. exists hi. auto.
  - eapply C; [exact P2|]. apply M3. exists hi. auto.
  - eapply C; [exact P1|]. apply W3. exists hi. auto.
  - eapply C; [exact H|]. auto.
Qed.

(** If nothing is empty, all products are compiled. *)
Theorem C131_complete_partial : forall p imgs lo hi, zlen (tp_use p) = POL_LENGTH -> 1 <= lo <= 365 -> 1 <= hi <= 365 -> compile_season lo hi = Ret (tp_season p) ->
  texts_fit p imgs -> nothing_empty p imgs -> exists bs, time_series p imgs = Ret (Some bs).
Proof.
  intros p imgs lo hi U L H E (T1 & T2) NE. destruct NE as [NI NS NN NM NP NR NY]. destruct (season_counts lo hi _ L H E) as (C1 & C2 & C3 & C4).
  assert (LEN : forall i, In i (table p (zlen imgs) (n_nrt p imgs) (n_steps p (zlen imgs))) -> i_enable i > 0 -> 1 <= i_len i).
  { apply zlen_pos in NI. assert (1 <= n_steps p (zlen imgs)) as ST.
    { unfold n_steps. destruct (tp_none p); auto. specialize (NS eq_refl). apply Z.quot_le_lower_bound; lia. }
    assert (1 <= zlen trd_tags /\ 1 <= zlen cat_tags) as (TT & CT) by (split; vm_compute; discriminate).
    assert (forall b, b2z b > 0 -> b = true) as B by (intros []; cbn; [auto|lia]).
    intros i I P. unfold table, info_pol in I. rewrite !in_app_iff in I.
    destruct I as [I|[I|[I|[I|[I|[I|[[I|[I|[I|I]]]|[I|I]]]]]]]].
    - cbn [info_series In] in I. destruct I as [<-|[<-|[<-|[<-|[<-|[]]]]]]; cbn [i_len i_enable] in *; auto.
      + apply B in P. rewrite n_nrt_len by auto. apply zlen_pos. auto.
      + apply B in P. apply zlen_pos. auto.
    - cbn [info_fold In] in I. destruct I as [<-|[<-|[<-|[]]]]; cbn [i_len]; auto.
    - cbn [info_fold In] in I. destruct I as [<-|[<-|[<-|[]]]]; cbn [i_len]; auto.
    - cbn [info_fold In] in I. destruct I as [<-|[<-|[<-|[]]]]; cbn [i_len]; auto.
    - cbn [info_fold In] in I. destruct I as [<-|[<-|[<-|[]]]]; cbn [i_len]; auto.
    - cbn [info_fold In] in I. destruct I as [<-|[<-|[<-|[]]]]; cbn [i_len]; auto.
    - cbn [In] in I. destruct I as [<-|[<-|[]]]; cbn [i_len]; auto.
    - apply in_map_iff in I. destruct I as (tu & <- & _). cbn [i_len]. auto.
    - apply in_map_iff in I. destruct I as (tu & <- & _). cbn [i_len]. auto.
    - apply in_map_iff in I. destruct I as (tu & <- & _). cbn [i_len]. auto.
    - destruct I as [<-|[]]. cbn [i_len i_enable] in *. apply B in P. apply zlen_pos. auto.
    - destruct I as [<-|[]]. cbn [i_len i_enable] in *. apply B in P. apply zlen_pos. auto. }
  assert (ONE : forall ix, In ix (tp_index p) -> exists l, compile_tsa p imgs (zlen imgs) (n_nrt p imgs) (n_steps p (zlen imgs)) ix = Ret (Some l)).
  { intros ix X. unfold compile_tsa. rewrite infos_table by auto. cbn [bind].
    assert (forall i, In i (table p (zlen imgs) (n_nrt p imgs) (n_steps p (zlen imgs))) -> exists o, compile_product p imgs (zlen imgs) (n_nrt p imgs) ix i = Ret (Some o)) as PO.
    { intros i I. destruct (Z_gt_le_dec (i_enable i) 0) as [P|P]; [|exists None; now apply product_none].
      destruct (labels_total p imgs lo hi i L H E T1 U I) as (ls & LS). exists (Some (mkBrick (i_name i) (file_text p ix (i_name i)) (writes i) ls)). apply product_brick. cbn.
      pose proof (name_short p _ _ _ i U I). repeat (split; auto). }
    clear - PO. induction (table p (zlen imgs) (n_nrt p imgs) (n_steps p (zlen imgs))) as [|i t IH]; cbn [omap]; [eexists; reflexivity|].
    destruct (PO i ltac:(cbn; auto)) as (o & ->). cbn [bind]. destruct IH as (l & IH); [intros; apply PO; cbn; auto|].
    destruct (omap (compile_product p imgs (zlen imgs) (n_nrt p imgs) ix) t) as [r| |]; cbn [bind] in *; try discriminate. exists (o :: l). cbn [all_some]. assert (all_some r = Some l) as -> by congruence. reflexivity. }
  unfold time_series. cbv zeta. induction (tp_index p) as [|ix ixs IH]; cbn [omap]; [eexists; reflexivity|].
  destruct (ONE ix ltac:(cbn; auto)) as (l & ->). cbn [bind]. destruct IH as (bs & IH); [intros; apply T2; cbn; auto|intros; apply ONE; cbn; auto|].
  destruct (omap _ ixs) as [r| |]; cbn [bind] in *; try discriminate. cbn [all_some]. destruct (all_some r) as [s|]; [|discriminate]. eexists. reflexivity.
Qed.
Print Assumptions C131_complete_partial.

(** Two images, folds and a trend: everything is there. *)
Definition y_fold : fold_out := mkOut false true false.
Example C131_example :
  let p := par0 [` "NDVI"; ` "EVI"] (day0 2016 12 31) 16 true (ce (day0 2015 1 5)) y_fold (mkOut true false false) in
  zlen (tp_use p) = POL_LENGTH /\ compile_season 1 365 = Ret (tp_season p) /\ nothing_empty p imgs0 /\
  exists bs, time_series p imgs0 = Ret (Some bs) /\ zlen (written_files bs) = 14 /\
    nth_error (written_files bs) 4 = Some (` "20150101-20161231_001-365_HL_TSA_LNDLG_NDVI_TRY").
Proof.
  cbv zeta. split; [reflexivity|]. split; [vm_compute; reflexivity|]. split.
  - constructor; try (intros _; discriminate); try discriminate. intros _. split; vm_compute; discriminate.
  - destruct (time_series _ imgs0) as [[bs|]| |] eqn:E; try (vm_compute in E; discriminate). exists bs. split; auto.
    apply files_ok in E; [|reflexivity]. rewrite E. split; vm_compute; reflexivity.
Qed.

(** Whatever is computed must have a band, otherwise there is nothing at all. *)
Lemma empty_fails p imgs i ix : zlen (tp_use p) = POL_LENGTH -> In ix (tp_index p) -> In i (table p (zlen imgs) (n_nrt p imgs) (n_steps p (zlen imgs))) ->
  i_enable i > 0 -> i_len i < 1 -> forall bs, time_series p imgs <> Ret (Some bs).
Proof.
  intros U X I E L bs H. apply series_concat in H. destruct H as (ls & _ & F).
  assert (exists l, compile_tsa p imgs (zlen imgs) (n_nrt p imgs) (n_steps p (zlen imgs)) ix = Ret (Some l)) as (l & H).
  { clear - F X. induction F as [|a l' ixs ls' E F IH]; [contradiction|]. destruct X as [->|X]; eauto. }
  apply tsa_F2 in H; auto.
  assert (exists o, compile_product p imgs (zlen imgs) (n_nrt p imgs) ix i = Ret (Some o)) as (o & O).
  { clear - H I. induction H as [|a l' ixs ls' E F IH]; [contradiction|]. destruct I as [->|I]; eauto. }
  unfold compile_product in O. destruct (Z.gtb_spec (i_enable i) 0); [|lia]. destruct (Z.ltb_spec (i_len i) 1); [discriminate|lia].
Qed.

(** No image after the period of the fit, or a period shorter than one step: no
    product at all, whatever else was requested. *)
Theorem C131_nothing : forall p imgs, zlen (tp_use p) = POL_LENGTH -> tp_index p <> [] ->
  (tp_nrt p = true /\ recent p imgs = []) \/ (tp_none p = false /\ 0 <= ce (tp_hi p) - ce (tp_lo p) + 1 < tp_step p) ->
  forall bs, time_series p imgs <> Ret (Some bs).
Proof.
  intros p imgs U X C. destruct (tp_index p) as [|ix ixs] eqn:IX; [congruence|]. assert (In ix (tp_index p)) as J by (rewrite IX; cbn; auto). destruct C as [(N & R)|(N & R)].
  - apply (empty_fails p imgs (mkInfo (` "NRT") (n_nrt p imgs) Nrt (b2z (tp_nrt p)) (b2z (tp_nrt p))) ix U J).
    + unfold table. rewrite in_app_iff. left. cbn; auto.
    + cbn [i_enable]. rewrite N. cbn. lia.
    + cbn [i_len]. rewrite n_nrt_len, R by auto. reflexivity.
  - apply (empty_fails p imgs (mkInfo (` "TSI") (n_steps p (zlen imgs)) Inter 1 (b2z (tp_tsi p))) ix U J).
    + unfold table. rewrite in_app_iff. left. cbn; auto 6.
    + cbn [i_enable]. lia.
    + cbn [i_len]. unfold n_steps. rewrite N. rewrite Z.quot_small by lia. lia.
Qed.
Print Assumptions C131_nothing.
Theorem C131_nothing_refuted : exists p imgs lo hi, zlen (tp_use p) = POL_LENGTH /\ compile_season lo hi = Ret (tp_season p) /\ zlen imgs = 2 /\ tp_tss p = true /\ tp_stm p = true /\ 1 <= tp_step p <= ce (tp_hi p) - ce (tp_lo p) + 1 /\
  time_series p imgs = Ret None.
Proof.
  exists (par0 [` "NDVI"] (day0 2016 12 31) 16 true (ce (day0 2015 1 31)) y_fold no_fold), imgs0, 1, 365.
  split; [reflexivity|]. split; [vm_compute; reflexivity|]. split; [reflexivity|]. split; [reflexivity|]. split; [reflexivity|]. split; [split; vm_compute; discriminate|]. vm_compute. reflexivity.
Qed.
Print Assumptions C131_nothing_refuted.

(** An index given twice: two products with the same file name. *)
Theorem C131_same_index_refuted : exists p imgs bs, zlen (tp_use p) = POL_LENGTH /\ time_series p imgs = Ret (Some bs) /\ ~ NoDup (written_files bs).
Proof.
  pose (p := par0 [` "NDVI"; ` "NDVI"] (day0 2016 12 31) 16 false 0 y_fold no_fold). destruct (time_series p imgs0) as [[bs|]| |] eqn:E; try (vm_compute in E; discriminate).
  exists p, imgs0, bs. split; [reflexivity|]. split; auto. apply files_ok in E; [|reflexivity]. rewrite E. intros N.
  set (a := map (file_text p (` "NDVI")) (asked p)) in *. change (tp_index p) with [` "NDVI"; ` "NDVI"] in N. cbn [flat_map] in N. fold a in N. rewrite app_nil_r in N.
  destruct a as [|f l] eqn:A; [vm_compute in A; discriminate|]. inversion N as [|x y N1 N2]. apply N1. apply in_app_iff. cbn; auto.
Qed.
Print Assumptions C131_same_index_refuted.

(** ** C130: the bands of the near real time product *)
Theorem C130_labels_partial : forall p imgs bs b, zlen (tp_use p) = POL_LENGTH -> chronological imgs ->
  time_series p imgs = Ret (Some bs) -> In (Some b) bs -> b_product b = ` "NRT" ->
  map l_date (b_bands b) = map im_date (recent p imgs) /\ map l_sensor (b_bands b) = map im_sensor (recent p imgs) /\
  map l_name (b_bands b) = map (fun im => day_text (im_date im) ++ ` "_" ++ im_sensor im) (recent p imgs).
Proof.
  intros p imgs bs b U S H I N.
  destruct (brick_entry p imgs bs b (mkInfo (` "NRT") (n_nrt p imgs) Nrt (b2z (tp_nrt p)) (b2z (tp_nrt p))) U H I) as (_ & E & L); [unfold table; rewrite in_app_iff; left; cbn; auto|exact N|].
  assert (tp_nrt p = true) as T by (cbn [i_enable] in E; destruct (tp_nrt p); [auto|cbn in E; lia]).
  unfold labels in L. cbn [i_kind i_len] in L. pose proof (nrt_bounds p imgs) as B. apply label_images_ok in L; [|lia|lia].
  replace (Z.to_nat (zlen imgs - n_nrt p imgs)) with (length imgs - length (recent p imgs))%nat in L by (rewrite n_nrt_len by auto; unfold zlen; lia).
  rewrite recent_skip in L by auto. clear - L. revert L. generalize (b_bands b). induction (recent p imgs) as [|im r IH]; intros [|l ls] L; cbn [map] in L; try discriminate; auto.
  injection L as L1 L2. symmetry in L1. apply label_image_ok in L1. destruct L1 as (L1 & L3 & L4). destruct (IH ls L2) as (I1 & I2 & I3). cbn [map]. rewrite L1, L3, L4, I1, I2, I3. auto.
Qed.
Print Assumptions C130_labels_partial.
Example C130_example :
  let p := par0 [` "NDVI"] (day0 2016 12 31) 16 true (ce (day0 2015 1 5)) y_fold no_fold in
  zlen (tp_use p) = POL_LENGTH /\ chronological imgs0 /\ days_of (` "NRT") (time_series p imgs0) = [[ce (day0 2015 1 9)]].
Proof.
  cbv zeta. split; [reflexivity|]. split; [|vm_compute; reflexivity]. repeat constructor; vm_compute; discriminate.
Qed.

(** Images in another order: the band of the recent image carries the other date. *)
Theorem C130_order_refuted : exists p imgs bs b, zlen (tp_use p) = POL_LENGTH /\ time_series p imgs = Ret (Some bs) /\ In (Some b) bs /\ b_product b = ` "NRT" /\
  map (fun im => ce (im_date im)) (recent p imgs) = [ce (day0 2015 1 9)] /\ days b = [ce (day0 2015 1 2)].
Proof.
  pose (p := par0 [` "NDVI"] (day0 2016 12 31) 16 true (ce (day0 2015 1 5)) y_fold no_fold). pose (imgs := rev imgs0).
  assert (days_of (` "NRT") (time_series p imgs) = [[ce (day0 2015 1 2)]]) as D by (vm_compute; reflexivity).
  destruct (time_series p imgs) as [[bs|]| |] eqn:E; try discriminate. cbn [days_of] in D.
  destruct (filter (fun b => eq_text (b_product b) (` "NRT")) (bricks bs)) as [|b l] eqn:F; [discriminate|].
  assert (In b (filter (fun b => eq_text (b_product b) (` "NRT")) (bricks bs))) as I by (rewrite F; cbn; auto).
  apply filter_In in I. destruct I as (I & N). unfold bricks in I. apply in_flat_map in I. destruct I as ([b'|] & I & X); [|contradiction]. destruct X as [->|[]].
  exists p, imgs, bs, b. split; [reflexivity|]. split; auto. split; auto. split; [now apply eq_text_iff|]. split; [vm_compute; reflexivity|]. cbn [map] in D. congruence.
Qed.
Print Assumptions C130_order_refuted.

(** ** C133: the bands of folded series *)
Lemma named_names text ds (b : brick) : Ret (named text ds) = Ret (map Some (b_bands b)) -> map l_date (b_bands b) = ds /\ map l_name (b_bands b) = map text ds.
Proof.
  rewrite named_all. intros H. assert (forall (x y : list (option label)), Ret x = Ret y -> x = y) as RI by (intros; congruence). apply RI in H. apply map_some_inj in H. rewrite <- H, !map_map. cbn [l_date l_name]. rewrite map_id. auto.
Qed.

Theorem C133_seasonal : forall p imgs lo hi bs b, zlen (tp_use p) = POL_LENGTH -> 1 <= lo <= 365 -> 1 <= hi <= 365 -> compile_season lo hi = Ret (tp_season p) ->
  time_series p imgs = Ret (Some bs) -> In (Some b) bs ->
  forall product flags prefix width field,
    In (product, flags, prefix, width, field)
      [(` "FBQ", s_quarters (tp_season p), ` "QUARTER-", 1%nat, quarter); (` "FBM", s_months (tp_season p), ` "MONTH-", 2%nat, month);
       (` "FBW", s_weeks (tp_season p), ` "WEEK-", 2%nat, week); (` "FBD", s_days (tp_season p), ` "DOY-", 3%nat, doy)] ->
    b_product b = product ->
    exists ks, lists (used flags) ks /\ map l_name (b_bands b) = map (fun k => prefix ++ print_0d width k) ks /\
      map field (map l_date (b_bands b)) = ks /\ forall l, In l (b_bands b) -> year (l_date l) = 2000 /\ consistent (l_date l).
Proof.
  intros p imgs lo hi bs b U L H E TS I. destruct (season_labels lo hi _ L H E) as ((qs & Q1 & Q2 & Q3) & (ms & M1 & M2 & M3) & (ws & W1 & W2 & W3) & (ds & D1 & D2 & D3)).
  pose proof (fun j => brick_entry p imgs bs b j U TS I) as BE.
  assert (forall text field prefix width flags ds, (forall d, text d = prefix ++ print_0d width (field d)) -> Ret (named text ds) = Ret (map Some (b_bands b)) ->
    lists (used flags) (map field ds) -> (forall x, In x ds -> year x = 2000 /\ consistent x) ->
    exists ks, lists (used flags) ks /\ map l_name (b_bands b) = map (fun k => prefix ++ print_0d width k) ks /\
      map field (map l_date (b_bands b)) = ks /\ forall l, In l (b_bands b) -> year (l_date l) = 2000 /\ consistent (l_date l)) as G.
  { clear. intros text field prefix width flags ds T N S C. apply named_names in N. destruct N as (N1 & N2). exists (map field ds). split; auto. split; [rewrite N2, map_map; apply map_ext; auto|].
    split; [now rewrite N1|]. intros l Il. apply C. rewrite <- N1. now apply in_map. }
  intros product flags prefix width field J. destruct J as [J|[J|[J|[J|[]]]]]; inversion J; subst product flags prefix width field; clear J; intros P.
  - destruct (BE (mkInfo (` "FB" ++ ` "Q") (s_nq (tp_season p)) Quarter (b2z (o_fb (tp_q p)) + b2z (o_tr (tp_q p)) + b2z (o_ca (tp_q p))) (b2z (o_fb (tp_q p))))) as (_ & _ & LB); [unfold table; rewrite !in_app_iff; do 2 right; left; left; reflexivity|exact P|].
    unfold labels in LB. cbn [i_kind i_len] in LB. rewrite Q1 in LB. cbn [bind] in LB. eapply G; eauto. intros; reflexivity.
  - destruct (BE (mkInfo (` "FB" ++ ` "M") (s_nm (tp_season p)) Month (b2z (o_fb (tp_m p)) + b2z (o_tr (tp_m p)) + b2z (o_ca (tp_m p))) (b2z (o_fb (tp_m p))))) as (_ & _ & LB); [unfold table; rewrite !in_app_iff; do 3 right; left; left; reflexivity|exact P|].
    unfold labels in LB. cbn [i_kind i_len] in LB. rewrite M1 in LB. cbn [bind] in LB. eapply G; eauto. intros; reflexivity.
  - destruct (BE (mkInfo (` "FB" ++ ` "W") (s_nw (tp_season p)) Week (b2z (o_fb (tp_w p)) + b2z (o_tr (tp_w p)) + b2z (o_ca (tp_w p))) (b2z (o_fb (tp_w p))))) as (_ & _ & LB); [unfold table; rewrite !in_app_iff; do 4 right; left; left; reflexivity|exact P|].
    unfold labels in LB. cbn [i_kind i_len] in LB. rewrite W1 in LB. cbn [bind] in LB. eapply G; eauto. intros; reflexivity.
  - destruct (BE (mkInfo (` "FB" ++ ` "D") (s_nd (tp_season p)) Day (b2z (o_fb (tp_d p)) + b2z (o_tr (tp_d p)) + b2z (o_ca (tp_d p))) (b2z (o_fb (tp_d p))))) as (_ & _ & LB); [unfold table; rewrite !in_app_iff; do 5 right; left; left; reflexivity|exact P|].
    unfold labels in LB. cbn [i_kind i_len] in LB. rewrite D1 in LB. cbn [bind] in LB. eapply G; eauto. intros; reflexivity.
Qed.
Print Assumptions C133_seasonal.

(** Years, of the folded series and of the polarmetrics. *)
Theorem C133_years : forall p imgs bs b, zlen (tp_use p) = POL_LENGTH -> time_series p imgs = Ret (Some bs) -> In (Some b) bs ->
  b_product b = ` "FBY" \/ (exists t, In t pol_tags /\ b_product b = t ++ ` "-POL") ->
  map l_name (b_bands b) = map (fun k => ` "YEAR-" ++ print_0d 4 (year (tp_lo p) + Z.of_nat k)) (seq 0 (Z.to_nat (tp_ny p))) /\
  map (fun l => year (l_date l)) (b_bands b) = map (fun k => year (tp_lo p) + Z.of_nat k) (seq 0 (Z.to_nat (tp_ny p))).
Proof.
  intros p imgs bs b U TS I P.
  assert (exists j, In j (table p (zlen imgs) (n_nrt p imgs) (n_steps p (zlen imgs))) /\ b_product b = i_name j /\ (i_kind j = Year \/ i_kind j = Pol) /\ i_len j = tp_ny p) as (j & J & N & K & E).
  { destruct P as [P|(t & T & P)].
    - exists (mkInfo (` "FB" ++ ` "Y") (tp_ny p) Year (b2z (o_fb (tp_y p)) + b2z (o_tr (tp_y p)) + b2z (o_ca (tp_y p))) (b2z (o_fb (tp_y p)))). split; [unfold table; rewrite !in_app_iff; right; left; left; reflexivity|]. auto.
    - destruct (combine_exists (tp_use p) U t T) as (u & C). exists (mkInfo (t ++ ` "-POL") (tp_ny p) Pol (b2z u * (b2z (tp_pol p) + b2z (tp_tro p) + b2z (tp_cao p))) (b2z u * b2z (tp_pol p))). split; [|auto].
      unfold table, info_pol. rewrite !in_app_iff. do 6 right. left. right. left. apply in_map_iff. exists (t, u). split; [reflexivity|exact C]. }
  destruct (brick_entry p imgs bs b j U TS I J N) as (_ & _ & L). unfold labels in L. rewrite E in L.
  assert (Ret (named (fun d => ` "YEAR-" ++ print_0d 4 (year d)) (fst (fold_years (year (tp_lo p)) (Z.to_nat (tp_ny p)) 0 d2000))) = Ret (map Some (b_bands b))) as L' by (destruct K as [K|K]; rewrite K in L; exact L).
  apply named_names in L'. destruct L' as (L1 & L2). pose proof (years_ok (year (tp_lo p)) (Z.to_nat (tp_ny p)) 0 d2000) as Y. destruct (fold_years (year (tp_lo p)) (Z.to_nat (tp_ny p)) 0 d2000) as [ys d']. destruct Y as (Y & _). cbn [fst] in *.
  assert (map year ys = map (fun k => year (tp_lo p) + Z.of_nat k) (seq 0 (Z.to_nat (tp_ny p)))) as MY.
  { clear - Y. revert Y. generalize (seq 0 (Z.to_nat (tp_ny p))). intros l F. remember (map (fun i => 0 + Z.of_nat i) l) as ks eqn:K. revert l K.
    induction F as [|k x ks xs (F1 & _) F IH]; intros [|i l] K; cbn [map] in *; try discriminate; auto. inversion K; subst. f_equal; auto. }
  split; [|rewrite <- (map_map l_date year), L1; exact MY]. rewrite L2, <- (map_map year (fun y => ` "YEAR-" ++ print_0d 4 y)), MY, map_map. reflexivity.
Qed.
Print Assumptions C133_years.
Example C133_example :
  let p := par0 [` "NDVI"] (day0 2016 12 31) 16 false 0 (mkOut true false false) (mkOut true false false) in
  exists bs b b', time_series p imgs0 = Ret (Some bs) /\ In (Some b) bs /\ In (Some b') bs /\ b_product b = ` "FBY" /\ b_product b' = ` "FBM" /\
    map l_name (b_bands b) = [` "YEAR-2015"; ` "YEAR-2016"] /\ nth_error (map l_name (b_bands b')) 3 = Some (` "MONTH-04").
Proof.
  cbv zeta. eexists. eexists. eexists. split; [vm_compute; reflexivity|]. split; [do 5 right; left; reflexivity|]. split; [do 11 right; left; reflexivity|]. split; [reflexivity|]. split; [reflexivity|]. split; vm_compute; reflexivity.
Qed.
