(** The labels of the bands, and when everything can be compiled. *)
From Verif Require Import Base Loops CStr BaseFacts LoopsFacts CStrFacts ChunkProofs ParamProofs DateModel DateSpec DateProofs SeasonModel SeasonSpec SeasonProofs TsaModel TsaSpec TsaProofs.
From Coq Require Import Sorting.Sorted.

Lemma nodup_inj {A B} (f : A -> B) l : NoDup (map f l) -> forall a b, In a l -> In b l -> f a = f b -> a = b.
Proof.
  induction l as [|x l IH]; intros N a b Ia Ib E; [contradiction|]. cbn [map] in N. inversion N as [|? ? N1 N2]; subst.
  destruct Ia as [->|Ia], Ib as [->|Ib]; auto; exfalso; apply N1; [rewrite E|rewrite <- E]; now apply in_map.
Qed.

(** ** sources *)
Lemma combine_exists {B} (u : list B) : zlen u = POL_LENGTH -> forall t, In t pol_tags -> exists b, In (t, b) (combine pol_tags u).
Proof.
  unfold zlen, POL_LENGTH. intros L. assert (length u = length pol_tags) as E by (change (length pol_tags) with 39%nat; lia). clear L. revert u E. generalize pol_tags.
  induction l as [|x l IH]; intros [|b u] E t I; cbn [length] in E; try discriminate; [contradiction|]. cbn [combine In]. destruct I as [->|I]; [eauto|].
  destruct (IH u ltac:(lia) t I) as (c & C). eauto.
Qed.

Lemma sources_ok p nt nr ni i s : zlen (tp_use p) = POL_LENGTH -> In i (table p nt nr ni) -> i_enable i > 0 -> In (i_name i, s) sources ->
  exists i', In i' (table p nt nr ni) /\ i_name i' = s /\ i_enable i' > 0.
Proof.
  intros U I E S. pose proof (nodup_inj i_name _ (table_nodup p nt nr ni U)) as INJ.
  assert (forall b, 0 <= b2z b) as P by (intros []; cbn; lia).
  assert (forall x n k o, incl (info_fold x n k o) (table p nt nr ni) -> i_name i = ` "TR" ++ x \/ i_name i = ` "CA" ++ x -> s = ` "FB" ++ x ->
    exists i', In i' (table p nt nr ni) /\ i_name i' = s /\ i_enable i' > 0) as FOLD.
  { intros x n k o IN N ->. eexists. split; [apply IN; left; reflexivity|]. split; [reflexivity|]. cbn [i_enable]. pose proof (P (o_fb o)). pose proof (P (o_tr o)). pose proof (P (o_ca o)).
    destruct N as [N|N].
    - assert (i = mkInfo (` "TR" ++ x) (zlen trd_tags) Trd (b2z (o_tr o)) (b2z (o_tr o))) as -> by (apply INJ; auto; apply IN; cbn; auto). cbn [i_enable] in E. lia.
    - assert (i = mkInfo (` "CA" ++ x) (zlen cat_tags) Cat (b2z (o_ca o)) (b2z (o_ca o))) as -> by (apply INJ; auto; apply IN; cbn; auto). cbn [i_enable] in E. lia. }
  assert (forall t b, In (t, b) (combine pol_tags (tp_use p)) -> i_name i = t ++ ` "-TRO" \/ i_name i = t ++ ` "-CAO" -> s = t ++ ` "-POL" ->
    exists i', In i' (table p nt nr ni) /\ i_name i' = s /\ i_enable i' > 0) as POLM.
  { intros t b C N ->.
    assert (forall f : list Z * bool -> info, incl (map f (combine pol_tags (tp_use p))) (info_pol p ni) -> In (f (t, b)) (table p nt nr ni)) as T.
    { intros f IN. unfold table. rewrite !in_app_iff. do 6 right. left. apply IN. now apply in_map. }
    eexists (mkInfo (t ++ ` "-POL") (tp_ny p) Pol (b2z b * (b2z (tp_pol p) + b2z (tp_tro p) + b2z (tp_cao p))) (b2z b * b2z (tp_pol p))). split; [|split; [reflexivity|]].
    - apply (T (fun tu => mkInfo (fst tu ++ ` "-POL") (tp_ny p) Pol (b2z (snd tu) * (b2z (tp_pol p) + b2z (tp_tro p) + b2z (tp_cao p))) (b2z (snd tu) * b2z (tp_pol p)))).
      unfold info_pol. intros z Z. rewrite !in_app_iff. auto.
    - cbn [i_enable]. pose proof (P (tp_pol p)). pose proof (P (tp_tro p)). pose proof (P (tp_cao p)). destruct N as [N|N].
      + assert (i = mkInfo (t ++ ` "-TRO") (zlen trd_tags) Trd (b2z b * b2z (tp_tro p)) (b2z b * b2z (tp_tro p))) as ->.
        { apply INJ; auto. apply (T (fun tu => mkInfo (fst tu ++ ` "-TRO") (zlen trd_tags) Trd (b2z (snd tu) * b2z (tp_tro p)) (b2z (snd tu) * b2z (tp_tro p)))). unfold info_pol. intros z Z. rewrite !in_app_iff. auto. }
        cbn [i_enable] in E. destruct b; cbn [b2z] in *; lia.
      + assert (i = mkInfo (t ++ ` "-CAO") (zlen cat_tags) Cat (b2z b * b2z (tp_cao p)) (b2z b * b2z (tp_cao p))) as ->.
        { apply INJ; auto. apply (T (fun tu => mkInfo (fst tu ++ ` "-CAO") (zlen cat_tags) Cat (b2z (snd tu) * b2z (tp_cao p)) (b2z (snd tu) * b2z (tp_cao p)))). unfold info_pol. intros z Z. rewrite !in_app_iff. auto. }
        cbn [i_enable] in E. destruct b; cbn [b2z] in *; lia. }
  unfold sources in S. apply in_app_iff in S. destruct S as [S|S].
  - apply in_flat_map in S. destruct S as (x & X & S).
    assert ((i_name i = ` "TR" ++ x \/ i_name i = ` "CA" ++ x) /\ s = ` "FB" ++ x) as (N & ->).
    { destruct S as [S|[S|[]]]; apply pair_equal_spec in S; destruct S as (<- & <-); auto. }
    assert (forall l1 l2 l3 : list info, incl l2 (l1 ++ l2 ++ l3)) as IN by (intros l1 l2 l3 z Z; rewrite !in_app_iff; auto).
    destruct X as [<-|[<-|[<-|[<-|[<-|[]]]]]]; (eapply FOLD; [|exact N|reflexivity]); unfold table; intros z Z; rewrite !in_app_iff.
    + right; left; exact Z.
    + do 2 right; left; exact Z.
    + do 3 right; left; exact Z.
    + do 4 right; left; exact Z.
    + do 5 right; left; exact Z.
  - apply in_flat_map in S. destruct S as (t & T & S). destruct (combine_exists (tp_use p) U t T) as (b & C). apply (POLM t b C).
    + destruct S as [S|[S|[]]]; apply pair_equal_spec in S; destruct S as (<- & <-); auto.
    + destruct S as [S|[S|[]]]; apply pair_equal_spec in S; destruct S as (_ & <-); auto.
Qed.

(** ** interpolated dates *)
Lemma inter_ce lo step : forall ts d, map ce (inter_days d lo step ts) = map (fun t => lo + t * step) ts.
Proof.
  induction ts as [|t ts IH]; intros d; cbn [inter_days map]; auto. rewrite IH. f_equal. unfold set_date_ce.
  pose proof (ce2date_valid (lo + t * step)) as V. destruct (ce2date (lo + t * step)) as [[y m] dd]. destruct V as (V & V2).
  rewrite <- V2. reflexivity.
Qed.
Lemma inter_consistent lo step : forall ts d x, In x (inter_days d lo step ts) -> consistent x.
Proof.
  induction ts as [|t ts IH]; intros d x I; cbn [inter_days] in I; [contradiction|]. destruct I as [<-|I]; [|eauto].
  unfold set_date_ce. pose proof (ce2date_valid (lo + t * step)) as V. destruct (ce2date (lo + t * step)) as [[y m] dd]. apply set_date_consistent. tauto.
Qed.

Lemma named_all text ds : named text ds = map Some (map (fun d => mkLabel d BLEND (text d)) ds).
Proof. unfold named. now rewrite map_map. Qed.
Lemma map_some_inj {A} (a b : list A) : map Some a = map Some b -> a = b.
Proof. revert b. induction a as [|x a IH]; intros [|y b] H; cbn [map] in H; try discriminate; auto. injection H as -> H. f_equal; auto. Qed.

Lemma label_image_ok im l : label_image im = Some l -> l_date l = im_date im /\ l_sensor l = im_sensor im /\ l_name l = day_text (im_date im) ++ ` "_" ++ im_sensor im.
Proof. unfold label_image, fits. destruct (_ >=? 1024); [discriminate|]. intros H. inversion H; subst. cbn. auto. Qed.

Lemma label_images_ok imgs from n r : 0 <= from -> from + n = zlen imgs -> label_images imgs from n = Ret r -> r = map label_image (skipn (Z.to_nat from) imgs).
Proof.
  intros F N H. unfold label_images in H. pose proof H as H0. apply omap_F2 in H.
  assert (forall (ts : list Z) r, Forall2 (fun t b => (im <- of_option (get_at imgs (from + t));; Ret (label_image im)) = Ret b) ts r ->
    forall i t, nth_error ts i = Some t -> nth_error r i = option_map label_image (nth_error imgs (Z.to_nat (from + t))) /\ 0 <= from + t) as G.
  { induction 1 as [|t b ts r' E F2 IH]; intros [|i] t' T; cbn in T; try discriminate; [|apply IH; auto].
    inversion T; subst. unfold get_at in E. destruct (from + t' <? 0) eqn:S; [discriminate|]. destruct (nth_error imgs (Z.to_nat (from + t'))); cbn in E |- *; inversion E; subst; split; auto; lia. }
  assert (length r = Z.to_nat n) as LR by (rewrite (omap_length _ _ _ H0), zupto_length; reflexivity).
  assert (forall i, nth_error r i = nth_error (map label_image (skipn (Z.to_nat from) imgs)) i) as X.
  { intros i. destruct (Nat.ltb_spec i (Z.to_nat n)) as [L|L].
    - assert (nth_error (zupto n) i = Some (Z.of_nat i)) as T.
      { pose proof (get_zupto n (Z.of_nat i) ltac:(lia)) as Q. unfold get_at in Q. destruct (Z.of_nat i <? 0) eqn:S; [lia|]. rewrite Nat2Z.id in Q. exact Q. }
      destruct (G _ _ H i _ T) as (-> & _). rewrite nth_error_map. f_equal.
      replace (Z.to_nat (from + Z.of_nat i)) with (Z.to_nat from + i)%nat by lia. clear. generalize (Z.to_nat from) as k. intros k. revert imgs.
      induction k as [|k IH]; intros [|x imgs]; cbn [skipn Nat.add nth_error]; auto. destruct i; auto.
    - rewrite (proj2 (nth_error_None r i)) by lia. symmetry. apply nth_error_None. rewrite map_length, skipn_length. unfold zlen in N. lia. }
  clear - X. revert X. generalize (map label_image (skipn (Z.to_nat from) imgs)). induction r as [|a r IH]; intros [|b l] X; auto; try (specialize (X O); discriminate).
  pose proof (X O) as X0. cbn in X0. injection X0 as ->. f_equal. apply IH. intros i. exact (X (S i)).
Qed.
Lemma label_images_total imgs from n : 0 <= from -> from + n = zlen imgs -> exists r, label_images imgs from n = Ret r.
Proof.
  intros F N. apply omap_ok. intros t T. apply zupto_In in T. destruct (get_at_some imgs (from + t)) as (im & ->); [lia|]. cbn. eauto.
Qed.

(** ** images after the end of the fit *)
Lemma n_nrt_len p imgs : tp_nrt p = true -> n_nrt p imgs = zlen (recent p imgs).
Proof.
  intros T. unfold n_nrt, recent. rewrite T.
  assert (forall l k, fold_left (fun n im => if ce (im_date im) >? tp_fit_end p then n + 1 else n) l k = k + zlen (filter (fun im => tp_fit_end p <? ce (im_date im)) l)) as G.
  { induction l as [|x l IH]; intros k; cbn [fold_left filter]; [unfold zlen; cbn; lia|]. rewrite IH, Z.gtb_ltb. destruct (tp_fit_end p <? ce (im_date x)); unfold zlen; cbn [length]; lia. }
  rewrite G. lia.
Qed.
Lemma recent_skip p imgs : chronological imgs -> skipn (length imgs - length (recent p imgs)) imgs = recent p imgs.
Proof.
  induction 1 as [|x l ST IH F]; auto. unfold recent in *. cbn [filter]. destruct (Z.ltb_spec (tp_fit_end p) (ce (im_date x))) as [L|L].
  - assert (filter (fun im => tp_fit_end p <? ce (im_date im)) l = l) as ->.
    { clear IH ST. induction F as [|y l G F IH]; auto. cbn [filter]. destruct (Z.ltb_spec (tp_fit_end p) (ce (im_date y))); [congruence|lia]. }
    cbn [length]. replace (S (length l) - S (length l))%nat with O by lia. reflexivity.
  - assert (length (recent p l) <= length l)%nat as B.
    { clear. unfold recent. induction l as [|y l IH]; cbn [filter length]; auto. destruct (_ <? _); cbn [length]; lia. }
    unfold recent in B. set (f := filter _ l) in *. cbn [length]. replace (S (length l) - length f)%nat with (S (length l - length f)) by lia. cbn [skipn]. exact IH.
Qed.
Lemma recent_length p imgs : (length (recent p imgs) <= length imgs)%nat.
Proof. unfold recent. induction imgs as [|y l IH]; cbn [filter length]; auto. destruct (_ <? _); cbn [length]; lia. Qed.
Lemma nrt_bounds p imgs : 0 <= n_nrt p imgs <= zlen imgs.
Proof.
  destruct (tp_nrt p) eqn:T.
  - rewrite n_nrt_len by auto. pose proof (recent_length p imgs). unfold zlen. lia.
  - unfold n_nrt. rewrite T. unfold zlen. lia.
Qed.

(** ** the entry a brick comes from *)
Lemma entry_unique p nt nr ni i j : zlen (tp_use p) = POL_LENGTH -> In i (table p nt nr ni) -> In j (table p nt nr ni) -> i_name i = i_name j -> i = j.
Proof. intros U. apply nodup_inj. now apply table_nodup. Qed.

(** A brick of a given product, with the labels of its entry. *)
Lemma brick_entry p imgs bs b j : zlen (tp_use p) = POL_LENGTH -> time_series p imgs = Ret (Some bs) -> In (Some b) bs ->
  In j (table p (zlen imgs) (n_nrt p imgs) (n_steps p (zlen imgs))) -> b_product b = i_name j ->
  1 <= i_len j /\ i_enable j > 0 /\ labels p imgs (zlen imgs) (n_nrt p imgs) j = Ret (map Some (b_bands b)).
Proof.
  intros U H I J N. destruct (series_brick p imgs bs b U H I) as (ix & i & _ & T & C & _). apply product_brick in C. destruct C as (C1 & C2 & C3 & _ & _ & _ & C4).
  assert (i = j) as <- by (eapply entry_unique; eauto; congruence). auto.
Qed.

(** ** folds *)
Lemma fold_labels (set : date -> Z -> date) (field : date -> Z) (R : date -> Prop) limit flags n :
  (forall d j, 1 <= j <= limit - 1 -> year (set d j) = year d /\ field (set d j) = j /\ R (set d j)) ->
  bits flags -> limit <= zlen flags -> n = zlen (chosen flags 1 (limit - 1)) ->
  exists ds, fold_dates set limit flags (Z.to_nat n) d2000 1 = Ret ds /\ map field ds = chosen flags 1 (limit - 1) /\ forall x, In x ds -> year x = 2000 /\ R x.
Proof.
  intros H B L ->. unfold zlen at 1. rewrite Nat2Z.id. rewrite (fold_ok set limit flags B L _ d2000 1 ltac:(lia) eq_refl).
  eexists. split; [reflexivity|].
  destruct (scan_ok set (fun j => 1 <= j <= limit - 1) (fun j x => field x = j /\ R x) 2000 (fun d j J => conj (proj1 (H d j J)) (proj2 (H d j J))) (chosen flags 1 (limit - 1)) d2000 eq_refl (chosen_ok _ _ _ (fun k K => K))) as (F & _).
  split.
  - clear - F. induction F as [|j x l xs (_ & E & _) F IH]; cbn [map]; congruence.
  - clear - F. induction F as [|j x l xs (E1 & _ & E2) F IH]; [contradiction|]. intros y [<-|I]; auto.
Qed.

Lemma season_labels lo hi s : 1 <= lo <= 365 -> 1 <= hi <= 365 -> compile_season lo hi = Ret s ->
  (exists ds, fold_dates set_date_quarter 5 (s_quarters s) (Z.to_nat (s_nq s)) d2000 1 = Ret ds /\ lists (used (s_quarters s)) (map quarter ds) /\
    forall x, In x ds -> year x = 2000 /\ consistent x) /\
  (exists ds, fold_dates set_date_month 13 (s_months s) (Z.to_nat (s_nm s)) d2000 1 = Ret ds /\ lists (used (s_months s)) (map month ds) /\
    forall x, In x ds -> year x = 2000 /\ consistent x) /\
  (exists ds, fold_dates set_date_week 53 (s_weeks s) (Z.to_nat (s_nw s)) d2000 1 = Ret ds /\ lists (used (s_weeks s)) (map week ds) /\
    forall x, In x ds -> year x = 2000 /\ consistent x) /\
  (exists ds, fold_dates set_date_doy 366 (s_days s) (Z.to_nat (s_nd s)) d2000 1 = Ret ds /\ lists (used (s_days s)) (map doy ds) /\
    forall x, In x ds -> year x = 2000 /\ consistent x).
Proof.
  intros L H E. destruct (season_ok lo hi L H) as (s' & E' & (D1 & D2 & D3) & (W1 & W2 & W3) & (M1 & M2 & M3) & (Q1 & Q2 & Q3) & Nd & Nw & Nm & Nq).
  assert (s' = s) as -> by congruence. clear E E'.
  assert (SUB : forall flags n, (forall k, used flags k -> 1 <= k <= n) -> lists (used flags) (chosen flags 1 n)).
  { intros flags n R. destruct (chosen_lists flags 1 n) as (C1 & C2). split; auto. intros k. rewrite C2. split; [tauto|]. auto. }
  assert (PR : forall d, 1 <= d <= 365 -> 1 <= doy2week d <= 52 /\ 1 <= doy2m d <= 12 /\ 1 <= doy2quarter d <= 4).
  { intros d1 R. pose proof (week_spec d1 R) as Wk. pose proof (proj2 (month_unique d1 _ R) eq_refl) as (dd & (V & _) & _).
    pose proof (proj2 (quarter_unique d1 _ R) eq_refl) as (mm & _ & V2 & _). unfold in_week in Wk. lia. }
  split; [|split; [|split]].
  - destruct (fold_labels set_date_quarter quarter consistent 5 (s_quarters s) (s_nq s)) as (ds & F1 & F2 & F3); [|exact Q2|lia|exact Nq|].
    + intros d j J. pose proof (dop_effect_ok d (DQuarter j) ltac:(cbn; lia)) as F. cbn [apply_dop dop_effect] in F. destruct F as (F1 & F2 & F3 & F4). split; auto. split; auto.
      apply (set_doy_consistent d (quarter2doy j)). destruct (quarter2doy_val j ltac:(lia)) as (-> & V). apply md2doy_range. auto.
    + exists ds. split; [exact F1|]. split; [|exact F3]. rewrite F2. apply SUB. intros k K. apply Q3 in K. destruct K as (d & R & _ & <-). destruct (PR d R) as (_ & _ & X). lia.
  - destruct (fold_labels set_date_month month consistent 13 (s_months s) (s_nm s)) as (ds & F1 & F2 & F3); [|exact M2|lia|exact Nm|].
    + intros d j J. pose proof (dop_effect_ok d (DMonth j) ltac:(cbn; lia)) as F. cbn [apply_dop dop_effect] in F. destruct F as (F1 & F2 & F3). split; auto. split; auto.
      apply (set_doy_consistent d (md2doy j 1)). apply md2doy_range. apply month_first. lia.
    + exists ds. split; [exact F1|]. split; [|exact F3]. rewrite F2. apply SUB. intros k K. apply M3 in K. destruct K as (d & R & _ & <-). destruct (PR d R) as (_ & X & _). lia.
  - destruct (fold_labels set_date_week week consistent 53 (s_weeks s) (s_nw s)) as (ds & F1 & F2 & F3); [|exact W2|lia|exact Nw|].
    + intros d j J. pose proof (dop_effect_ok d (DWeek j) ltac:(cbn; lia)) as F. cbn [apply_dop dop_effect] in F. destruct F as (F1 & F2 & F3). split; auto. split; auto.
      apply (set_doy_consistent d (week2doy j)). apply week2doy_range. lia.
    + exists ds. split; [exact F1|]. split; [|exact F3]. rewrite F2. apply SUB. intros k K. apply W3 in K. destruct K as (d & R & _ & <-). destruct (PR d R) as (X & _). lia.
  - destruct (fold_labels set_date_doy doy consistent 366 (s_days s) (s_nd s)) as (ds & F1 & F2 & F3); [|exact D2|lia|exact Nd|].
    + intros d j J. pose proof (dop_effect_ok d (DDoy j) ltac:(cbn; lia)) as F. cbn [apply_dop dop_effect] in F. destruct F as (F1 & F2). split; auto. split; auto. apply set_doy_consistent. lia.
    + exists ds. split; [exact F1|]. split; [|exact F3]. rewrite F2. apply SUB. intros k K. apply D3 in K. unfold flagged in K. destruct (lo <? hi); lia.
Qed.

(** ** when everything can be compiled *)
Lemma get_all {A} (l : list A) : omap (fun t => of_option (get_at l t)) (zupto (zlen l)) = Ret l.
Proof.
  apply omap_F2. assert (forall l1 l2 : list A, l = l1 ++ l2 -> Forall2 (fun t b => of_option (get_at l t) = Ret b) (map (fun k => zlen l1 + k) (zupto (zlen l2))) l2) as G.
  { intros l1 l2. revert l1. induction l2 as [|x l2 IH]; intros l1 E; [constructor|].
    replace (map (fun k => zlen l1 + k) (zupto (zlen (x :: l2)))) with (zlen l1 :: map (fun k => zlen (l1 ++ [x]) + k) (zupto (zlen l2))).
    - constructor; [|apply IH; rewrite E, <- app_assoc; reflexivity]. rewrite E. unfold get_at. destruct (zlen l1 <? 0) eqn:S; [unfold zlen in S; lia|]. unfold zlen. rewrite Nat2Z.id, nth_error_app2, Nat.sub_diag by lia. reflexivity.
    - unfold zupto, zlen. rewrite !Nat2Z.id. cbn [length seq map]. f_equal; [lia|]. rewrite <- seq_shift, !map_map. apply map_ext. intros k. rewrite app_length. cbn [length]. lia. }
  specialize (G [] l eq_refl). erewrite map_ext in G; [rewrite map_id in G; exact G|]. intros k. reflexivity.
Qed.

Lemma labels_total p imgs lo hi i :
  1 <= lo <= 365 -> 1 <= hi <= 365 -> compile_season lo hi = Ret (tp_season p) ->
  (forall im, In im imgs -> zlen (day_text (im_date im) ++ ` "_" ++ im_sensor im) < 1024) ->
  zlen (tp_use p) = POL_LENGTH -> In i (table p (zlen imgs) (n_nrt p imgs) (n_steps p (zlen imgs))) ->
  exists ls, labels p imgs (zlen imgs) (n_nrt p imgs) i = Ret (map Some ls).
Proof.
  intros L H E SH U I. destruct (season_labels lo hi _ L H E) as ((qs & Q & _) & (ms & M & _) & (ws & W & _) & (ds & D & _)).
  pose proof (nrt_bounds p imgs) as NB.
  assert (forall from n, 0 <= from -> from + n = zlen imgs -> exists ls, label_images imgs from n = Ret (map Some ls)) as LI.
  { intros from n F N. destruct (label_images_total imgs from n F N) as (r & R). rewrite R. pose proof (label_images_ok _ _ _ _ F N R) as ->.
    destruct (all_some_ok (map label_image (skipn (Z.to_nat from) imgs))) as (s & S).
    - intros o O. apply in_map_iff in O. destruct O as (im & <- & J). unfold label_image, fits. rewrite Z.geb_leb.
      assert (In im imgs) as K by (rewrite <- (firstn_skipn (Z.to_nat from) imgs); apply in_app_iff; auto). specialize (SH im K). unfold day_text in SH. fold (compact (im_date im)) in SH.
      destruct (Z.leb_spec 1024 (zlen (compact (im_date im) ++ ` "_" ++ im_sensor im))); [lia|discriminate].
    - exists s. f_equal. now apply all_some_iff. }
  assert (forall ns : list (list Z), exists ls, Ret (map (fun x => Some (mkLabel d2000 BLEND x)) ns) = Ret (map Some ls)) as NS by (intros ns; exists (map (fun x => mkLabel d2000 BLEND x) ns); now rewrite map_map).
  assert (forall text l, exists ls, Ret (named text l) = Ret (map Some ls)) as NM by (intros; eexists; f_equal; apply named_all).
  unfold labels. unfold table, info_pol in I. rewrite !in_app_iff in I.
  destruct I as [I|[I|[I|[I|[I|[I|[[I|[I|[I|I]]]|[I|I]]]]]]]].
  - cbn [info_series In] in I. destruct I as [<-|[<-|[<-|[<-|[<-|[]]]]]]; cbn [i_kind i_len].
    + apply LI; lia.
    + apply LI; lia.
    + apply LI; lia.
    + destruct (tp_none p) eqn:TN; [|apply NM]. unfold n_steps. rewrite TN.
      destruct (omap_ok (fun t => im <- of_option (get_at imgs t);; Ret (Some (mkLabel (im_date im) BLEND (compact (im_date im))))) (zupto (zlen imgs))) as (r & R).
      * intros t T. apply zupto_In in T. destruct (get_at_some imgs t) as (im & ->); [lia|]. cbn. eauto.
      * rewrite R. apply omap_F2 in R. assert (exists ls, r = map Some ls) as (ls & ->); [|eauto]. clear - R. induction R as [|t b ts r E F (ls & ->)]; [exists []; reflexivity|].
        destruct (get_at imgs t) as [im|]; cbn in E; inversion E. exists (mkLabel (im_date im) BLEND (compact (im_date im)) :: ls). reflexivity.
    + rewrite get_all. cbn [bind]. apply NS.
  - cbn [info_fold In] in I. destruct I as [<-|[<-|[<-|[]]]]; cbn [i_kind i_len]; rewrite ?get_all; cbn [bind]; auto.
  - cbn [info_fold In] in I. destruct I as [<-|[<-|[<-|[]]]]; cbn [i_kind i_len]; rewrite ?get_all, ?Q; cbn [bind]; auto.
  - cbn [info_fold In] in I. destruct I as [<-|[<-|[<-|[]]]]; cbn [i_kind i_len]; rewrite ?get_all, ?M; cbn [bind]; auto.
  - cbn [info_fold In] in I. destruct I as [<-|[<-|[<-|[]]]]; cbn [i_kind i_len]; rewrite ?get_all, ?W; cbn [bind]; auto.
  - cbn [info_fold In] in I. destruct I as [<-|[<-|[<-|[]]]]; cbn [i_kind i_len]; rewrite ?get_all, ?D; cbn [bind]; auto.
  - cbn [In] in I. assert (i_kind i = Inter /\ i_len i = n_steps p (zlen imgs)) as (-> & ->) by (destruct I as [<-|[<-|[]]]; auto). clear I.
    destruct (tp_none p) eqn:TN; [|apply NM]. unfold n_steps. rewrite TN.
      destruct (omap_ok (fun t => im <- of_option (get_at imgs t);; Ret (Some (mkLabel (im_date im) BLEND (compact (im_date im))))) (zupto (zlen imgs))) as (r & R).
      * intros t T. apply zupto_In in T. destruct (get_at_some imgs t) as (im & ->); [lia|]. cbn. eauto.
      * rewrite R. apply omap_F2 in R. assert (exists ls, r = map Some ls) as (ls & ->); [|eauto]. clear - R. induction R as [|t b ts r E F (ls & ->)]; [exists []; reflexivity|].
        destruct (get_at imgs t) as [im|]; cbn in E; inversion E. exists (mkLabel (im_date im) BLEND (compact (im_date im)) :: ls). reflexivity.
  - apply in_map_iff in I. destruct I as (tu & <- & _). cbn [i_kind i_len]. apply NM.
  - apply in_map_iff in I. destruct I as (tu & <- & _). cbn [i_kind i_len]. rewrite get_all. cbn [bind]. apply NS.
  - apply in_map_iff in I. destruct I as (tu & <- & _). cbn [i_kind i_len]. rewrite get_all. cbn [bind]. apply NS.
  - destruct I as [<-|[]]. cbn [i_kind i_len]. rewrite get_all. cbn [bind]. exists (map (fun x => mkLabel (snd x) BLEND (fst x)) (snd (tp_pyp p))). now rewrite map_map.
  - destruct I as [<-|[]]. cbn [i_kind i_len]. rewrite get_all. cbn [bind]. exists (map (fun x => mkLabel (snd x) BLEND (fst x)) (snd (tp_rsp p))). now rewrite map_map.
Qed.
