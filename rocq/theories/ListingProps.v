(** C50. *)
From Verif Require Import Base CStr BaseFacts DateModel DateSpec DateTextModel DateTextSpec DateTextProofs PathModel StringModel ListingModel ListingSpec ListingProofs.
From Coq Require Import Sorting.Sorted.

(** Exactly the images of the product, sensors, time span and season, in the
    order of the directory; FAILURE if there are none.  For every directory in
    which the images of the product and sensors start with a date. *)
Theorem C50_selection rq names : Forall entry names -> zlen (rq_days rq) = 366 ->
  Forall (fun n => candidate rq n -> exists y m d, dated n y m d) names ->
  exists p, Forall (fun n => p n = true <-> candidate rq n /\ in_time rq n) names /\
    list_ard rq names = Ret (match filter p names with [] => None | l => Some l end).
Proof.
  intros E L D. destruct (select_all_ok rq names E L D) as (p & S & P). exists p. split; auto.
  unfold list_ard. rewrite S. cbn [bind]. destruct (filter p names); auto.
Qed.

(** The images come in the order of their dates if the directory is listed in byte order. *)
Theorem C50_chronological rq names l : Forall entry names -> zlen (rq_days rq) = 366 ->
  Forall (fun n => candidate rq n -> exists y m d, dated n y m d) names ->
  StronglySorted name_le names -> list_ard rq names = Ret (Some l) ->
  StronglySorted (fun a b => forall y m d y' m' d', dated a y m d -> dated b y' m' d' -> ~ date_lt (y', m', d') (y, m, d)) l.
Proof.
  intros E L D S R. destruct (C50_selection rq names E L D) as (p & P & R'). rewrite R in R'.
  assert (l = filter p names) as ->. { destruct (filter p names); congruence. }
  apply filter_sorted. clear - S. induction S as [|a l S IH F]; constructor; auto.
  rewrite Forall_forall in *. intros b I. intros. eapply order_ok; eauto.
Qed.

(** An image of the product and sensors whose name does not start with a word of
    eight characters ends the program, wherever it is in the directory. *)
Theorem C50_other_names_exit rq front n back w r : Forall entry (front ++ n :: back) -> zlen (rq_days rq) = 366 ->
  Forall (fun n => candidate rq n -> exists y m d, dated n y m d) front -> candidate rq n ->
  strtok date_seps (take_until line_end n) = Some (w, r) -> zlen w <> 8 ->
  list_ard rq (front ++ n :: back) = Exit.
Proof.
  intros E L D C T W. unfold list_ard.
  assert (entry n) as En. { rewrite Forall_forall in E. apply E. apply in_app_iff. right. now left. }
  assert (select rq n = Exit) as X.
  { destruct (candidate_ok rq n En) as (ext & X & K). apply K in C. rewrite !andb_true_iff in C. destruct C as ((C1 & C2) & C3).
    unfold select. rewrite X. cbn [bind snd]. rewrite C1, C2, C3. cbn [negb].
    rewrite (from_string_wrong_length init_date n w r); auto. destruct En as (_ & En & _). lia. }
  assert (select_all rq (front ++ n :: back) = Exit) as ->; [|reflexivity].
  induction front as [|f front IH]; cbn [app select_all].
  - rewrite X. reflexivity.
  - cbn [app] in E. inversion E as [|? ? Ef E']; subst. inversion D as [|? ? Df D']; subst.
    destruct (select_ok rq f Ef L Df) as (b & B & _). rewrite B. cbn [bind]. rewrite IH; auto.
Qed.

(** Regular names: date, level, sensor, product.  For products and sensors whose
    names have the usual lengths and no overlap with other parts of the name,
    only the requested product and sensors are taken. *)
Theorem C50_regular_names_partial rq n date sensor product ext :
  n = date ++ `"_LEVEL2_" ++ sensor ++ `"_" ++ product ++ ext ->
  In ext [`".dat"; `".bsq"; `".bil"; `".tif"; `".vrt"] -> ~ In 46 (date ++ sensor ++ product) ->
  (forall w, In w (rq_product rq :: rq_sensors rq) -> ~ In 95 w /\ ~ In 46 w /\ ~ contains w date /\ ~ contains w (`"LEVEL2") /\ ~ contains w (tl ext)) ->
  length (rq_product rq) = length product -> ~ contains (rq_product rq) sensor ->
  (forall s, In s (rq_sensors rq) -> length s = length sensor /\ ~ contains s product) ->
  (candidate rq n <-> product = rq_product rq /\ In sensor (rq_sensors rq)).
Proof.
  intros -> X ND W LP PS SS.
  assert (exists e, ext = 46 :: e /\ tl ext = e) as (e & -> & T).
  { destruct X as [<- |[<- |[<- |[<- |[<- |[]]]]]]; eexists; split; reflexivity. }
  assert (K : forall w, In w (rq_product rq :: rq_sensors rq) ->
    (contains w (date ++ `"_LEVEL2_" ++ sensor ++ `"_" ++ product ++ 46 :: e) <-> contains w sensor \/ contains w product)).
  { intros w I. destruct (W w I) as (W1 & W2 & W3 & W4 & W5). cbn [tl] in W5.
    change (`"_LEVEL2_" ++ sensor ++ `"_" ++ product ++ 46 :: e) with (95 :: (`"LEVEL2" ++ 95 :: (sensor ++ 95 :: (product ++ 46 :: e)))).
    rewrite (contains_sep w date 95) by auto. rewrite (contains_sep w (`"LEVEL2") 95) by auto.
    rewrite (contains_sep w sensor 95) by auto. rewrite (contains_sep w product 46) by auto. tauto. }
  unfold candidate. rewrite K by now left. rewrite (contains_same (rq_product rq) product LP).
  split.
  - intros (_ & [P|P] & s & Is & Cs); [tauto|]. split; auto. rewrite K in Cs by now right. destruct (SS s Is) as (L1 & L2).
    destruct Cs as [Cs|Cs]; [|tauto]. apply contains_same in Cs; auto. now subst.
  - intros (-> & I). split; [|split; [now right|]].
    + exists (date ++ `"_LEVEL2_" ++ sensor ++ `"_" ++ rq_product rq), (46 :: e). split; [now rewrite <- !app_assoc|]. split; auto.
      intros J. repeat rewrite in_app_iff in ND. repeat rewrite in_app_iff in J. destruct J as [J|[J|[J|[J|J]]]]; try tauto; cbn in J; repeat (destruct J as [J|J]; [discriminate|]); exact J.
    + exists sensor. split; auto. rewrite K by now right. left. exists [], []. now rewrite app_nil_r.
Qed.

(** In general a longer product name is taken as well. *)
Theorem C50_product_refuted : ~ (forall rq n date sensor product ext,
  n = date ++ `"_LEVEL2_" ++ sensor ++ `"_" ++ product ++ ext -> entry n ->
  candidate rq n -> product = rq_product rq).
Proof.
  intros H. specialize (H (mkRequest (`"BOA") [`"LND08"] 0 0 [] 0) _ (`"20200101") (`"LND08") (`"BOA-OLD") (`".tif") eq_refl).
  assert (`"BOA-OLD" = `"BOA") as E; [|discriminate]. apply H.
  - split; [discriminate|]. split; [cbv; discriminate|]. cbn. intuition discriminate.
  - split; [|split].
    + exists (`"20200101_LEVEL2_LND08_BOA-OLD"), (`".tif"). split; [reflexivity|]. split; [cbn; intuition discriminate|cbn; auto 6].
    + exists (`"20200101_LEVEL2_LND08_"), (`"-OLD.tif"). reflexivity.
    + exists (`"LND08"). split; [now left|]. exists (`"20200101_LEVEL2_"), (`"_BOA-OLD.tif"). reflexivity.
Qed.

(** A summer of Landsat 8; the quality image and the winter image are left out. *)
Example C50_case : list_ard (mkRequest (`"BOA") [`"LND07"; `"LND08"] (2019 * 365 + 1) (2020 * 365 + 365)
    (repeat 0 100 ++ repeat 1 266) (2019 * 365 + 1))
  [`"."; `".."; `"20191231_LEVEL2_LND07_BOA.tif"; `"20200120_LEVEL2_LND08_BOA.tif"; `"20200820_LEVEL2_LND08_BOA.tif"; `"20200820_LEVEL2_LND08_QAI.tif"] =
  Ret (Some [`"20200820_LEVEL2_LND08_BOA.tif"]).
Proof. vm_compute. reflexivity. Qed.
Lemma vec_in_z c l : existsb (Z.eqb c) l = true -> In c l.
Proof. rewrite existsb_exists. intros (x & I & E). apply Z.eqb_eq in E. now subst. Qed.
Example C50_case_names : entry (`"20200820_LEVEL2_LND08_BOA.tif") /\ dated (`"20200820_LEVEL2_LND08_BOA.tif") 2020 8 20.
Proof.
  split.
  - split; [discriminate|]. split; [cbv; discriminate|]. cbn. intuition discriminate.
  - split; [lia|]. split; [split; [lia|change (nth _ _ 0) with 31; lia]|]. exists (`"_LEVEL2_LND08_BOA.tif"). split; [reflexivity|]. left. apply vec_in_z. reflexivity.
Qed.

Print Assumptions C50_selection.
Print Assumptions C50_chronological.
Print Assumptions C50_other_names_exit.
Print Assumptions C50_regular_names_partial.
Print Assumptions C50_product_refuted.
