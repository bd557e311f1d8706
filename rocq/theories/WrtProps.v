(** Theorems about the image writer: C115 to C121. *)
From Coq Require Import Permutation.
From Verif Require Import Base BaseFacts CStr Loops LoopsFacts StringModel StringSpec StringProofs ChunkProofs
  QaiModel QaiSpec QaiProofs ParamProofs CubeDefModel ProgressModel WrtModel WrtSpec WrtProofs WrtFiles WrtSeq WrtChunk WrtOpt.

(** ** C115: what is in the files *)

(** A whole brick whose files are absent, or of the same layout, or created anew: every
    file holds the saved bands in their order (combined with the previous content when
    mosaicking), no other file changes, all locks are released. *)
Theorem C115_files_hold_bands : forall b pn w,
  whole b -> short_names b -> distinct_names b -> unlocked b pn w ->
  (forall path ds, is_file b path ds -> w_open b = OPEN_CREATE \/ disk w path = None \/
     exists r, disk w path = Some (Raster r) /\ fits b ds r) ->
  exists w', write_brick b pn w = Ret (SUCCESS, w') /\ locks w' = locks w /\
    (forall path ds, is_file b path ds -> result b ds (disk w path) (disk w' path)) /\
    (forall n, (forall ds, ~ is_file b n ds) -> disk w' n = disk w n).
Proof.
  intros b pn w W S D U A. destruct (write_brick_ok b pn w W S D U A) as (w' & lines & E & L & R & _ & O & _).
  exists w'. auto.
Qed.

Theorem C115_not_requested : forall b pn w, w_open b = OPEN_FALSE -> write_brick b pn w = Ret (SUCCESS, w).
Proof. intros b pn w E. unfold write_brick. rewrite E. reflexivity. Qed.

(** A file of another layout is refused and left as it is. *)
Theorem C115_other_layout_refused : forall b pn w r,
  mosaicking (w_open b) = true -> w_open b <> OPEN_FALSE -> w_explode b = false ->
  short_names b -> unlocked b pn w ->
  disk w (file_name b []) = Some (Raster r) ->
  (r_nx r <> w_nx b \/ r_ny r <> w_ny b \/ zlen (r_bands r) <> zlen (saved b)) ->
  exists w', write_brick b pn w = Ret (FAILURE, w') /\ forall n, disk w' n = disk w n.
Proof.
  intros b pn w r M NF EX S (UD & UP & UF) D MIS.
  assert (is_file b (file_name b []) (saved b)) as I by (unfold is_file; rewrite EX; auto).
  unfold write_brick.
  assert (forall X, match w_open b with OPEN_FALSE => Ret (SUCCESS, w) | _ => X end = X) as ->
    by (intros; destruct (w_open b); auto; contradiction).
  rewrite locked_not by auto. unfold unlock. cbn [disk locks prov]. rewrite drop_head.
  unfold jobs. fold (saved b). rewrite EX. cbn [write_files]. unfold write_file. cbn [fst snd].
  rewrite path_short by (eapply S; eauto). rewrite locked_not by (cbn; eapply UF; eauto). cbn [disk].
  assert (content b (saved b) (disk w (file_name b [])) = Ret None) as ->.
  { unfold content, mosaic. rewrite D, M. cbn [negb].
    destruct (zlen (r_bands r) =? zlen (saved b)) eqn:C1; [|reflexivity]. cbn [negb].
    destruct (r_nx r =? w_nx b) eqn:C2; [|reflexivity]. cbn [negb].
    destruct (r_ny r =? w_ny b) eqn:C3; [|reflexivity]. lia. }
  cbn [bind fst]. eexists. split; [reflexivity|]. reflexivity.
Qed.

(** Witnesses: a brick with one saved and one unsaved band. *)
Definition ex_brick (m : omode) (explode : bool) (a c : list Z) : wbrick :=
  mkWbrick m DT_SHORT 2 2 2 1 0 0 1 2
    [mkWband true (` "RED") (-9999) a; mkWband false (` "TMP") (-9999) [0; 0; 0; 0]; mkWband true (` "NIR") (-9999) c]
    explode (` "X0001_Y0001") (` "20200101_BOA") (` "tif") [` "L1"].
Definition ex_world : world := mkWorld (fun _ => None) [] [].
Definition ex_path : list Z := ` "X0001_Y0001/20200101_BOA.tif".

Lemma ex_whole m x a c : m <> OPEN_FALSE -> m <> OPEN_CHUNK -> m <> OPEN_QAI_MERGE ->
  zlen a = 4 -> zlen c = 4 -> (forall v, In v (a ++ c) -> in_short v) -> whole (ex_brick m x a c).
Proof.
  intros N1 N2 N3 LA LC V. unfold whole. cbn [w_nx w_ny w_open w_bands w_type ex_brick].
  split; [lia|]. split; [lia|]. split; [exact N1|]. split; [exact N2|]. split; [|intros E; contradiction].
  intros d [<- | [<- | [<- | []]]]; cbn [wd_data]; (split; [assumption || reflexivity|]);
    intros v I; cbn [in_type]; apply in_shortb_spec.
  - apply V. apply in_or_app. left; auto.
  - cbn in I. unfold in_short. lia.
  - apply V. apply in_or_app. right; auto.
Qed.
Lemma ex_names m x a c : short_names (ex_brick m x a c) /\ distinct_names (ex_brick m x a c).
Proof.
  split.
  - intros path ds I. unfold is_file in I. cbn [w_explode ex_brick] in I. destruct x.
    + destruct I as (d & [<- | [<- | []]] & _ & ->); cbn; lia.
    + destruct I as (_ & ->). cbn. lia.
  - intros _. cbn. constructor; [intros [E | []]; discriminate|]. constructor; [intros []|constructor].
Qed.
Lemma ex_unlocked m x a c pn : unlocked (ex_brick m x a c) pn ex_world.
Proof. unfold unlocked. cbn. split; [tauto|]. split; [tauto|]. tauto. Qed.

Example C115_example : exists w', write_brick (ex_brick OPEN_MERGE false [1; 2; 3; -9999] [5; 6; 7; 8]) (` "p") ex_world = Ret (SUCCESS, w') /\
  locks w' = [] /\
  disk w' ex_path = Some (Raster (mkRaster 2 2
    [mkFband (` "RED") (Some (-9999)) [Some 1; Some 2; Some 3; Some (-9999)];
     mkFband (` "NIR") (Some (-9999)) [Some 5; Some 6; Some 7; Some 8]])).
Proof.
  destruct (C115_files_hold_bands (ex_brick OPEN_MERGE false [1; 2; 3; -9999] [5; 6; 7; 8]) (` "p") ex_world)
    as (w' & E & L & R & _).
  - apply ex_whole; try discriminate; try reflexivity. intros v I. cbn in I. unfold in_short. lia.
  - apply ex_names.
  - apply ex_names.
  - apply ex_unlocked.
  - intros path ds I. right; left. reflexivity.
  - exists w'. split; [exact E|]. split; [exact L|].
    apply (R ex_path (saved (ex_brick OPEN_MERGE false [1; 2; 3; -9999] [5; 6; 7; 8]))). split; reflexivity.
Qed.
Example C115_example_explode : exists w', write_brick (ex_brick OPEN_CREATE true [1; 2; 3; -9999] [5; 6; 7; 8]) (` "p") ex_world = Ret (SUCCESS, w') /\
  disk w' (` "X0001_Y0001/20200101_BOA_NIR.tif") = Some (Raster (mkRaster 2 2
    [mkFband (` "NIR") (Some (-9999)) [Some 5; Some 6; Some 7; Some 8]])) /\
  disk w' (` "X0001_Y0001/20200101_BOA_TMP.tif") = None /\ disk w' ex_path = None.
Proof. eexists. split; [vm_compute; reflexivity|]. split; [vm_compute; reflexivity|]. split; vm_compute; reflexivity. Qed.

Print Assumptions C115_files_hold_bands.
Print Assumptions C115_not_requested.
Print Assumptions C115_other_layout_refused.

(** ** C116: several images of the same day in one file *)

(** Any number of images written one after the other: each pixel follows the rule. *)
Theorem C116_sequence : forall b0 bs pn w, w_open b0 <> OPEN_CREATE ->
  (forall b, In b bs -> whole b /\ same_target b0 b /\ short_names b /\ distinct_names b) ->
  unlocked b0 pn w ->
  (forall b path ds, In b bs -> is_file b path ds -> disk w path = None \/
     exists r, disk w path = Some (Raster r) /\ fits b ds r) ->
  exists w', written pn bs w w' /\ locks w' = locks w /\
    forall path i p nd xs, Forall2 (fun b x => offers b path i p nd x) bs xs ->
      chain (w_open b0) nd xs (value_at w path i p) (value_at w' path i p).
Proof.
  intros b0 bs pn w NC H U A. apply images; auto.
  intros b I path ds J. destruct (A b path ds I J) as [K | K]; auto.
Qed.

(** A merged value lies between the two values, so it is never nodata if they are above it. *)
Theorem C116_average_between : forall nd now old v, now <> nd -> old <> nd ->
  combined OPEN_MERGE nd now old v -> Z.min now old <= v <= Z.max now old /\ (nd < now -> nd < old -> v <> nd).
Proof.
  intros nd now old v N O (_ & _ & C). destruct (C O N) as (C1 & C2). split; [nia|].
  intros A B. assert (Z.min now old <= v) by nia. lia.
Qed.

(** The same image again changes nothing. *)
Theorem C116_again : forall b pn w, whole b -> (w_open b = OPEN_MERGE \/ w_open b = OPEN_UPDATE) ->
  short_names b -> distinct_names b -> unlocked b pn w ->
  (forall path ds, is_file b path ds -> disk w path = None) ->
  exists w', written pn [b; b] w w' /\
    forall path i p nd x, offers b path i p nd x -> value_at w' path i p = Some x.
Proof.
  intros b pn w W M S D U A.
  destruct (images b pn ltac:(destruct M as [-> | ->]; discriminate) [b; b] w) as (w' & WR & _ & C).
  - intros b' [<- | [<- | []]]; (split; [exact W|]; split; [apply same_target_refl|]; split; assumption).
  - exact U.
  - intros b' I path ds J. right; left. apply (A path ds). destruct I as [<- | [<- | []]]; exact J.
  - exists w'. split; [exact WR|]. intros path i p nd x O.
    assert (value_at w path i p = None) as V.
    { destruct O as (ds & d & I & _). unfold value_at. rewrite (A path ds I). reflexivity. }
    specialize (C path i p nd [x; x]). rewrite V in C.
    destruct (chain_two _ _ _ _ _ (C ltac:(constructor; [exact O|constructor; [exact O|constructor]]))) as (u & -> & (K1 & K2 & K3)).
    f_equal. destruct (Z.eq_dec x nd) as [E | N]; [apply K1; exact E|].
    specialize (K3 N N). destruct M as [M | M]; rewrite M in K3; [nia|exact K3].
Qed.

(** Two images: the order does not matter. *)
Theorem C116_two_images_commute : forall b1 b2 pn w, whole b1 -> whole b2 -> same_target b1 b2 ->
  (w_open b1 = OPEN_MERGE \/ w_open b1 = OPEN_QAI_MERGE) ->
  short_names b1 -> distinct_names b1 -> short_names b2 -> distinct_names b2 -> unlocked b1 pn w ->
  (forall path ds, is_file b1 path ds -> disk w path = None) ->
  exists w1 w2, written pn [b1; b2] w w1 /\ written pn [b2; b1] w w2 /\
    forall path i p nd x y, offers b1 path i p nd x -> offers b2 path i p nd y ->
      (w_open b1 = OPEN_QAI_MERGE -> 0 <= x /\ 0 <= y) -> in_short x -> in_short y ->
      value_at w1 path i p = value_at w2 path i p.
Proof.
  intros b1 b2 pn w W1 W2 T M S1 D1 S2 D2 U A.
  assert (w_open b1 <> OPEN_CREATE) as NC by (destruct M as [-> | ->]; discriminate).
  assert (forall path ds, is_file b2 path ds -> disk w path = None) as A2.
  { intros path ds I. destruct (same_target_file b2 b1 path ds) as (ds' & I' & _); [apply same_target_sym; auto|auto|].
    eapply A; eauto. }
  destruct (images b1 pn NC [b1; b2] w) as (w1 & R1 & _ & C1).
  { intros b [<- | [<- | []]]; auto using same_target_refl. }
  { exact U. }
  { intros b [<- | [<- | []]] path ds I; right; left; eauto. }
  destruct (images b1 pn NC [b2; b1] w) as (w2 & R2 & _ & C2).
  { intros b [<- | [<- | []]]; auto using same_target_refl. }
  { exact U. }
  { intros b [<- | [<- | []]] path ds I; right; left; eauto. }
  exists w1, w2. split; [exact R1|]. split; [exact R2|].
  intros path i p nd x y OX OY Q SX SY.
  assert (value_at w path i p = None) as V.
  { destruct OX as (ds & d & I & _). unfold value_at. rewrite (A path ds I). reflexivity. }
  specialize (C1 path i p nd [x; y]). specialize (C2 path i p nd [y; x]). rewrite V in C1, C2.
  destruct (chain_two _ _ _ _ _ (C1 ltac:(constructor; [exact OX|constructor; [exact OY|constructor]]))) as (u & -> & K1).
  destruct (chain_two _ _ _ _ _ (C2 ltac:(constructor; [exact OY|constructor; [exact OX|constructor]]))) as (v & -> & K2).
  f_equal. apply (combined_fun (w_open b1) nd y x); auto.
  apply combined_swap; auto.
Qed.

(** Quality images: any number of them, in any order. *)
Theorem C116_quality_any_order : forall b0 bs bs' pn w, w_open b0 = OPEN_QAI_MERGE -> Permutation bs bs' ->
  (forall b, In b bs -> whole b /\ same_target b0 b /\ short_names b /\ distinct_names b) ->
  unlocked b0 pn w ->
  (forall b path ds, In b bs -> is_file b path ds -> disk w path = None) ->
  exists w1 w2, written pn bs w w1 /\ written pn bs' w w2 /\
    forall path i p (val : wbrick -> Z),
      (forall b, In b bs -> offers b path i p 1 (val b) /\ 0 <= val b <= 32767) ->
      value_at w1 path i p = value_at w2 path i p.
Proof.
  intros b0 bs bs' pn w M P H U A.
  assert (w_open b0 <> OPEN_CREATE) as NC by (rewrite M; discriminate).
  destruct (images b0 pn NC bs w) as (w1 & R1 & _ & C1); auto.
  { intros b I path ds J. right; left. eapply A; eauto. }
  assert (forall b, In b bs' -> In b bs) as IN by (intros b I; eapply Permutation_in; [apply Permutation_sym; exact P|exact I]).
  destruct (images b0 pn NC bs' w) as (w2 & R2 & _ & C2); auto.
  { intros b I path ds J. right; left. eapply A; eauto. }
  exists w1, w2. split; [exact R1|]. split; [exact R2|].
  intros path i p val O.
  assert (forall l, (forall b, In b l -> In b bs) -> Forall2 (fun b x => offers b path i p 1 x) l (map val l)) as F2.
  { induction l as [|b l IH]; intros K; cbn [map]; constructor.
    - apply O. apply K. left; auto.
    - apply IH. intros; apply K; right; auto. }
  specialize (C1 path i p 1 (map val bs) (F2 bs (fun _ I => I))).
  specialize (C2 path i p 1 (map val bs') (F2 bs' IN)).
  rewrite M in C1, C2.
  destruct bs as [|b bs0].
  { apply Permutation_nil in P. subst bs'. inversion R1; inversion R2; subst. reflexivity. }
  assert (value_at w path i p = None) as V.
  { destruct (O b (or_introl eq_refl)) as ((ds & d & I & _) & _). unfold value_at.
    rewrite (A b path ds (or_introl eq_refl) I). reflexivity. }
  rewrite V in C1, C2.
  assert (Forall qv (map val (b :: bs0))) as F.
  { apply Forall_forall. intros x J. apply in_map_iff in J. destruct J as (b' & <- & J). apply O. exact J. }
  rewrite (chain_fold _ None _ F I C1).
  rewrite (chain_fold _ None _ (Permutation_Forall (Permutation_map val P) F) I C2).
  apply fold_swap; auto. apply Permutation_map. exact P. exact I.
Qed.

(** Three reflectance images: the result depends on the order. *)
Theorem C116_three_images_refuted : exists pn b1 b2 b3 w w1 w2,
  whole b1 /\ whole b2 /\ whole b3 /\ same_target b1 b2 /\ same_target b1 b3 /\
  written pn [b1; b2; b3] w w1 /\ written pn [b3; b2; b1] w w2 /\
  value_at w1 ex_path 0 0 = Some 250 /\ value_at w2 ex_path 0 0 = Some 187.
Proof.
  set (b1 := ex_brick OPEN_MERGE false [100; 0; 0; 0] [0; 0; 0; 0]).
  set (b2 := ex_brick OPEN_MERGE false [200; 0; 0; 0] [0; 0; 0; 0]).
  set (b3 := ex_brick OPEN_MERGE false [350; 0; 0; 0] [0; 0; 0; 0]).
  assert (forall x, in_short x -> whole (ex_brick OPEN_MERGE false [x; 0; 0; 0] [0; 0; 0; 0])) as W.
  { intros x X. apply ex_whole; try discriminate; try reflexivity. intros v I. cbn in I.
    unfold in_short in *. lia. }
  exists (` "p"), b1, b2, b3, ex_world. eexists. eexists.
  split; [apply W; unfold in_short; lia|]. split; [apply W; unfold in_short; lia|].
  split; [apply W; unfold in_short; lia|].
  split; [unfold same_target; cbn; tauto|]. split; [unfold same_target; cbn; tauto|].
  split. { econstructor; [vm_compute; reflexivity|]. econstructor; [vm_compute; reflexivity|]. econstructor; [vm_compute; reflexivity|]. constructor. }
  split. { econstructor; [vm_compute; reflexivity|]. econstructor; [vm_compute; reflexivity|]. econstructor; [vm_compute; reflexivity|]. constructor. }
  split; reflexivity.
Qed.

Example C116_example : exists w1, written (` "p")
    [ex_brick OPEN_MERGE false [100; -9999; -9999; 7] [0; 0; 0; 0];
     ex_brick OPEN_MERGE false [205; 30; -9999; -9999] [1; 0; 0; 0]] ex_world w1 /\
  map (fun p => value_at w1 ex_path 0 p) [0; 1; 2; 3] = [Some 152; Some 30; Some (-9999); Some 7].
Proof.
  eexists. split; [econstructor; [vm_compute; reflexivity|]; econstructor; [vm_compute; reflexivity|]; constructor|]. reflexivity.
Qed.
Example C116_example_hypotheses : offers (ex_brick OPEN_MERGE false [100; -9999; -9999; 7] [0; 0; 0; 0]) ex_path 0 3 (-9999) 7 /\
  same_target (ex_brick OPEN_MERGE false [100; -9999; -9999; 7] [0; 0; 0; 0]) (ex_brick OPEN_MERGE false [205; 30; -9999; -9999] [1; 0; 0; 0]).
Proof.
  split.
  - eexists. eexists. split; [split; reflexivity|]. split; [reflexivity|]. split; reflexivity.
  - unfold same_target. cbn. tauto.
Qed.

Print Assumptions C116_sequence.
Print Assumptions C116_average_between.
Print Assumptions C116_again.
Print Assumptions C116_two_images_commute.
Print Assumptions C116_quality_any_order.
Print Assumptions C116_three_images_refuted.

(** ** C117: a tile written chunk by chunk *)

(** The first chunk first, the others in any order: every written chunk is in its place,
    whatever was in the file before. *)
Theorem C117_chunks_in_place_partial : forall t bands pn ids w,
  chunked t -> chunk_bands t bands ->
  (forall c, in_grid t c -> short_names (part t c (bands c)) /\ distinct_names (part t c (bands c))) ->
  in_grid t (0, 0) -> NoDup ((0, 0) :: ids) -> (forall c, In c ids -> in_grid t c) ->
  unlocked (part t (0, 0) (bands (0, 0))) pn w ->
  exists w', written pn (map (fun c => part t c (bands c)) ((0, 0) :: ids)) w w' /\ locks w' = locks w /\
    (forall c path ds x y j d, In c ((0, 0) :: ids) -> is_file (part t c (bands c)) path ds ->
       fst c * w_cx t <= x < fst c * w_cx t + w_cx t -> snd c * w_cy t <= y < snd c * w_cy t + w_cy t ->
       get_at ds j = Some d ->
       value_at w' path j (y * w_nx t + x) =
         get_at (wd_data d) ((y - snd c * w_cy t) * w_cx t + (x - fst c * w_cx t))) /\
    (forall n, (forall c ds, in_grid t c -> ~ is_file (part t c (bands c)) n ds) -> disk w' n = disk w n).
Proof.
  intros t bands pn ids w CH CB NM G0 ND IN U.
  destruct (all_chunks t bands pn CH CB (fun c G => proj1 (NM c G)) (fun c G => proj2 (NM c G)) ids w G0 ND IN U)
    as (w' & W & L & GD & O & _).
  exists w'. split; [exact W|]. split; [exact L|]. split; [|exact O].
  intros c path ds x y j d I F X Y GJ. exact (GD c I path ds x y j d F X Y GJ).
Qed.

Definition ex_tile : wbrick :=
  mkWbrick OPEN_CHUNK DT_SHORT 2 2 2 1 0 0 1 2 [] false (` "X0001_Y0001") (` "20200101_BOA") (` "tif") [` "L1"].
Definition ex_bands (a b : Z) : list wband := [mkWband true (` "B") (-9999) [a; b]].

(** The first chunk is not written (it has no data, so the tile starts with the second
    one): what an earlier run left in the file remains. *)
Theorem C117_skipped_first_chunk_refuted : exists pn w0 w1 w2,
  written pn [part ex_tile (0, 0) (ex_bands 1 2); part ex_tile (0, 1) (ex_bands 3 4)] ex_world w0 /\
  written pn [part ex_tile (0, 1) (ex_bands 30 40)] w0 w1 /\
  map (value_at w1 ex_path 0) [0; 1; 2; 3] = [Some 1; Some 2; Some 30; Some 40] /\
  written pn [part ex_tile (0, 1) (ex_bands 30 40)] ex_world w2 /\
  map (value_at w2 ex_path 0) [0; 1; 2; 3] = [None; None; Some 30; Some 40].
Proof.
  exists (` "p"). eexists. eexists. eexists.
  split. { econstructor; [vm_compute; reflexivity|]. econstructor; [vm_compute; reflexivity|]. constructor. }
  split. { econstructor; [vm_compute; reflexivity|]. constructor. }
  split; [reflexivity|].
  split. { econstructor; [vm_compute; reflexivity|]. constructor. }
  reflexivity.
Qed.

(** Nor does the order matter only after the first chunk: written late it erases the others. *)
Theorem C117_first_chunk_late_refuted : exists pn w1,
  written pn [part ex_tile (0, 1) (ex_bands 3 4); part ex_tile (0, 0) (ex_bands 1 2)] ex_world w1 /\
  map (value_at w1 ex_path 0) [0; 1; 2; 3] = [Some 1; Some 2; None; None].
Proof.
  exists (` "p"). eexists.
  split. { econstructor; [vm_compute; reflexivity|]. econstructor; [vm_compute; reflexivity|]. constructor. }
  reflexivity.
Qed.

Example C117_example : exists w1,
  written (` "p") [part ex_tile (0, 0) (ex_bands 1 2); part ex_tile (0, 1) (ex_bands 3 4)] ex_world w1 /\
  map (value_at w1 ex_path 0) [0; 1; 2; 3] = [Some 1; Some 2; Some 3; Some 4] /\
  chunked ex_tile /\ chunk_bands ex_tile (fun c => ex_bands (fst c) (snd c)) /\ in_grid ex_tile (0, 1).
Proof.
  eexists. split. { econstructor; [vm_compute; reflexivity|]. econstructor; [vm_compute; reflexivity|]. constructor. }
  split; [reflexivity|]. split; [unfold chunked; cbn; lia|]. split; [|unfold in_grid; cbn; lia].
  intros c _. split; [|reflexivity]. intros d [<- | []]. reflexivity.
Qed.

Print Assumptions C117_chunks_in_place_partial.
Print Assumptions C117_skipped_first_chunk_refuted.
Print Assumptions C117_first_chunk_late_refuted.

(** ** C118: concurrent writers of one file *)

(** In every reachable state the file is the result of serving those who have written one
    after the other; when all are done, of all of them. *)
Theorem C118_one_after_the_other : forall ws e s, steps ws (initial e ws) s ->
  exists l, NoDup l /\ serial ws e l (sh_file s) /\
    (forall i, In i l <-> nth_error (sh_pcs s) i = Some Written \/ nth_error (sh_pcs s) i = Some Done) /\
    ((forall i, (i < length ws)%nat -> nth_error (sh_pcs s) i = Some Done) -> Permutation l (seq 0 (length ws))).
Proof.
  intros ws e s R. destruct (cinv_reach ws e s R) as (l & [SE ND WHO IN HE RE]).
  exists l. split; [exact ND|]. split; [exact SE|].
  assert (forall i, In i l <-> nth_error (sh_pcs s) i = Some Written \/ nth_error (sh_pcs s) i = Some Done) as W.
  { intros i. rewrite WHO. split.
    - intros (p & A & B). destruct p; try discriminate; auto.
    - intros [A | A]; eexists; split; eauto. }
  split; [exact W|]. intros D. apply NoDup_Permutation; auto using seq_NoDup.
  intros i. rewrite W, in_seq. split.
  - intros [A | A]; (assert (i < length (sh_pcs s))%nat as K by (apply nth_error_Some; congruence);
      rewrite (steps_length _ _ _ R) in K; cbn in K; rewrite map_length in K; lia).
  - intros (_ & K). right. apply D. lia.
Qed.

(** In terms of pixels: if all of them are done, every pixel follows the rule of C116 in
    some order of all writers, so no writer's data are lost. *)
Theorem C118_all_data_arrive : forall b0 ws e s, w_open b0 <> OPEN_CREATE -> common_file b0 ws ->
  (e = None \/ exists r, e = Some (Raster r) /\ fits b0 (saved b0) r) ->
  steps ws (initial e ws) s ->
  (forall i, (i < length ws)%nat -> nth_error (sh_pcs s) i = Some Done) ->
  exists l, Permutation l (seq 0 (length ws)) /\
    forall i p nd xs, Forall2 (brings ws i p nd) l xs ->
      chain (w_open b0) nd xs (entry_value e i p) (entry_value (sh_file s) i p).
Proof.
  intros b0 ws e s NC CF E0 R D. destruct (C118_one_after_the_other ws e s R) as (l & _ & S & _ & P).
  exists l. split; [apply P; exact D|]. apply (serial_values b0 ws e l (sh_file s) NC CF E0 S).
Qed.

(** At most one is between taking and releasing the lock, so nobody writes between another
    one's reading and writing. *)
Theorem C118_mutual_exclusion : forall ws e s i j p q, steps ws (initial e ws) s ->
  nth_error (sh_pcs s) i = Some p -> nth_error (sh_pcs s) j = Some q ->
  (p = Locked \/ (exists r, p = Ready r) \/ p = Written) -> (q = Locked \/ (exists r, q = Ready r) \/ q = Written) ->
  i = j.
Proof.
  intros ws e s i j p q R A B P Q. destruct (cinv_reach ws e s R) as (l & [SE ND WHO IN HE RE]).
  assert (sh_lock s = Some i) as LI by (apply (IN i p A); destruct P as [-> | [(r & ->) | ->]]; reflexivity).
  assert (sh_lock s = Some j) as LJ by (apply (IN j q B); destruct Q as [-> | [(r & ->) | ->]]; reflexivity).
  congruence.
Qed.

(** Nobody waits for ever unless somebody failed: as long as no writer failed and there is
    one that has neither finished nor given up, something can happen. *)
Theorem C118_no_deadlock_partial : forall ws e s, steps ws (initial e ws) s ->
  (forall i, nth_error (sh_pcs s) i <> Some Failed) ->
  (forall b ds f, In (b, ds) ws -> exists r, content b ds f = Ret r) ->
  (forall i, (i < length ws)%nat -> nth_error (sh_pcs s) i = Some Done \/ nth_error (sh_pcs s) i = Some GaveUp) \/
  exists s', step ws s s'.
Proof.
  intros ws e s R NF DEF. destruct (cinv_reach ws e s R) as (l & [SE ND WHO IN HE RE]).
  pose proof (steps_length _ _ _ R) as LEN. cbn in LEN. rewrite map_length in LEN.
  destruct (sh_lock s) as [i|] eqn:LK.
  - right. destruct (HE i eq_refl) as (p & A & B). destruct p; try discriminate.
    + assert (i < length ws)%nat as K by (rewrite <- LEN; apply nth_error_Some; congruence).
      destruct (nth_error ws i) as [(b, ds)|] eqn:WI; [|apply nth_error_None in WI; lia].
      destruct (DEF b ds (sh_file s)) as ([(r, u)|] & C); [eapply nth_error_In; eauto| |].
      * eexists. eapply step_read; eauto.
      * eexists. eapply step_fail; eauto.
    + eexists. eapply step_write; eauto.
    + eexists. eapply step_unlock; eauto.
    + exfalso. apply (NF i A).
  - assert (forall n, (n <= length ws)%nat ->
      (forall i, (i < n)%nat -> nth_error (sh_pcs s) i = Some Done \/ nth_error (sh_pcs s) i = Some GaveUp) \/
      exists i, nth_error (sh_pcs s) i = Some Start) as G.
    { induction n as [|n IH]; intros LE; [left; intros; lia|].
      destruct IH as [IH | IH]; [lia| |right; exact IH].
      destruct (nth_error (sh_pcs s) n) as [p|] eqn:E; [|apply nth_error_None in E; lia].
      destruct p; try (pose proof (IN n _ E eq_refl); discriminate).
      - right. eauto.
      - left. intros i I. destruct (Nat.eq_dec i n) as [-> |]; [auto|apply IH; lia].
      - left. intros i I. destruct (Nat.eq_dec i n) as [-> |]; [auto|apply IH; lia]. }
    destruct (G (length ws) (le_n _)) as [A | (i & A)]; [left; exact A|].
    right. eexists. eapply step_lock; eauto.
Qed.

(** A writer that fails keeps its lock: afterwards no one else can write the file. *)
Theorem C118_failure_blocks_refuted : exists ws e s, steps ws (initial e ws) s /\
  nth_error (sh_pcs s) 0 = Some Failed /\ nth_error (sh_pcs s) 1 = Some Start /\
  (exists b ds r upd, nth_error ws 1 = Some (b, ds) /\ content b ds (sh_file s) = Ret (Some (r, upd))) /\
  forall s', steps ws s s' -> nth_error (sh_pcs s') 1 <> Some Done.
Proof.
  set (good := ex_brick OPEN_MERGE false [1; 2; 3; 4] [5; 6; 7; 8]).
  set (old := Some (Raster (fresh good (saved good)))).
  set (bad := mkWbrick OPEN_MERGE DT_SHORT 1 1 1 1 0 0 1 1 [mkWband true (` "RED") (-9999) [1]] false
    (` "X0001_Y0001") (` "20200101_BOA") (` "tif") []).
  set (ws := [(bad, saved bad); (good, saved good)]).
  exists ws, old, (mkShared old (Some 0%nat) [Failed; Start]).
  split.
  { eapply steps_trans; [eapply steps_trans; [apply steps_refl|]|].
    - apply (step_lock ws (initial old ws) 0%nat); reflexivity.
    - apply (step_fail ws (mkShared old (Some 0%nat) [Locked; Start]) 0%nat bad (saved bad)); reflexivity. }
  split; [reflexivity|]. split; [reflexivity|].
  split. { exists good, (saved good). eexists. eexists. split; reflexivity. }
  assert (forall s', steps ws (mkShared old (Some 0%nat) [Failed; Start]) s' ->
    sh_lock s' = Some 0%nat /\ nth_error (sh_pcs s') 0 = Some Failed /\
    (nth_error (sh_pcs s') 1 = Some Start \/ nth_error (sh_pcs s') 1 = Some GaveUp) /\ length (sh_pcs s') = 2%nat) as INV.
  { intros s' H. remember (mkShared old (Some 0%nat) [Failed; Start]) as s0 eqn:E. induction H as [s1|s1 t u H IH ST]; subst.
    - cbn. auto.
    - destruct (IH eq_refl) as (L & F & W & N).
      assert (forall i p, nth_error (sh_pcs t) i = Some p -> p = Failed \/ p = Start \/ p = GaveUp) as ALL.
      { intros [|[|i]] p K; [left; congruence|right; destruct W; [left|right]; congruence|].
        assert (S (S i) < length (sh_pcs t))%nat by (apply nth_error_Some; congruence). lia. }
      inversion ST; subst; cbn [sh_lock sh_pcs]; try (destruct (ALL _ _ H0) as [K | [K | K]]; discriminate K).
      + congruence.
      + split; [exact L|]. destruct i as [|[|i]].
        * congruence.
        * unfold set_pc. split; [rewrite list_set_other by lia; exact F|]. split.
          -- right. eapply list_set_same; eauto.
          -- destruct (sh_pcs t) as [|a [|b [|? ?]]]; cbn in *; try lia.
        * assert (S (S i) < length (sh_pcs t))%nat by (apply nth_error_Some; congruence). lia. }
  intros s' H K. destruct (INV s' H) as (_ & _ & [A | A] & _); congruence.
Qed.

(** The same within one process: the next image of the same file is refused too. *)
Theorem C118_failed_write_refuses_next_refuted : exists pn bad good w w1 w2,
  write_brick bad pn w = Ret (FAILURE, w1) /\
  write_brick good pn w = Ret (SUCCESS, w2) /\
  exists w3, write_brick good pn w1 = Ret (FAILURE, w3) /\ locks w3 <> [].
Proof.
  set (good := ex_brick OPEN_MERGE false [1; 2; 3; 4] [5; 6; 7; 8]).
  set (bad := mkWbrick OPEN_MERGE DT_SHORT 1 1 1 1 0 0 1 1 [mkWband true (` "RED") (-9999) [1]] false
    (` "X0001_Y0001") (` "20200101_BOA") (` "tif") []).
  exists (` "p"), bad, good, (set_disk ex_world ex_path (Raster (fresh good (saved good)))). eexists. eexists.
  split; [vm_compute; reflexivity|]. split; [vm_compute; reflexivity|]. eexists. split; [vm_compute; reflexivity|]. discriminate.
Qed.

Example C118_example : exists s,
  let b1 := ex_brick OPEN_MERGE false [10; 2; 3; 4] [5; 6; 7; 8] in
  let b2 := ex_brick OPEN_MERGE false [20; 2; 3; 4] [5; 6; 7; 8] in
  let ws := [(b1, saved b1); (b2, saved b2)] in
  steps ws (initial None ws) s /\ sh_pcs s = [Done; Done] /\
  exists r f, sh_file s = Some (Raster r) /\ get_at (r_bands r) 0 = Some f /\ get_at (fb_cells f) 0 = Some (Some 15).
Proof.
  eexists. cbv zeta. split.
  { eapply steps_trans; [eapply steps_trans; [eapply steps_trans; [eapply steps_trans; [eapply steps_trans; [eapply steps_trans; [eapply steps_trans; [eapply steps_trans; [apply steps_refl|]|]|]|]|]|]|]|].
    - apply (step_lock _ _ 1%nat); reflexivity.
    - eapply (step_read _ _ 1%nat); reflexivity.
    - eapply (step_write _ _ 1%nat); reflexivity.
    - apply (step_unlock _ _ 1%nat); reflexivity.
    - apply (step_lock _ _ 0%nat); reflexivity.
    - eapply (step_read _ _ 0%nat); reflexivity.
    - eapply (step_write _ _ 0%nat); reflexivity.
    - apply (step_unlock _ _ 0%nat); reflexivity. }
  split; [reflexivity|]. eexists. eexists. split; [reflexivity|]. split; reflexivity.
Qed.

Print Assumptions C118_one_after_the_other.
Print Assumptions C118_all_data_arrive.
Print Assumptions C118_mutual_exclusion.
Print Assumptions C118_no_deadlock_partial.
Print Assumptions C118_failure_blocks_refuted.
Print Assumptions C118_failed_write_refuses_next_refuted.

(** ** C119: failures while writing higher level products *)

(** The reported number of bytes is that of all requested products, written or not. *)
Theorem C119_reported_bytes_partial : forall dir bs pn w bytes w',
  output_higher_level dir bs pn w = Ret (bytes, w') ->
  (~ In dir (locks w) /\ bytes = requested_bytes bs) \/ (In dir (locks w) /\ bytes = 0 /\ w' = w).
Proof.
  intros dir bs pn w bytes w' E. unfold output_higher_level in E.
  destruct (in_dec (list_eq_dec Z.eq_dec) dir (locks w)) as [I | N].
  - rewrite locked_in in E by auto. inversion E; subst. right. auto.
  - rewrite locked_not in E by auto. left. split; [exact N|].
    assert (forall bs w n bytes w', write_products bs pn w n = Ret (bytes, w') -> bytes = n + requested_bytes bs) as G.
    { clear. induction bs as [|b bs IH]; intros w n bytes w' E; cbn [write_products requested_bytes] in *.
      - inversion E; subst. lia.
      - destruct (write_brick b pn w) as [s| |]; try discriminate. cbn [bind] in E.
        apply IH in E. unfold brick_size, type_size in E. destruct (w_open b), (w_type b); lia. }
    apply G in E. lia.
Qed.

(** A product that cannot be written (a stale lock) is reported as written: bytes are
    counted and the run is not flagged as empty, although no file changed. *)
Theorem C119_failure_reported_refuted : exists dir b pn w w' bytes,
  output_higher_level dir [b] pn w = Ret (bytes, w') /\ 0 < bytes /\
  (exists w2, write_brick b pn w = Ret (FAILURE, w2)) /\
  (forall n, disk w' n = disk w n) /\ disk w (file_name b []) = None /\
  handle_no_io 1 bytes false true = (SUCCESS, false).
Proof.
  exists (` "X0001_Y0001"), (part ex_tile (0, 0) (ex_bands 1 2)), (` "p"), (mkWorld (fun _ => None) [ex_path] []).
  eexists. eexists. split; [reflexivity|]. split; [reflexivity|]. split; [eexists; reflexivity|].
  split; [reflexivity|]. split; reflexivity.
Qed.

Example C119_example : exists w', output_higher_level (` "X0001_Y0001") [part ex_tile (0, 0) (ex_bands 1 2)] (` "p") ex_world = Ret (4, w') /\
  value_at w' ex_path 0 1 = Some 2.
Proof. eexists. split; reflexivity. Qed.

Print Assumptions C119_reported_bytes_partial.
Print Assumptions C119_failure_reported_refuted.

(** ** C120: provenance *)

(** Whole bricks: one line for each file, with the origins of the brick; "update" exactly
    when the content was combined with an existing file. *)
Theorem C120_one_line_per_file : forall b pn w, whole b -> short_names b -> distinct_names b -> unlocked b pn w ->
  (forall path ds, is_file b path ds -> w_open b = OPEN_CREATE \/ disk w path = None \/
     exists r, disk w path = Some (Raster r) /\ fits b ds r) ->
  w_prov b <> [] -> w_chx b <= 0 -> w_chy b <= 0 ->
  exists w' lines, write_brick b pn w = Ret (SUCCESS, w') /\ prov w' = prov w ++ lines /\
    map pl_file lines = files b /\
    forall l, In l lines -> pl_origin l = w_prov b /\
      (pl_update l = true <-> w_open b <> OPEN_CREATE /\ exists e, disk w (pl_file l) = Some e).
Proof.
  intros b pn w W S D U A NP CX CY.
  destruct (write_brick_ok b pn w W S D U A) as (w' & lines & E & _ & _ & _ & _ & P & LN).
  assert (logs b = true) as LG.
  { unfold logs. destruct (w_prov b); [congruence|]. unfold zlen. cbn [length]. lia. }
  rewrite LG in LN. destruct (lines_files b (disk w) lines LN) as (F & O).
  exists w', lines. split; [exact E|]. split; [exact P|]. split; [exact F|].
  intros l I. split; [rewrite Forall_forall in O; auto|].
  assert (exists j, In j (jobs b) /\ line_of b (disk w) j l) as (j & J & (PJ & _ & r & C)).
  { clear - LN I. induction LN as [|j l' js ls K LN IH]; [contradiction|].
    destruct I as [<- | I]; [exists j; split; [left|]; auto|].
    destruct (IH I) as (j' & ? & ?). exists j'. split; [right|]; auto. }
  pose proof (job_is_file b j J) as IF. apply path_some in PJ. rewrite <- PJ in IF.
  destruct (content_result b w (pl_file l) (snd j) W IF A) as (r' & u & C' & _ & _ & UP).
  rewrite C in C'. inversion C'; subst u. rewrite UP. unfold exists_file.
  destruct W as (_ & _ & NF & NC & _). split.
  - intros (M & X). split; [intros K; rewrite K in M; discriminate|].
    destruct (disk w (pl_file l)); [eauto|discriminate].
  - intros (N & e & X). rewrite X. split; auto. destruct (w_open b); auto; contradiction.
Qed.

(** A tile written in chunks, the first chunk first: one line for each file, once. *)
Theorem C120_one_line_per_tile_partial : forall t bands pn ids w,
  chunked t -> chunk_bands t bands ->
  (forall c, in_grid t c -> short_names (part t c (bands c)) /\ distinct_names (part t c (bands c))) ->
  in_grid t (0, 0) -> NoDup ((0, 0) :: ids) -> (forall c, In c ids -> in_grid t c) ->
  unlocked (part t (0, 0) (bands (0, 0))) pn w -> w_prov t <> [] ->
  exists w' lines, written pn (map (fun c => part t c (bands c)) ((0, 0) :: ids)) w w' /\
    prov w' = prov w ++ lines /\ map pl_file lines = files (part t (0, 0) (bands (0, 0))) /\
    forall l, In l lines -> pl_origin l = w_prov t.
Proof.
  intros t bands pn ids w CH CB NM G0 ND IN U NP.
  destruct (all_chunks t bands pn CH CB (fun c G => proj1 (NM c G)) (fun c G => proj2 (NM c G)) ids w G0 ND IN U)
    as (w' & W & L & GD & O & lines & P & F & OR).
  assert (zlen (w_prov t) >? 0 = true) as Z0 by (destruct (w_prov t); [congruence|unfold zlen; cbn [length]; lia]).
  rewrite Z0 in F. exists w', lines. split; [exact W|]. split; [exact P|]. split; [exact F|].
  rewrite Forall_forall in OR. exact OR.
Qed.

(** If the first chunk is not written, the file has no line at all. *)
Theorem C120_skipped_first_chunk_refuted : exists pn w1,
  written pn [part ex_tile (0, 1) (ex_bands 3 4)] ex_world w1 /\ w_prov ex_tile <> [] /\
  disk w1 ex_path <> None /\ lines_for ex_path w1 = [].
Proof.
  exists (` "p"). eexists. split. { econstructor; [vm_compute; reflexivity|]. constructor. }
  split; [discriminate|]. split; [discriminate|]. reflexivity.
Qed.

Example C120_example : exists w1,
  written (` "p") [ex_brick OPEN_MERGE false [1; 2; 3; 4] [5; 6; 7; 8]; ex_brick OPEN_MERGE false [1; 2; 3; 4] [5; 6; 7; 8]] ex_world w1 /\
  prov w1 = [mkPline ex_path [` "L1"] false; mkPline ex_path [` "L1"] true].
Proof.
  eexists. split; [econstructor; [vm_compute; reflexivity|]; econstructor; [vm_compute; reflexivity|]; constructor|]. reflexivity.
Qed.

Print Assumptions C120_one_line_per_file.
Print Assumptions C120_one_line_per_tile_partial.
Print Assumptions C120_skipped_first_chunk_refuted.

(** ** C121: GDAL options file *)

(** With DRIVER and EXTENSION once each and at least one option, all options arrive in the
    order of the file. *)
Theorem C121_options_kept_partial : forall file rows vd ve, Forall (fun c => c <> 0) file ->
  read_tagvalue (Some file) = Ret (Some rows) ->
  filter (fun r => streq (fst r) (` "DRIVER")) rows = [(` "DRIVER", vd)] ->
  filter (fun r => streq (fst r) (` "EXTENSION")) rows = [(` "EXTENSION", ve)] ->
  option_rows rows <> [] ->
  exists g, parse_gdaloptions (Some file) = Ret g /\ cstr_of (go_driver g) = Some vd /\ cstr_of (go_ext g) = Some ve /\
    sv_number (go_tags g) = length (option_rows rows) /\ sv_number (go_vals g) = length (option_rows rows) /\
    forall k t v, nth_error (option_rows rows) k = Some (t, v) ->
      string_at (go_tags g) k = Some t /\ string_at (go_vals g) k = Some v.
Proof. exact parse_ok. Qed.

(** A file with only DRIVER and EXTENSION, which are all that is mandatory, terminates the
    program. *)
Theorem C121_no_options_refuted : exists file rows,
  read_tagvalue (Some file) = Ret (Some rows) /\
  In (` "DRIVER", ` "GTiff") rows /\ In (` "EXTENSION", ` "tif") rows /\ option_rows rows = [] /\
  parse_gdaloptions (Some file) = Exit.
Proof.
  exists (` "DRIVER = GTiff" ++ [10] ++ ` "EXTENSION = tif" ++ [10]). eexists.
  split; [reflexivity|]. split; [left; reflexivity|]. split; [right; left; reflexivity|]. split; reflexivity.
Qed.

Example C121_example : exists g,
  parse_gdaloptions (Some (` "COMPRESS = ZSTD" ++ [10] ++ ` "DRIVER = GTiff" ++ [10] ++ ` "EXTENSION = tif" ++ [10] ++ ` "TILED=YES" ++ [10])) = Ret g /\
  cstr_of (go_driver g) = Some (` "GTiff") /\ string_at (go_tags g) 1 = Some (` "TILED") /\ string_at (go_vals g) 0 = Some (` "ZSTD").
Proof. eexists. split; [vm_compute; reflexivity|]. split; [reflexivity|]. split; reflexivity. Qed.

Print Assumptions C121_options_kept_partial.
Print Assumptions C121_no_options_refuted.
