(** Proofs about the files of a brick. *)
From Verif Require Import Base BaseFacts CStr Loops LoopsFacts StringModel StringProofs ChunkProofs
  QaiModel QaiSpec QaiProofs ParamProofs WrtModel WrtSpec WrtProofs.

Lemma locked_not n w : ~ In n (locks w) -> lock n w = Some (mkWorld (disk w) (n :: locks w) (prov w)).
Proof.
  intros N. unfold lock. destruct (existsb (streq n) (locks w)) eqn:E; auto.
  apply existsb_exists in E. destruct E as (m & I & E). apply streq_spec in E. subst. contradiction.
Qed.
Lemma locked_in n w : In n (locks w) -> lock n w = None.
Proof.
  intros I. unfold lock. destruct (existsb (streq n) (locks w)) eqn:E; auto.
  assert (existsb (streq n) (locks w) = true); [|congruence].
  apply existsb_exists. exists n. split; auto. apply streq_refl.
Qed.
Lemma drop_head n l : drop_lock n (n :: l) = l.
Proof. cbn [drop_lock]. rewrite streq_refl. reflexivity. Qed.

Definition logs (b : wbrick) : bool := (zlen (w_prov b) >? 0) && (w_chx b <=? 0) && (w_chy b <=? 0).

Lemma write_file_ok b pn j w path r upd : path_of b (fst j) = Some path -> ~ In path (locks w) ->
  ~ In pn (locks w) -> content b (snd j) (disk w path) = Ret (Some (r, upd)) ->
  write_file b pn j w = Ret (SUCCESS, mkWorld (put (disk w) path (Raster r)) (locks w)
    (prov w ++ if logs b then [mkPline path (w_prov b) upd] else [])).
Proof.
  intros P L LP C. unfold write_file. rewrite P, locked_not by auto. cbn [disk].
  rewrite C. cbn [bind]. unfold unlock, set_disk. cbn [disk locks prov]. rewrite drop_head.
  unfold logs. destruct ((zlen (w_prov b) >? 0) && (w_chx b <=? 0) && (w_chy b <=? 0)).
  - rewrite locked_not by auto. cbn [disk locks prov]. rewrite drop_head. reflexivity.
  - rewrite app_nil_r. reflexivity.
Qed.

Lemma put_same d n e : put d n e n = Some e.
Proof. unfold put. rewrite streq_refl. reflexivity. Qed.
Lemma put_other d n e m : m <> n -> put d n e m = d m.
Proof. intros N. unfold put. rewrite streq_neq by auto. reflexivity. Qed.

(** One line per file that is written, if origins are logged. *)
Definition line_of (b : wbrick) (d : list Z -> option entry) (j : list Z * list wband) (l : pline) : Prop :=
  path_of b (fst j) = Some (pl_file l) /\ pl_origin l = w_prov b /\
  exists r, content b (snd j) (d (pl_file l)) = Ret (Some (r, pl_update l)).

Lemma write_files_ok b pn js : forall w,
  (forall j, In j js -> exists path, path_of b (fst j) = Some path /\ ~ In path (locks w) /\
     exists r upd, content b (snd j) (disk w path) = Ret (Some (r, upd))) ->
  ~ In pn (locks w) -> NoDup (map (fun j => path_of b (fst j)) js) ->
  exists w' lines, write_files b pn js w = Ret (SUCCESS, w') /\ locks w' = locks w /\
    (forall j path r upd, In j js -> path_of b (fst j) = Some path ->
       content b (snd j) (disk w path) = Ret (Some (r, upd)) -> disk w' path = Some (Raster r)) /\
    (forall n, (forall j, In j js -> path_of b (fst j) <> Some n) -> disk w' n = disk w n) /\
    prov w' = prov w ++ lines /\
    (if logs b then Forall2 (line_of b (disk w)) js lines else lines = []).
Proof.
  induction js as [|j js IH]; intros w H LP ND; cbn [write_files map] in *.
  - exists w, []. split; [reflexivity|]. split; [reflexivity|]. split; [intros ? ? ? ? []|].
    split; [reflexivity|]. split; [rewrite app_nil_r; reflexivity|]. destruct (logs b); auto.
  - inversion ND as [|? ? NI ND']; subst.
    destruct (H j) as (path & P & L & r & upd & C); [left; auto|].
    rewrite (write_file_ok b pn j w path r upd P L LP C). cbn [bind fst snd].
    set (w1 := mkWorld _ _ _).
    assert (forall k q, In k js -> path_of b (fst k) = Some q -> q <> path) as DIF.
    { intros k q K E ->. apply NI. rewrite P, <- E. apply in_map_iff. exists k. auto. }
    destruct (IH w1) as (w' & lines & E & LK & F & O & PV & LN); [|exact LP|exact ND'|].
    { intros k K. destruct (H k) as (q & Q & QL & r' & u' & C'); [right; auto|].
      exists q. split; [exact Q|]. split; [exact QL|]. exists r', u'.
      cbn [disk w1]. rewrite put_other by (eapply DIF; eauto). exact C'. }
    exists w', ((if logs b then [mkPline path (w_prov b) upd] else []) ++ lines).
    split; [exact E|]. split; [exact LK|]. split; [|split; [|split]].
    + intros k q r' u' [<- | K] Q C'.
      * rewrite P in Q. inversion Q; subst q. rewrite C in C'. inversion C'; subst r' u'.
        rewrite O; [apply put_same|]. intros k K E'. eapply DIF; eauto.
      * apply (F k q r' u' K Q). cbn [disk w1]. rewrite put_other by (eapply DIF; eauto). exact C'.
    + intros n N. rewrite O; [cbn [disk w1]|].
      * apply put_other. intros ->. apply (N j); [left; auto|exact P].
      * intros k K. apply N. right; auto.
    + rewrite PV. cbn [prov w1]. rewrite <- app_assoc. reflexivity.
    + destruct (logs b) eqn:LG; [|subst lines; reflexivity].
      cbn [app]. constructor.
      * unfold line_of. cbn [pl_file pl_origin pl_update]. split; [exact P|]. split; [reflexivity|]. eauto.
      * assert (forall k l, In k js -> line_of b (disk w1) k l -> line_of b (disk w) k l) as G.
        { intros k l K (A & B & r' & C'). split; [exact A|]. split; [exact B|]. exists r'.
          cbn [disk w1] in C'. rewrite put_other in C' by (eapply DIF; eauto). exact C'. }
        clear - LN G. revert G. induction LN as [|k l ks ls KL LN IH]; intros G; constructor.
        -- apply G; [left; reflexivity|exact KL].
        -- apply IH. intros; apply G; [right|]; assumption.
Qed.

(** Paths. *)
Lemma path_short b s : zlen (file_name b s) < 1024 -> path_of b s = Some (file_name b s).
Proof.
  intros H. unfold path_of. fold (file_name b s).
  assert (zlen s <= zlen (file_name b s)) as G.
  { unfold file_name, zlen. rewrite !app_length. lia. }
  assert ((1024 <=? zlen s) || (1024 <=? zlen (file_name b s)) = false) as -> by lia. reflexivity.
Qed.
Lemma path_some b s p : path_of b s = Some p -> p = file_name b s.
Proof.
  unfold path_of. fold (file_name b s). destruct ((1024 <=? zlen s) || (1024 <=? zlen (file_name b s))); congruence.
Qed.
Lemma file_name_inj b s t : file_name b s = file_name b t -> s = t.
Proof.
  unfold file_name. intros E. apply app_inv_head in E. apply app_inv_head in E. apply app_inv_head in E.
  apply app_inv_tail in E. exact E.
Qed.

Lemma job_is_file b j : In j (jobs b) -> is_file b (file_name b (fst j)) (snd j).
Proof.
  unfold jobs, is_file. fold (saved b). destruct (w_explode b); intros I.
  - apply in_map_iff in I. destruct I as (d & <- & I). exists d. auto.
  - destruct I as [<- | []]. auto.
Qed.
Lemma file_job b path ds : is_file b path ds -> exists s, In (s, ds) (jobs b) /\ path = file_name b s.
Proof.
  unfold jobs, is_file. fold (saved b). destruct (w_explode b); intros H.
  - destruct H as (d & I & -> & ->). exists (95 :: wd_name d). split; auto.
    apply in_map_iff. exists d. auto.
  - destruct H as (-> & ->). exists []. split; [left|]; auto.
Qed.
Lemma jobs_nodup b : distinct_names b -> short_names b -> NoDup (map (fun j => path_of b (fst j)) (jobs b)).
Proof.
  unfold distinct_names, short_names. intros D S.
  assert (forall j, In j (jobs b) -> path_of b (fst j) = Some (file_name b (fst j))) as P.
  { intros j I. apply path_short. apply (S _ (snd j)). apply job_is_file; auto. }
  rewrite (map_ext_in _ (fun j => Some (file_name b (fst j)))) by exact P.
  unfold jobs in *. fold (saved b) in *. destruct (w_explode b).
  - rewrite map_map. cbn [fst]. specialize (D eq_refl).
    clear P S. induction (saved b) as [|d l IH]; cbn [map] in *; [constructor|].
    inversion D; subst. constructor; auto.
    rewrite in_map_iff. intros (e & E & I). inversion E as [E'].
    apply file_name_inj in E'. cbn [app] in E'. inversion E'. apply H1. rewrite in_map_iff. exists e. auto.
  - cbn. constructor; [intros []|constructor].
Qed.

Lemma saved_incl b path ds : is_file b path ds -> incl ds (w_bands b).
Proof.
  unfold is_file, saved. destruct (w_explode b); intros H d I.
  - destruct H as (e & J & -> & _). destruct I as [<- | []]. apply filter_In in J. tauto.
  - destruct H as (-> & _). apply filter_In in I. tauto.
Qed.

(** Everything the writer does when it can do it. *)
Definition line_for (b : wbrick) (w : world) (pd : list Z * list wband) (l : pline) : Prop :=
  pl_file l = fst pd /\ pl_origin l = w_prov b /\
  (pl_update l = true <-> mosaicking (w_open b) = true /\ exists_file w (fst pd) = true).

Lemma write_brick_files b pn w : short_names b -> distinct_names b -> unlocked b pn w ->
  w_open b <> OPEN_FALSE ->
  (forall path ds, is_file b path ds -> exists r upd, content b ds (disk w path) = Ret (Some (r, upd))) ->
  exists w' lines, write_brick b pn w = Ret (SUCCESS, w') /\ locks w' = locks w /\
    (forall path ds r upd, is_file b path ds -> content b ds (disk w path) = Ret (Some (r, upd)) ->
       disk w' path = Some (Raster r)) /\
    (forall n, (forall ds, ~ is_file b n ds) -> disk w' n = disk w n) /\
    prov w' = prov w ++ lines /\
    (if logs b then Forall2 (line_of b (disk w)) (jobs b) lines else lines = []).
Proof.
  intros S D (UD & UP & UF) NF C. unfold write_brick.
  assert (forall X, match w_open b with OPEN_FALSE => Ret (SUCCESS, w) | _ => X end = X) as ->
    by (intros; destruct (w_open b); auto; contradiction).
  rewrite locked_not by auto. unfold unlock. cbn [disk locks prov]. rewrite drop_head.
  replace (mkWorld (disk w) (locks w) (prov w)) with w by (destruct w; reflexivity).
  destruct (write_files_ok b pn (jobs b) w) as (w' & lines & E & L & F & O & P & LN).
  - intros j I. pose proof (job_is_file b j I) as J. exists (file_name b (fst j)).
    split; [apply path_short; eapply S; eauto|]. split; [eapply UF; eauto|]. apply C. exact J.
  - exact UP.
  - apply jobs_nodup; auto.
  - exists w', lines. split; [exact E|]. split; [exact L|]. split; [|split; [|split]]; auto.
    + intros path ds r upd I K. destruct (file_job b path ds I) as (s & J & ->).
      apply (F (s, ds) _ r upd J); [|exact K]. cbn [fst]. apply path_short. eapply S; eauto.
    + intros n N. apply O. intros j J E'. apply path_some in E'. subst n.
      apply (N (snd j)). apply job_is_file; auto.
Qed.

Definition acceptable (b : wbrick) (w : world) : Prop :=
  forall path ds, is_file b path ds -> w_open b = OPEN_CREATE \/ disk w path = None \/
    exists r, disk w path = Some (Raster r) /\ fits b ds r.

Lemma content_result b w path ds : whole b -> is_file b path ds -> acceptable b w ->
  exists r upd, content b ds (disk w path) = Ret (Some (r, upd)) /\ fits b ds r /\
    result b ds (disk w path) (Some (Raster r)) /\
    (upd = true <-> mosaicking (w_open b) = true /\ exists_file w path = true).
Proof.
  intros W I A. pose proof (saved_incl b path ds I) as IN.
  assert (w_open b = OPEN_CREATE \/ disk w path = None ->
    exists r upd, content b ds (disk w path) = Ret (Some (r, upd)) /\ fits b ds r /\
    result b ds (disk w path) (Some (Raster r)) /\
    (upd = true <-> mosaicking (w_open b) = true /\ exists_file w path = true)) as FR.
  { intros H. exists (fresh b ds), false. split; [apply content_fresh; auto; tauto|]. split; [|split].
    - destruct W as (X & Y & _ & _ & D & _). unfold fits, fresh. cbn [r_nx r_ny r_bands].
      split; auto. split; auto. split; [apply zlen_map|]. intros f J. apply in_map_iff in J.
      destruct J as (d & <- & J). cbn. rewrite zlen_map. split; [apply D; auto|].
      intros c K. apply in_map_iff in K. destruct K as (v & <- & K). exists v. split; auto.
      eapply D; eauto.
    - unfold result. destruct H as [-> | ->]; auto. destruct (w_open b); auto.
    - split; [discriminate|]. intros (M & EX). destruct H as [H | H].
      + rewrite H in M. discriminate.
      + unfold exists_file in EX. rewrite H in EX. discriminate. }
  destruct (A path ds I) as [H | [H | (r0 & H & F)]]; [apply FR; auto|apply FR; auto|].
  assert (w_open b = OPEN_CREATE \/ w_open b <> OPEN_CREATE) as [CR | CR].
  { destruct (w_open b); auto; right; discriminate. }
  { apply FR; auto. }
  destruct (content_mosaic b ds r0 W IN CR F) as (r & E & M & F').
  exists r, true. rewrite H. split; [exact E|]. split; [exact F'|]. split.
  - unfold result. destruct W as (_ & _ & NF & NC & _).
    destruct (w_open b) eqn:O; try contradiction; exists r; auto.
  - split; auto. intros _. unfold exists_file. rewrite H. split; auto.
    destruct W as (_ & _ & NF & NC & _). destruct (w_open b); auto; contradiction.
Qed.

Lemma write_brick_ok b pn w : whole b -> short_names b -> distinct_names b -> unlocked b pn w ->
  acceptable b w ->
  exists w' lines, write_brick b pn w = Ret (SUCCESS, w') /\ locks w' = locks w /\
    (forall path ds, is_file b path ds -> result b ds (disk w path) (disk w' path)) /\
    (forall path ds, is_file b path ds -> exists r, disk w' path = Some (Raster r) /\ fits b ds r) /\
    (forall n, (forall ds, ~ is_file b n ds) -> disk w' n = disk w n) /\
    prov w' = prov w ++ lines /\
    (if logs b then Forall2 (line_of b (disk w)) (jobs b) lines else lines = []).
Proof.
  intros W S D U A.
  destruct (write_brick_files b pn w S D U) as (w' & lines & E & L & F & O & P & LN).
  - apply W.
  - intros path ds I. destruct (content_result b w path ds W I A) as (r & u & E & _). eauto.
  - exists w', lines. split; [exact E|]. split; [exact L|]. split; [|split; [|split; [|split]]]; auto.
    + intros path ds I. destruct (content_result b w path ds W I A) as (r & u & C & _ & R & _).
      rewrite (F path ds r u I C). exact R.
    + intros path ds I. destruct (content_result b w path ds W I A) as (r & u & C & FT & _).
      exists r. split; [apply (F path ds r u I C)|exact FT].
Qed.

Lemma lines_files b d lines : Forall2 (line_of b d) (jobs b) lines ->
  map pl_file lines = files b /\ Forall (fun l => pl_origin l = w_prov b) lines.
Proof.
  intros F.
  assert (map pl_file lines = map (fun j => file_name b (fst j)) (jobs b) /\
    Forall (fun l => pl_origin l = w_prov b) lines) as (A & B).
  { induction F as [|j l js ls (P & O & _) F IH]; cbn [map]; [auto|].
    apply path_some in P. destruct IH as (A & B). split; [congruence|]. constructor; auto. }
  split; [|exact B]. rewrite A. unfold jobs, files. fold (saved b). destruct (w_explode b); [|reflexivity].
  rewrite map_map. reflexivity.
Qed.
