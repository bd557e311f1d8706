(** The queue of the bulk processing: C160; files of images that are processed at the same time: C161. *)
From Coq Require Import Permutation.
From Verif Require Import Base CStr CStrFacts L2qModel L2qSpec L2qProofs.

(** ** C160 *)
(** The layout of a line does not matter: blanks, tabs and carriage returns are reduced to "path status". *)
Theorem C160_layout : forall a p b s c cr, blank a -> word p -> blank b -> b <> [] -> word s -> blank c -> cr = [] \/ cr = [13] ->
  clean (a ++ p ++ b ++ s ++ c ++ cr) = line (p, s).
Proof. intros. now apply clean_ok. Qed.
Print Assumptions C160_layout.
Example C160_layout_case : clean ([9; 32] ++ `"/d/a.tar" ++ [32; 9; 32] ++ `"QUEUED" ++ [32; 32] ++ [13]) = `"/d/a.tar QUEUED".
Proof. vm_compute. reflexivity. Qed.

(** Exactly the images with the status QUEUED are processed, in the order of the file; without any, the program reports it. *)
Theorem C160_jobs : forall es, Forall (fun e => path (fst e) /\ word (snd e)) es -> Forall unambiguous es ->
  jobs (map line es) = if existsb waits es then Ret (map fst (filter waits es)) else Exit.
Proof.
  intros es P A. apply (jobs_ok (map fst es)); auto.
  - apply Forall_forall. intros e I. rewrite Forall_forall in P. split; [now apply in_map | apply (P e I)].
  - apply Forall_forall. intros p I. apply in_map_iff in I as (e & <- & I). rewrite Forall_forall in P. apply (P e I).
Qed.
Print Assumptions C160_jobs.

Definition sample : list entry := [(`"/d/a.tar", QUEUED); (`"/d/b.zip", DONE); (`"/d/c", QUEUED)].
Lemma word_dec t : (match t with [] => false | _ => negb (memz 32 t || memz 9 t || memz 13 t) end) = true -> word t.
Proof.
  destruct t as [|c t]; [discriminate|]. rewrite negb_true_iff, !orb_false_iff, !memz_false. intros ((A & B) & C). split; [discriminate | auto].
Qed.
Lemma path_dec t : (starts [47] t && match t with [] => false | _ => negb (memz 32 t || memz 9 t || memz 13 t) end && forallb (fun c => negb (memz c magic)) t) = true -> path t.
Proof.
  rewrite !andb_true_iff. intros ((A & B) & C). split; [now apply word_dec|]. split; [apply starts_spec in A as (r & ->); now exists r|].
  intros c I. rewrite forallb_forall in C. specialize (C c I). rewrite negb_true_iff, memz_false in C. exact C.
Qed.
Lemma unambiguous_dec e : (negb (contains QUEUED (fst e)) && (negb (contains QUEUED (snd e)) || if list_eq_dec Z.eq_dec (snd e) QUEUED then true else false)) = true -> unambiguous e.
Proof.
  rewrite andb_true_iff, orb_true_iff, !negb_true_iff. intros (A & B). split.
  - rewrite <- contains_spec. congruence.
  - rewrite <- contains_spec. intros C. destruct B as [B|B]; [congruence|]. destruct (list_eq_dec Z.eq_dec (snd e) QUEUED); [auto | discriminate].
Qed.
Example C160_jobs_case : jobs (map line sample) = Ret [`"/d/a.tar"; `"/d/c"] /\ Forall (fun e => path (fst e) /\ word (snd e)) sample /\ Forall unambiguous sample.
Proof.
  split; [vm_compute; reflexivity|]. split; apply Forall_forall; intros e [<-|[<-|[<-|[]]]]; try (split; [apply path_dec | apply word_dec]; vm_compute; reflexivity); apply unambiguous_dec; vm_compute; reflexivity.
Qed.

(** Every history of processed and newly queued images changes the queue as it should: the status of the image is replaced, a new image is added, every other entry stays as it was.
    Missing: paths that read like the end of another one, or contain special characters; the cleaning at the start (see below). *)
Theorem C160_history_partial : forall U w tmp es evs, apart U -> Forall path U -> good U es -> Forall (concerns U) evs ->
  run w tmp (mkState (map line es) None) evs = Some (mkState (map line (meaning w tmp es evs)) None).
Proof. intros U w tmp es evs A P G F. now apply (run_ok U). Qed.
Print Assumptions C160_history_partial.

(** Whatever the order in which the images end, and whichever of them do: their entries have their result, all others are unchanged. *)
Theorem C160_recorded_partial : forall w tmp es imgs, apart (map fst es) -> Forall (fun e => path (fst e) /\ word (snd e)) es -> incl imgs (map fst es) ->
  exists es', run w tmp (mkState (map line es) None) (map Finished imgs) = Some (mkState (map line es') None) /\
    Forall2 (fun e e' => fst e' = fst e /\ (In (fst e) imgs -> snd e' = match process w tmp (fst e) with Some st => st | None => snd e end) /\ (~ In (fst e) imgs -> snd e' = snd e)) es es'.
Proof.
  intros w tmp es imgs A P I. eexists. split.
  - apply (C160_history_partial (map fst es)); auto.
    + apply Forall_forall. intros p J. apply in_map_iff in J as (e & <- & J). rewrite Forall_forall in P. apply (P e J).
    + apply Forall_forall. intros e J. rewrite Forall_forall in P. split; [now apply in_map | apply (P e J)].
    + apply Forall_forall. intros x J. apply in_map_iff in J as (p & <- & J). exact (I p J).
  - rewrite meaning_finished. clear. induction es as [|(p, s) es IH]; constructor; auto. cbn [fst snd]. split; auto.
    destruct (in_dec (list_eq_dec Z.eq_dec) p imgs); tauto.
Qed.
Print Assumptions C160_recorded_partial.

(** A run that is stopped can be taken up again: the images that had not ended are processed, and no other. *)
Theorem C160_resume_partial : forall w tmp es imgs, apart (map fst es) -> Forall (fun e => path (fst e) /\ word (snd e)) es -> Forall unambiguous es ->
  incl imgs (map fst es) -> (forall p, In p imgs -> process w tmp p <> None) ->
  exists lines, run w tmp (mkState (map line es) None) (map Finished imgs) = Some (mkState lines None) /\
    let left := filter (fun e => waits e && if in_dec (list_eq_dec Z.eq_dec) (fst e) imgs then false else true) es in
    jobs lines = match left with [] => Exit | _ => Ret (map fst left) end.
Proof.
  intros w tmp es imgs A P Un I Pr. set (U := map fst es).
  assert (PU : Forall path U) by (apply Forall_forall; intros p J; apply in_map_iff in J as (e & <- & J); rewrite Forall_forall in P; apply (P e J)).
  assert (G : good U es) by (apply Forall_forall; intros e J; rewrite Forall_forall in P; split; [now apply in_map | apply (P e J)]).
  assert (Co : Forall (concerns U) (map Finished imgs)) by (apply Forall_forall; intros x J; apply in_map_iff in J as (p & <- & J); exact (I p J)).
  destruct (run_ok U w tmp None A PU (map Finished imgs) es G Co) as (R & G2). eexists. split; [exact R|]. cbv zeta.
  rewrite (jobs_ok U); auto.
  - rewrite meaning_finished. assert (H : forall e, In e es -> In (fst e) imgs -> exists st, process w tmp (fst e) = Some st /\ st <> QUEUED).
    { intros e J K. specialize (Pr _ K). destruct (process w tmp (fst e)) as [st|] eqn:E; [|congruence]. exists st. split; auto. apply status_unambiguous. eapply process_status, E. }
    clear - H. set (f := fun e : list Z * text => _) at 1 2. set (keep := fun e : entry => waits e && _).
    assert (W : forall e, In e es -> waits (f e) = keep e /\ fst (f e) = fst e).
    { intros (p, s) J. subst f keep. cbn [fst snd]. destruct (in_dec (list_eq_dec Z.eq_dec) p imgs) as [K|K].
      - destruct (H _ J K) as (st & E & N). cbn [fst] in E. rewrite E, andb_false_r. split; auto. unfold waits. cbn [snd]. destruct (list_eq_dec Z.eq_dec st QUEUED); congruence.
      - rewrite andb_true_r. auto. }
    assert (Fil : map fst (filter waits (map f es)) = map fst (filter keep es) /\ existsb waits (map f es) = match filter keep es with [] => false | _ => true end).
    { clear H. induction es as [|e es IH]; [auto|]. destruct IH as (E1 & E2); [intros; apply W; now right|]. destruct (W e (or_introl eq_refl)) as (W1 & W2).
      cbn [map filter existsb]. rewrite W1. destruct (keep e); cbn [map orb]; [split; [f_equal; assumption | reflexivity] | auto]. }
    destruct Fil as (E1 & E2). rewrite E1, E2. destruct (filter keep es); reflexivity.
  - rewrite meaning_finished. apply Forall_forall. intros e J. apply in_map_iff in J as ((p, s) & <- & J). rewrite Forall_forall in Un. destruct (Un _ J) as (U1 & U2). cbn [fst snd] in *.
    split; cbn [fst snd]; [exact U1|]. match goal with |- context [in_dec ?d ?x ?l] => destruct (in_dec d x l) as [K|K] end; [|exact U2].
    destruct (process w tmp p) as [st|] eqn:E; [|exact U2].
    intros O. exfalso. destruct (status_unambiguous st (process_status _ _ _ _ E)) as (N & _). exact (N O).
Qed.
Print Assumptions C160_resume_partial.

(** After a complete run over images that exist, nothing is left to do. *)
Corollary C160_complete_partial : forall w tmp es imgs, apart (map fst es) -> Forall (fun e => path (fst e) /\ word (snd e)) es -> Forall unambiguous es ->
  jobs (map line es) = Ret imgs -> (forall p, In p imgs -> process w tmp p <> None) -> forall order, Permutation imgs order ->
  exists lines, run w tmp (mkState (map line es) None) (map Finished order) = Some (mkState lines None) /\ jobs lines = Exit.
Proof.
  intros w tmp es imgs A P Un J Pr order O. rewrite C160_jobs in J by auto. destruct (existsb waits es); [|discriminate]. injection J as <-.
  destruct (C160_resume_partial w tmp es order) as (lines & R & L); auto.
  - intros p I. apply (Permutation_in _ (Permutation_sym O)) in I. apply in_map_iff in I as (e & <- & I). apply filter_In in I. now apply in_map.
  - intros p I. apply Pr. eapply Permutation_in; [apply Permutation_sym, O | exact I].
  - exists lines. split; auto. cbv zeta in L. rewrite L. clear L.
    assert (N : filter (fun e => waits e && (if in_dec (list_eq_dec Z.eq_dec) (fst e) order then false else true)) es = []); [|rewrite N; reflexivity].
    assert (H : forall e, In e es -> waits e = true -> In (fst e) order) by (intros e I W; eapply Permutation_in; [exact O|]; apply in_map, filter_In; auto).
    clear - H. induction es as [|e es IH]; [reflexivity|]. cbn [filter]. rewrite IH by (intros; apply H; auto; now right).
    destruct (waits e) eqn:W; [|reflexivity]. destruct (in_dec (list_eq_dec Z.eq_dec) (fst e) order) as [|N]; [reflexivity | exfalso; apply N, H; auto; now left].
Qed.
Print Assumptions C160_complete_partial.

(** The sample queue meets the hypotheses. *)
Definition fine : world := mkWorld (fun _ => true) (fun _ => true) (fun _ => true) (fun d => ends (`"a") d).
Lemma apart_dec ps : forallb (fun p => forallb (fun q => (if list_eq_dec Z.eq_dec p q then true else false) || forallb (fun n => match match_at p (skipn n q) with Some [] => false | _ => true end) (seq 0 (S (length q)))) ps) ps = true -> apart ps.
Proof.
  intros H p q a b P Q E R. rewrite forallb_forall in H. specialize (H p P). rewrite forallb_forall in H. specialize (H q Q). rewrite orb_true_iff in H. destruct H as [H|H].
  - destruct (list_eq_dec Z.eq_dec p q); [auto | discriminate].
  - rewrite forallb_forall in H. specialize (H (length a)). assert (S : skipn (length a) q = b) by (subst q; rewrite skipn_app, skipn_all, Nat.sub_diag; reflexivity).
    rewrite S in H. assert (M : match_at p b = Some []) by (apply match_at_spec; exists b; rewrite app_nil_r; auto). rewrite M in H. exfalso. assert (false = true); [|discriminate]. apply H. apply in_seq. subst q. rewrite app_length. lia.
Qed.
Example C160_case : apart (map fst sample) /\ run fine (`"/t") (mkState (map line sample) None) [Finished (`"/d/c"); Finished (`"/d/a.tar")] =
  Some (mkState [`"/d/a.tar DONE"; `"/d/b.zip DONE"; `"/d/c FAIL"] None).
Proof. split; [apply apart_dec; vm_compute; reflexivity | vm_compute; reflexivity]. Qed.

(** An image that does not exist is not marked: it stays QUEUED. *)
Theorem C160_missing_refuted : exists w tmp, let es := [(`"/d/a.tar", QUEUED)] in
  jobs (map line es) = Ret [`"/d/a.tar"] /\ run w tmp (mkState (map line es) None) [Finished (`"/d/a.tar")] = Some (mkState (map line es) None).
Proof. exists (mkWorld (fun _ => false) (fun _ => false) (fun _ => false) (fun _ => false)), (`"/t"). vm_compute. auto. Qed.
(** The result of an image overwrites that of another one whose path ends with the path of the first: a failed image is reported as done. *)
Theorem C160_suffix_refuted : exists w tmp, process w tmp (`"/mnt/d/a") = Some FAIL /\
  run w tmp (mkState [`"/mnt/d/a QUEUED"; `"/d/a QUEUED"] None) [Finished (`"/mnt/d/a"); Finished (`"/d/a")] = Some (mkState [`"/mnt/d/a DONE"; `"/d/a DONE"] None).
Proof. exists (mkWorld (fun _ => true) (fun _ => true) (fun _ => true) (fun d => starts (`"/d") d)), (`"/t"). vm_compute. auto. Qed.
(** An image in a directory whose name contains QUEUED is taken for queued when it is done, and looked for elsewhere. *)
Theorem C160_name_refuted : jobs (map line [(`"/QUEUED/a", DONE)]) = Exit /\ jobs (map line [(`"/QUEUED/a", QUEUED)]) = Ret [`"//a"].
Proof. vm_compute. auto. Qed.
(** A plus in the path: the result is never recorded. *)
Theorem C160_plus_refuted : exists w tmp, process w tmp (`"/d/a+b") = Some DONE /\
  run w tmp (mkState [`"/d/a+b QUEUED"] None) [Finished (`"/d/a+b")] = Some (mkState [`"/d/a+b QUEUED"] None).
Proof. exists (mkWorld (fun _ => true) (fun _ => true) (fun _ => true) (fun _ => true)), (`"/t"). vm_compute. auto. Qed.
(** The cleaning takes no lock: an image that is queued meanwhile is lost. *)
Theorem C160_unlocked_refuted : forall w tmp, run w tmp (mkState [`"/d/a QUEUED"] None) [Clean_begins; Enqueued (`"/d/b"); Clean_ends] = Some (mkState [`"/d/a QUEUED"] None).
Proof. intros. vm_compute. reflexivity. Qed.

(** ** C161 *)
(** Two images share their log exactly if they have the same base name. *)
Theorem C161_log : forall d p q, log_of d p = log_of d q <-> base p = base q.
Proof.
  intros d p q. unfold log_of. split; [|intros ->; reflexivity]. intros E. apply app_inv_head in E. apply app_inv_head in E. apply app_inv_tail in E. exact E.
Qed.
Print Assumptions C161_log.

Lemma subst_erase w : forall l k, subst w [] k l = erase w k l.
Proof. induction l as [|c t IH]; intros k; [reflexivity|]. cbn [subst erase]. destruct k; [|apply IH]. destruct (starts w (c :: t)); [apply IH | f_equal; apply IH]. Qed.
(** The part of an archive's name in front of the extension, which has the extension only there. *)
Definition stem (x img s : text) : Prop := base img = s ++ x /\ forall a b, s ++ x = a ++ x ++ b -> a = s.
Lemma extract_tar tmp p s : ends (`".tar.gz") p = false -> ends (`".tar") p = true -> stem (`".tar") p s -> extract_of tmp p = tmp ++ [47] ++ s.
Proof.
  intros G T (B & O). unfold extract_of. rewrite G, T, B, subst_erase. do 2 f_equal. rewrite erase_clean.
  - replace (erase _ 0 _) with (@nil Z) by (vm_compute; reflexivity). apply app_nil_r.
  - intros a b E L. apply not_true_iff_false. intros St. apply starts_spec in St as (r & ->). rewrite (O a r E) in L. lia.
Qed.
Lemma extract_gz tmp p s : ends (`".tar.gz") p = true -> stem (`".tar.gz") p s -> extract_of tmp p = tmp ++ [47] ++ s.
Proof.
  intros G (B & O). unfold extract_of. rewrite G, B, subst_erase. do 2 f_equal. rewrite erase_clean.
  - replace (erase _ 0 _) with (@nil Z) by (vm_compute; reflexivity). apply app_nil_r.
  - intros a b E L. apply not_true_iff_false. intros St. apply starts_spec in St as (r & ->). rewrite (O a r E) in L. lia.
Qed.
(** Landsat archives of one kind with different names are unpacked into different directories. Missing: zip archives; see the refutations for equal names and different kinds. *)
Theorem C161_directories_partial : forall tmp p q s t,
  (ends (`".tar.gz") p = true /\ ends (`".tar.gz") q = true /\ stem (`".tar.gz") p s /\ stem (`".tar.gz") q t \/
   ends (`".tar.gz") p = false /\ ends (`".tar.gz") q = false /\ ends (`".tar") p = true /\ ends (`".tar") q = true /\ stem (`".tar") p s /\ stem (`".tar") q t) ->
  extract_of tmp p = extract_of tmp q <-> base p = base q.
Proof.
  intros tmp p q s t H. assert (exists x, base p = s ++ x /\ base q = t ++ x /\ extract_of tmp p = tmp ++ [47] ++ s /\ extract_of tmp q = tmp ++ [47] ++ t) as (x & -> & -> & -> & ->).
  { destruct H as [(A & B & C & D)|(A & A' & B & B' & C & D)]; eexists; split; [apply C | | apply C |]; split; try apply D; split; (now apply extract_gz) || (now apply extract_tar). }
  split.
  - intros E. apply app_inv_head in E. apply app_inv_head in E. now rewrite E.
  - intros E. apply app_inv_tail in E. now rewrite E.
Qed.
Print Assumptions C161_directories_partial.
Example C161_directories_case : extract_of (`"/t") (`"/d/LC08.tar") = `"/t/LC08" /\ extract_of (`"/t") (`"/d/LC09.tar") = `"/t/LC09" /\ ends (`".tar") (`"/d/LC08.tar") = true /\ base (`"/d/LC08.tar") = `"LC08" ++ `".tar".
Proof. vm_compute. auto. Qed.

(** Images of the same name in different directories share directory and log: one removes the files the other one is reading. *)
Theorem C161_same_name_refuted : exists tmp d p q, p <> q /\ extract_of tmp p = extract_of tmp q /\ log_of d p = log_of d q.
Proof. exists (`"/t"), (`"/l"), (`"/a/x.tar"), (`"/b/x.tar"). split; [vm_compute; congruence | vm_compute; auto]. Qed.
(** Different kinds of archives of one image share the directory, though not the log. *)
Theorem C161_kinds_refuted : exists tmp d p q, base p <> base q /\ extract_of tmp p = extract_of tmp q /\ log_of d p <> log_of d q.
Proof. exists (`"/t"), (`"/l"), (`"/a/x.tar"), (`"/a/x.tar.gz"). vm_compute. repeat split; congruence. Qed.
