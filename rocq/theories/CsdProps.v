(** Download of Level 1 images: choice of scenes (C162) and resumption (C163). *)
From Verif Require Import Base CStr CsdModel CsdSpec CsdProofs.
From Coq Require Import Sorting.Sorted Arith.

(** ** C162 *)
(** Sentinel-2: for every tile and day with a scene that satisfies the query, exactly one scene is chosen, in its newest version.  Missing: scenes of one tile and day that were sensed at different times. *)
Theorem C162_sentinel2_partial : forall q catalogue, chooses same_tile_and_day q catalogue (select_s2 q catalogue).
Proof.
  intros q cat. apply select_ok. intros s t _ _. unfold key_s2, same_tile_and_day. split; [intros E; injection E; auto | intros (-> & ->); reflexivity].
Qed.
Print Assumptions C162_sentinel2_partial.
(** Landsat: likewise for path, row and day, if the numbers of paths and rows are written in a way in which one after the other can be told apart, like three digits each. *)
Theorem C162_landsat_partial : forall q catalogue,
  (forall s t, In s catalogue -> In t catalogue -> c_tile s ++ c_row s = c_tile t ++ c_row t -> c_tile s = c_tile t) ->
  chooses same_row_and_day q catalogue (select_landsat q catalogue).
Proof.
  intros q cat H. apply select_ok. intros s t Is It. unfold key_landsat, same_row_and_day. split; [|intros (-> & -> & ->); reflexivity].
  intros E. injection E as Et Ed. specialize (H s t Is It Et). rewrite H in Et. apply app_inv_head in Et. auto.
Qed.
Print Assumptions C162_landsat_partial.
Corollary C162_landsat_padded_partial : forall q catalogue, Forall (fun s => length (c_tile s) = 3%nat) catalogue -> chooses same_row_and_day q catalogue (select_landsat q catalogue).
Proof.
  intros q cat F. apply C162_landsat_partial. intros s t Is It E. rewrite Forall_forall in F. pose proof (F s Is) as Ls. pose proof (F t It) as Lt.
  revert Ls Lt E. destruct (c_tile s) as [|a [|b [|c [|]]]]; try discriminate. destruct (c_tile t) as [|a' [|b' [|c' [|]]]]; try discriminate.
  intros _ _ E. cbn in E. congruence.
Qed.
Print Assumptions C162_landsat_padded_partial.
Definition everything : query := mkQuery (fun _ => true) 20200101 20201231 0 50.
Example C162_case : map c_id (select_s2 everything [mkScene 1 (`"33UUU") [] 20200502 100 10 2; mkScene 2 (`"33UUU") [] 20200502 100 10 3; mkScene 3 (`"33UUU") [] 20200401 100 50 1; mkScene 4 (`"33UUU") [] 20200601 100 51 1; mkScene 5 (`"33UVU") [] 20200502 100 0 1]) = [3; 2; 5].
Proof. vm_compute. reflexivity. Qed.
(** Two Sentinel-2 scenes of one tile that were sensed at different times of one day: one is left out. *)
Theorem C162_same_day_refuted : exists a b, c_tile a = c_tile b /\ c_time a <> c_time b /\ satisfies everything a /\ satisfies everything b /\ map c_id (select_s2 everything [a; b]) = [c_id b].
Proof.
  exists (mkScene 1 (`"33XWJ") [] 20200601 41000 0 2), (mkScene 2 (`"33XWJ") [] 20200601 47000 0 3). repeat split; try (vm_compute; congruence).
Qed.
(** Path 1, row 72 and path 17, row 2, which are sensed on the same day, without leading zeros: one is left out. *)
Theorem C162_concatenated_refuted : exists a b, c_tile a <> c_tile b /\ c_row a <> c_row b /\ satisfies everything a /\ satisfies everything b /\ map c_id (select_landsat everything [a; b]) = [c_id b].
Proof.
  exists (mkScene 1 (`"1") (`"72") 20200601 0 0 1), (mkScene 2 (`"17") (`"2") 20200601 0 0 2). repeat split; try (vm_compute; congruence).
Qed.

(** ** C163 *)
(** A run that is stopped any number of times and started again. *)
Fixpoint restarted (n : Z -> nat) (links : list Z) (p : state) (ks : list nat) : state :=
  match ks with [] => completed n links p | k :: t => restarted n links (stopped n links p k) t end.
(** Each stop happens while a file is transferred, after a scene was queued, or before anything. *)
Fixpoint gentle (n : Z -> nat) (links : list Z) (p : state) (ks : list nat) : Prop :=
  match ks with [] => True | k :: t => harmless (firstn k (download n links p)) /\ gentle n links (stopped n links p k) t end.
(** Whatever the stops: a scene is only queued when it was not in the pool before and all its files are there. *)
Theorem C163_queued_complete : forall n links, (forall s, (0 < n s)%nat) -> NoDup links -> forall ks p,
  exists new, p_queue (restarted n links p ks) = p_queue p ++ new /\ incl new links /\ forall s, In s new -> (n s <= p_files (restarted n links p ks) s)%nat.
Proof.
  intros n links Pn N. assert (Fin : forall p, exists new, p_queue (completed n links p) = p_queue p ++ new /\ incl new links /\ (forall s, In s new -> (n s <= p_files (completed n links p) s)%nat) /\ (forall s, (p_files p s <= p_files (completed n links p) s)%nat)).
  { intros p. destruct (stopped_sound n links p (length (download n links p)) Pn N) as (new & Q & I & F & M). unfold stopped in *. rewrite firstn_all in *. exists new. split; auto. split; [|split; auto].
    intros s J. apply I in J. unfold missing in J. apply filter_In in J. tauto. }
  assert (Gen : forall ks p, exists new, p_queue (restarted n links p ks) = p_queue p ++ new /\ incl new links /\ (forall s, In s new -> (n s <= p_files (restarted n links p ks) s)%nat) /\ (forall s, (p_files p s <= p_files (restarted n links p ks) s)%nat)).
  { induction ks as [|k ks IH]; intros p; cbn [restarted]; [apply Fin|]. destruct (stopped_sound n links p k Pn N) as (n1 & Q1 & I1 & F1 & M1). destruct (IH (stopped n links p k)) as (n2 & Q2 & I2 & F2 & M2).
    exists (n1 ++ n2). rewrite Q2, Q1, app_assoc. split; auto. split; [|split].
    - apply incl_app; auto. intros s J. apply I1 in J. unfold missing in J. apply filter_In in J. tauto.
    - intros s J. apply in_app_or in J as [J|J]; [|now apply F2]. etransitivity; [apply F1; exact J | apply M2].
    - intros s. etransitivity; [apply M1 | apply M2]. }
  intros ks p. destruct (Gen ks p) as (new & A & B & C & _). eauto.
Qed.
Print Assumptions C163_queued_complete.
(** Without stops, or with stops that leave a trace, every scene that was not in the pool is queued exactly once, in order, and all scenes are in the pool.
    Missing: stops between two files, or between the last file and the queue. *)
Theorem C163_resume_partial : forall n links, (forall s, (0 < n s)%nat) -> NoDup links -> forall ks p, gentle n links p ks ->
  p_queue (restarted n links p ks) = p_queue p ++ missing links p /\ forall s, In s links -> present (restarted n links p ks) s = true.
Proof.
  intros n links Pn N. induction ks as [|k ks IH]; intros p G; cbn [restarted gentle] in *; [now apply completed_queue|].
  destruct G as (H & G). destruct (IH _ G) as (Q & Pr). split; auto. rewrite Q. now apply stopped_keeps.
Qed.
Print Assumptions C163_resume_partial.
Definition empty_pool : state := mkPool (fun _ => 0%nat) (fun _ => false) [].
Example C163_case : gentle (fun _ => 2%nat) [7; 8] empty_pool [3; 6]%nat /\ p_queue (restarted (fun _ => 2%nat) [7; 8] empty_pool [3; 6]%nat) = [7; 8].
Proof.
  split; [|vm_compute; reflexivity]. cbn [gentle]. split; [|split; auto].
  - right. exists [Begin_file 7; File 7 1], 7. left. vm_compute. reflexivity.
  - right. exists [Begin_file 7; File 7 1; Begin_file 7; File 7 2; Queue 7], 8. left. vm_compute. reflexivity.
Qed.
(** A run that stops between the download and the queue: the scene is never queued. *)
Theorem C163_unqueued_refuted : forall more, let n := fun _ => 2%nat in let p := stopped n [7] empty_pool 4 in
  p_files p 7 = 2%nat /\ p_queue (restarted n [7] p (repeat 9%nat more)) = [].
Proof.
  intros more. cbv zeta. split; [vm_compute; reflexivity|]. set (p := stopped _ _ _ _). assert (D : download (fun _ => 2%nat) [7] p = []) by (vm_compute; reflexivity).
  induction more as [|m IH]; cbn [repeat restarted].
  - unfold completed. rewrite D. vm_compute. reflexivity.
  - unfold stopped. rewrite D. exact IH.
Qed.
(** A run that stops between two files: the scene is taken for complete, neither downloaded nor queued again. *)
Theorem C163_truncated_refuted : forall more, let n := fun _ => 2%nat in let p := stopped n [7] empty_pool 2 in
  p_queue (restarted n [7] p (repeat 9%nat more)) = [] /\ p_files (restarted n [7] p (repeat 9%nat more)) 7 = 1%nat.
Proof.
  intros more. cbv zeta. set (p := stopped _ _ _ _). assert (D : download (fun _ => 2%nat) [7] p = []) by (vm_compute; reflexivity).
  induction more as [|m IH]; cbn [repeat restarted].
  - unfold completed. rewrite D. vm_compute. auto.
  - unfold stopped. rewrite D. exact IH.
Qed.
