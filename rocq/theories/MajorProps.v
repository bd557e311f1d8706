(** Majority filling of a binary image by concurrent threads. *)
From Coq Require Import Lia List.
From Verif Require Import Base BaseFacts Loops ImgSpec ImgFacts MajorModel MajorSpec MajorProofs.
Import ListNotations.
#[local] Open Scope Z_scope.

(** No schedule reads or writes outside of the image. *)
Theorem C43_safe_partial img nx ny schedule : image img nx ny -> Forall (fun p => 0 <= p < nx * ny) schedule ->
  exists st, run img nx ny schedule = Ret st /\ zlen (m_image st) = nx * ny.
Proof.
  intros HI F. destruct (run_ok img nx ny HI schedule F) as (st & E & (L & _) & _). exists st. split; [exact E|]. destruct HI as (_ & _ & LI & _). lia.
Qed.
Print Assumptions C43_safe_partial.

(** Under every schedule: TRUE pixels stay TRUE; a pixel that has become TRUE has
    at least five TRUE neighbours in the final image; a pixel that is still FALSE
    had less than five TRUE neighbours in the input. *)
Theorem C43_fill_partial img nx ny schedule st : image img nx ny -> Forall (fun p => 0 <= p < nx * ny) schedule ->
  run img nx ny schedule = Ret st -> finished st ->
  forall i j, inside nx ny i j -> exists b0 b1, pix img nx i j = Some b0 /\ pix (m_image st) nx i j = Some b1 /\
    (b0 = true -> b1 = true) /\
    (b0 = false -> b1 = true -> 5 <= around (m_image st) nx ny i j) /\
    (b1 = false -> around img nx ny i j < 5).
Proof.
  intros HI F E Fin i j I. destruct (run_ok img nx ny HI schedule F) as (st' & E' & (LG & GG) & LP & P). rewrite E in E'. injection E' as <-.
  pose proof HI as (Hx & Hy & LI & _). pose proof (index_range _ _ _ _ I) as R. set (p := nx * i + j) in *.
  assert (PD : get_at (m_phase st) p = Some Done).
  { destruct (get_at_some (m_phase st) p ltac:(lia)) as (ph & EP). rewrite EP. f_equal. unfold finished in Fin. rewrite Forall_forall in Fin. apply Fin.
    exact (get_at_In _ _ _ EP). }
  specialize (P p Done PD). cbn [pok] in P.
  assert (QD : p / nx = i /\ p mod nx = j).
  { destruct (index_split nx ny p Hx R) as (I2 & E2). exact (index_inj _ _ _ _ _ _ I2 I E2). }
  destruct QD as (Q1 & Q2). rewrite Q1, Q2 in P.
  destruct (get_at_some img p ltac:(lia)) as (b0 & E0). destruct (get_at_some (m_image st) p ltac:(lia)) as (b1 & E1).
  exists b0, b1. split; [exact E0|]. split; [exact E1|]. rewrite !around_cnt. rewrite E0, E1 in P. split; [|split].
  - intros ->. specialize (GG p E0). congruence.
  - intros -> ->. destruct P as [(A & _)|(_ & _ & A)]; [discriminate|exact A].
  - intros ->. destruct P as [(A & B)|(_ & A & _)]; [|discriminate]. injection A as <-. now apply B.
Qed.
Print Assumptions C43_fill_partial.

(** The sequential schedule completes, and fills the hole. *)
Definition holed : list bool := [false; false; true; true; false; true; true; false; true].
Example C43_example : image holed 3 3 /\ Forall (fun p => 0 <= p < 3 * 3) (sequential 9) /\
  exists st, run holed 3 3 (sequential 9) = Ret st /\ finished st /\
    m_image st = [false; false; true; true; true; true; true; true; true].
Proof.
  split; [repeat split; cbv; congruence|]. split.
  - apply Forall_forall. intros p H. unfold sequential in H. apply in_flat_map in H. destruct H as (n & Hn & H). apply repeat_spec in H. apply in_seq in Hn. lia.
  - eexists. split; [vm_compute; reflexivity|]. split; [unfold finished; cbn [m_phase]; repeat constructor|reflexivity].
Qed.

(** The result depends on the schedule: with the last row done first, the pixel
    in the last row is not filled. *)
Theorem C43_schedule_refuted : exists img nx ny s1 s2 st1 st2, image img nx ny /\
  run img nx ny s1 = Ret st1 /\ run img nx ny s2 = Ret st2 /\ finished st1 /\ finished st2 /\ m_image st1 <> m_image st2.
Proof.
  exists holed, 3, 3, (sequential 9), (rev (sequential 9)). do 2 eexists.
  split; [repeat split; cbv; congruence|]. split; [vm_compute; reflexivity|]. split; [vm_compute; reflexivity|].
  split; [unfold finished; cbn [m_phase]; repeat constructor|]. split; [unfold finished; cbn [m_phase]; repeat constructor|]. cbn [m_image]. congruence.
Qed.
Print Assumptions C43_schedule_refuted.
