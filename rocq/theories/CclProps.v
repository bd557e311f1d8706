(** Connected component labelling. *)
From Coq Require Import Lia List.
From Verif Require Import Base BaseFacts Loops LoopsFacts ImgSpec ImgFacts CclModel CclSpec CclProofs.
Import ListNotations.
#[local] Open Scope Z_scope.

Lemma zeros_px nx ny y x : inside nx ny y x -> px nx (repeat 0 (Z.to_nat (nx * ny))) y x = 0.
Proof.
  intros I. pose proof (index_range _ _ _ _ I). unfold px, pix.
  destruct (get_at_some (repeat 0 (Z.to_nat (nx * ny))) (nx * y + x)) as (v & E); [unfold zlen; rewrite repeat_length; lia|].
  rewrite E. apply get_at_In, repeat_spec in E. exact E.
Qed.
Lemma zeros_len nx ny : 0 <= nx * ny -> zlen (repeat 0 (Z.to_nat (nx * ny))) = nx * ny.
Proof. intros H. unfold zlen. rewrite repeat_length. lia. Qed.

(** For every image the labelling never leaves its arrays.  When it ends,
    background pixels are 0, foreground pixels have a label from 1 to the returned
    number, and pixels with equal labels are 8-connected by TRUE pixels.
    Missing: that the contour following ends, and that connected pixels have equal
    labels. *)
Theorem C42_labels_partial img nx ny fuel : image img nx ny ->
  yields (fun r => zlen (snd r) = nx * ny /\
    (forall y x, inside nx ny y x -> exists v, pix (snd r) nx y x = Some v /\
       (is_true img nx ny y x -> 1 <= v <= fst r) /\ (~ is_true img nx ny y x -> v = 0)) /\
    (forall y x y' x' v, is_true img nx ny y x -> is_true img nx ny y' x' ->
       pix (snd r) nx y x = Some v -> pix (snd r) nx y' x' = Some v -> connected img nx ny y x y' x'))
  (connectedcomponents fuel img (repeat 0 (Z.to_nat (nx * ny))) nx ny).
Proof.
  intros HI. pose proof HI as (Hx & Hy & LI & _).
  eapply yields_weaken; [apply (components_ok img nx ny HI fuel); [apply zeros_len; nia|intros y x I; now apply zeros_px]|].
  intros (k & l) ((K & L & B & T & D & S) & Z0). cbn [fst snd] in *. split; [exact L|]. split.
  - intros y x I. exists (px nx l y x). split; [exact (px_pix nx ny l y x L I)|]. split.
    + intros Tr. pose proof (T y x Tr). pose proof (index_range _ _ _ _ I). specialize (D y x Tr ltac:(lia)). lia.
    + intros N. now apply Z0.
  - intros y x y' x' v Tr Tr' E E'. pose proof (index_range _ _ _ _ (proj1 Tr)).
    pose proof (D y x Tr ltac:(lia)) as P. unfold px in P. rewrite E in P. apply S; [exact Tr|exact Tr'| |]; unfold px; rewrite E; [exact P|now rewrite E'].
Qed.
Print Assumptions C42_labels_partial.

(** Objects: the first pixel is background; only pixels of the input are kept; if
    there are objects, every size is the number of pixels with that label. *)
Theorem C42_objects_partial img nx ny nmin fuel : image img nx ny ->
  yields (fun r => let '(out, no, res) := r in
    zlen out = nx * ny /\ get_at out 0 = Some false /\ (forall p, get_at out p = Some true -> get_at img p = Some true) /\
    match res with
    | None => no = 0
    | Some (obj, size) => 0 < no /\ zlen obj = nx * ny /\ zlen size = no /\
        (forall id, 1 <= id <= no -> get_at size (id - 1) = Some (label_count obj id)) /\
        (forall p, get_at out p = Some false -> get_at obj p = Some 0) /\
        (forall p, get_at out p = Some true -> exists id, get_at obj p = Some id /\ 1 <= id <= no)
    end)
  (binary_to_objects fuel img nx ny nmin).
Proof.
  intros HI. pose proof HI as (Hx & Hy & LI & Hm). unfold binary_to_objects.
  assert (ES : set_at img 0 false = Some (list_set img (Z.to_nat 0) false)) by (apply set_at_some; nia).
  rewrite ES. cbn [of_option bind]. set (img0 := list_set img (Z.to_nat 0) false) in *.
  assert (L0 : zlen img0 = nx * ny) by (rewrite (set_at_length _ _ _ _ ES); exact LI).
  assert (HI0 : image img0 nx ny) by (split; [exact Hx|split; [exact Hy|split; [exact L0|exact Hm]]]).
  assert (P0 : get_at img0 0 = Some false) by exact (get_set_same _ _ _ _ ES).
  assert (SUB : forall p, get_at img0 p = Some true -> get_at img p = Some true).
  { intros p E. destruct (Z.eq_dec p 0) as [->|N]; [congruence|]. rewrite (get_set_other _ _ _ p _ ES) in E by auto. exact E. }
  eapply yields_bind; [apply (components_ok img0 nx ny HI0 fuel); [apply zeros_len; nia|intros y x I; now apply zeros_px]|].
  intros (k & l) (SD & Z0). cbn [fst snd] in *. pose proof SD as (K & L & _). destruct (Z.gtb_spec k 0) as [G|G].
  2: { cbn [yields]. split; [exact L0|]. split; [exact P0|]. split; [exact SUB|lia]. }
  destruct (count_sizes_ok img0 nx ny HI0 k l SD) as (ccs & -> & LC & _). cbn [bind].
  destruct (drop_small_ok img0 nx ny k l ccs nmin HI0 SD LC) as (im & -> & LM & SUB2). cbn [bind].
  assert (HM : image im nx ny) by (split; [exact Hx|split; [exact Hy|split; [exact LM|exact Hm]]]).
  assert (P1 : get_at im 0 = Some false).
  { destruct (get_at_some im 0 ltac:(nia)) as ([] & E); [apply SUB2 in E; congruence|exact E]. }
  eapply yields_bind; [apply (components_ok im nx ny HM fuel); [apply zeros_len; nia|intros y x I; now apply zeros_px]|].
  intros (k2 & l2) (SD2 & Z2). cbn [fst snd] in *. pose proof SD2 as (K2 & L2 & B2 & T2 & D2 & _). destruct (Z.gtb_spec k2 0) as [G2|G2].
  2: { cbn [yields]. split; [exact LM|]. split; [exact P1|]. split; [intros p E; now apply SUB, SUB2|lia]. }
  rewrite (clear_ok im nx ny l2 HM L2 Z2). cbn [bind].
  destruct (count_sizes_ok im nx ny HM k2 l2 SD2) as (ccs2 & -> & LC2 & V2). cbn [bind yields].
  split; [exact LM|]. split; [exact P1|]. split; [intros p E; now apply SUB, SUB2|]. split; [exact G2|]. split; [exact L2|]. split; [exact LC2|]. split; [|split].
  - intros id Hid. rewrite V2 by exact Hid. f_equal. apply (true_count_label im nx ny HM); [exact L2|exact Z2|lia].
  - intros p E. pose proof (get_at_inv _ _ _ E) as R. destruct (index_split nx ny p Hx ltac:(lia)) as (I & EP).
    assert (NT : ~ is_true im nx ny (p / nx) (p mod nx)) by (intros (_ & X); unfold pix in X; rewrite EP in X; congruence).
    pose proof (px_pix nx ny l2 _ _ L2 I) as X. rewrite (Z2 _ _ I NT) in X. unfold pix in X. rewrite EP in X. exact X.
  - intros p E. pose proof (get_at_inv _ _ _ E) as R. destruct (index_split nx ny p Hx ltac:(lia)) as (I & EP).
    assert (Tr : is_true im nx ny (p / nx) (p mod nx)) by (split; [exact I|unfold pix; rewrite EP; exact E]).
    exists (px nx l2 (p / nx) (p mod nx)). pose proof (px_pix nx ny l2 _ _ L2 I) as X. unfold pix in X. rewrite EP in X. split; [exact X|].
    pose proof (T2 _ _ Tr). specialize (D2 _ _ Tr ltac:(lia)). lia.
Qed.
Print Assumptions C42_objects_partial.

(** A ring, a diagonal, a pair and a single pixel. *)
Definition shapes : list bool :=
  [true;  true;  true;  false; false; true;
   true;  false; true;  false; true;  false;
   true;  true;  true;  false; false; false;
   false; false; false; true;  false; true;
   true;  false; true;  true;  false; true].
Example C42_example : image shapes 6 5 /\
  connectedcomponents 30 shapes (repeat 0 30) 6 5 =
    Ret (4, [1; 1; 1; 0; 0; 2; 1; 0; 1; 0; 2; 0; 1; 1; 1; 0; 0; 0; 0; 0; 0; 1; 0; 3; 4; 0; 1; 1; 0; 3]) /\
  binary_to_objects 30 shapes 6 5 3 =
    Ret ([false; true; true; false; false; false; true; false; true; false; false; false; true; true; true; false; false; false;
          false; false; false; true; false; false; false; false; true; true; false; false], 1,
         Some ([0; 1; 1; 0; 0; 0; 1; 0; 1; 0; 0; 0; 1; 1; 1; 0; 0; 0; 0; 0; 0; 1; 0; 0; 0; 0; 1; 1; 0; 0], [10])).
Proof. split; [repeat split; cbv; congruence|]. split; vm_compute; reflexivity. Qed.
