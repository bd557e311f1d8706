(** Buffering a binary image (C35). *)
From Coq Require Import Lia.
From Verif Require Import Base BaseFacts Loops LoopsFacts ImgSpec ImgFacts BufferModel BufferProofs.
#[local] Open Scope Z_scope.

(** C35: for every image and radius the function ends without an access outside
    the image. *)
Theorem C35_safe_partial img nx ny r : image img nx ny -> exists out, buffer img nx ny r = Ret out /\ zlen out = nx * ny.
Proof.
  intros HI. destruct (Z_le_gt_dec r 0).
  - exists img. unfold buffer. destruct (Z.leb_spec r 0); [|lia]. split; [reflexivity|]. destruct HI as (_ & _ & L & _). exact L.
  - destruct (buffer_spec img nx ny r HI ltac:(lia)) as (l & out & _ & E & L & _). exists out. auto.
Qed.

(** C35: every pixel within r pixels of a TRUE pixel that is not near the image
    border becomes (or stays) TRUE. *)
Theorem C35_covers_partial img nx ny r out i j y x : image img nx ny -> buffer img nx ny r = Ret out -> 0 < r ->
  r <= i < ny - r -> r <= j < nx - r -> is_true img nx ny i j ->
  (y - i) * (y - i) + (x - j) * (x - j) <= r * r -> is_true out nx ny y x.
Proof.
  intros HI E Hr Hi Hj (_ & HT) HD.
  destruct (buffer_spec img nx ny r HI Hr) as (l & out' & HO & E' & L & S). rewrite E in E'. injection E' as <-.
  assert (R : r <= 23170) by (destruct HI as (A & B & C & D); nia).
  destruct (octant_ok r ltac:(lia)) as (l' & EO & F & C). rewrite (HO R) in EO. injection EO as <-.
  assert (AY : Z.abs (y - i) * Z.abs (y - i) = (y - i) * (y - i)) by (destruct (Z.abs_spec (y - i)) as [(_ & ->)|(_ & ->)]; ring).
  assert (AX : Z.abs (x - j) * Z.abs (x - j) = (x - j) * (x - j)) by (destruct (Z.abs_spec (x - j)) as [(_ & ->)|(_ & ->)]; ring).
  assert (BX : Z.abs (x - j) <= r) by nia. assert (BY : Z.abs (y - i) <= r) by nia.
  assert (I : inside nx ny y x) by (unfold inside; lia).
  split; [exact I|]. apply S; [exact I|]. exists i, j. split; [lia|]. split; [lia|]. split; [exact HT|].
  destruct (C (Z.abs (x - j)) (Z.abs (y - i)) ltac:(lia) ltac:(lia) ltac:(lia)) as (a & b & P & Q). exists a, b. split; [exact P|]. tauto.
Qed.

(** C35: every TRUE pixel of the result is less than r + 1 pixels away from a TRUE
    pixel of the input. *)
Theorem C35_reach_partial img nx ny r out y x : image img nx ny -> buffer img nx ny r = Ret out -> 0 < r ->
  is_true out nx ny y x -> exists i j, is_true img nx ny i j /\ (y - i) * (y - i) + (x - j) * (x - j) < (r + 1) * (r + 1).
Proof.
  intros HI E Hr (I & HT).
  destruct (buffer_spec img nx ny r HI Hr) as (l & out' & HO & E' & L & S). rewrite E in E'. injection E' as <-.
  apply S in HT; [|exact I]. destruct HT as (i & j & Hi & Hj & HT & a & b & P & Q).
  assert (R : r <= 23170) by (destruct HI as (A & B & C & D); nia).
  destruct (octant_ok r ltac:(lia)) as (l' & EO & F & C). rewrite (HO R) in EO. injection EO as <-.
  rewrite Forall_forall in F. specialize (F _ P). cbn [fst snd] in F.
  exists i, j. split; [split; [unfold inside; lia|exact HT]|].
  assert (AY : Z.abs (y - i) * Z.abs (y - i) = (y - i) * (y - i)) by (destruct (Z.abs_spec (y - i)) as [(_ & ->)|(_ & ->)]; ring).
  assert (AX : Z.abs (x - j) * Z.abs (x - j) = (x - j) * (x - j)) by (destruct (Z.abs_spec (x - j)) as [(_ & ->)|(_ & ->)]; ring).
  rewrite <- AX, <- AY. destruct Q as [(Q1 & Q2)|(Q1 & Q2)]; rewrite Q2; nia.
Qed.

(** A radius that is not positive changes nothing. *)
Theorem C35_zero_partial img nx ny r : r <= 0 -> buffer img nx ny r = Ret img.
Proof. intros H. unfold buffer. destruct (Z.leb_spec r 0); [reflexivity|lia]. Qed.

Definition o := false.
Definition X := true.
Definition cross : list bool :=
  [o; o; o; o; o;
   o; o; o; o; o;
   o; o; X; o; o;
   o; o; o; o; o;
   o; o; o; o; X].
Example C35_example : image cross 5 5 /\ is_true cross 5 5 2 2 /\ buffer cross 5 5 2 = Ret
  [o; o; X; o; o;
   o; X; X; X; o;
   X; X; X; X; X;
   o; X; X; X; o;
   o; o; X; o; o].
Proof. split; [repeat split; cbn; lia|]. split; [split; [unfold inside; lia|reflexivity]|vm_compute; reflexivity]. Qed.

(** C35 is refuted: TRUE pixels nearer than r to the image border are lost (the
    lower right pixel above). *)
Theorem C35_border_refuted : exists img nx ny r out y x, image img nx ny /\ 0 < r /\
  buffer img nx ny r = Ret out /\ is_true img nx ny y x /\ ~ is_true out nx ny y x.
Proof.
  exists cross, 5, 5, 2, [o; o; X; o; o;  o; X; X; X; o;  X; X; X; X; X;  o; X; X; X; o;  o; o; X; o; o], 4, 4.
  split; [repeat split; cbn; lia|]. split; [lia|]. split; [vm_compute; reflexivity|].
  split; [split; [unfold inside; lia|reflexivity]|]. intros (_ & H). discriminate H.
Qed.

(** C35 is refuted: the drawn shape is larger than the disc.  With r = 4 a pixel
    at distance sqrt 17 of the only TRUE pixel becomes TRUE. *)
Theorem C35_radius_refuted : exists img nx ny r out y x, image img nx ny /\ 0 < r /\
  buffer img nx ny r = Ret out /\ is_true out nx ny y x /\
  forall i j, is_true img nx ny i j -> r * r < (y - i) * (y - i) + (x - j) * (x - j).
Proof.
  exists (repeat false 40 ++ [true] ++ repeat false 40), 9, 9, 4.
  destruct (buffer (repeat false 40 ++ [true] ++ repeat false 40) 9 9 4) as [out| |] eqn:E; [|vm_compute in E; discriminate|vm_compute in E; discriminate].
  exists out, 0, 3. split; [repeat split; cbn; lia|]. split; [lia|]. split; [reflexivity|]. split.
  - split; [unfold inside; lia|]. vm_compute in E. injection E as <-. reflexivity.
  - intros i j ((Hi & Hj) & HT). unfold pix in HT.
    assert (K : 9 * i + j = 40).
    { pose proof (get_at_inv _ _ _ HT) as R. change (zlen (repeat false 40 ++ [true] ++ repeat false 40)) with 81 in R.
      rewrite <- (Z2Nat.id (9 * i + j)) in HT by lia. rewrite get_at_nat in HT.
      destruct (lt_eq_lt_dec (Z.to_nat (9 * i + j)) 40) as [[H|H]|H]; [|lia|]; exfalso.
      - rewrite nth_error_app1 in HT by (rewrite repeat_length; exact H). apply nth_error_In in HT. apply repeat_spec in HT. discriminate.
      - rewrite nth_error_app2 in HT by (rewrite repeat_length; lia). rewrite repeat_length in HT.
        rewrite nth_error_app2 in HT by (cbn [length]; lia). apply nth_error_In in HT. apply repeat_spec in HT. discriminate. }
    assert (i = 4) by lia. subst i. assert (j = 4) by lia. subst j. lia.
Qed.

Print Assumptions C35_safe_partial.
Print Assumptions C35_covers_partial.
Print Assumptions C35_reach_partial.
Print Assumptions C35_zero_partial.
Print Assumptions C35_border_refuted.
Print Assumptions C35_radius_refuted.
