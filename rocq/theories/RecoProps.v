(** Greyscale reconstruction. *)
From Coq Require Import Lia List.
From Verif Require Import Base BaseFacts Loops LoopsFacts ImgSpec ImgFacts QueueModel QueueProofs RecoModel RecoSpec RecoProofs.
Import ListNotations.
#[local] Open Scope Z_scope.

Lemma ofold_id {A S} (f : S -> A -> outcome S) l : (forall s a, f s a = Ret s) -> forall s, ofold f l s = Ret s.
Proof. intros H. induction l as [|a l IH]; intros s; cbn [ofold]; [reflexivity|]. rewrite H. cbn [bind]. apply IH. Qed.

Lemma scans_ok mask nx ny M q : image mask nx ny -> nx <= 32768 -> ny <= 32768 -> base mask nx ny M -> (2 <= nx * ny -> qrep q []) ->
  exists M1 st, raster mask nx ny M = Ret M1 /\ anti_raster mask nx ny (mkR SUCCESS M1 q) = Ret st /\
    (2 <= nx * ny -> qinv mask nx ny st) /\ (nx * ny < 2 -> st = mkR SUCCESS M q).
Proof.
  intros HI Hsx Hsy B Q. pose proof HI as (Hx & Hy & L & _).
  assert (D : (3 <= nx /\ 3 <= ny) \/ nx < 3 \/ ny < 3) by lia. destruct D as [(D1 & D2)|D].
  - destruct (raster_ok mask nx ny HI M D1 D2 B) as (M1 & E1 & B1 & S1).
    assert (2 <= nx * ny) by nia.
    destruct (anti_ok mask nx ny HI Hsx Hsy M1 q D1 D2 B1 ltac:(auto) S1) as (st & E2 & I2).
    exists M1, st. split; [exact E1|]. split; [exact E2|]. split; [auto|nia].
  - exists M, (mkR SUCCESS M q). split; [|split; [|split; [|auto]]].
    + unfold raster. destruct (Z_lt_ge_dec ny 3); [rewrite (zrange_nil 1 (ny - 2)) by lia; reflexivity|].
      rewrite (zrange_nil 1 (nx - 2)) by lia. apply ofold_id. reflexivity.
    + unfold anti_raster. destruct (Z_lt_ge_dec ny 3); [rewrite (zrange_nil 1 (ny - 2)) by lia; reflexivity|].
      rewrite (zrange_nil 1 (nx - 2)) by lia. apply ofold_id. reflexivity.
    + intros H2. split; [exact B|]. right. exists []. split; [split; [reflexivity|split; [auto|intros x y []]]|].
      intros a b c d I. exfalso. unfold interior in I. lia.
Qed.

Lemma run_ok mask marker nx ny : image mask nx ny -> zlen marker = nx * ny -> nx <= 32768 -> ny <= 32768 ->
  exists n0, forall fuel, (n0 <= fuel)%nat -> exists r M, greyscale_reconstruction fuel mask marker nx ny = Ret (r, M) /\ base mask nx ny M /\
    (r = FAILURE \/ (r = SUCCESS /\ forall a b c d, interior nx ny a b -> adjacent c d a b -> stable mask nx M a b c d)).
Proof.
  intros HI LM Hsx Hsy. pose proof HI as (Hx & Hy & L & _). unfold greyscale_reconstruction.
  destruct (mask_max_ok mask nx ny HI) as (mx & Emx & Hmx).
  destruct (init_ok mask nx ny HI mx marker LM Hmx) as (M0 & E0 & B0 & _).
  assert (EQ : exists q, create_queue (Z.quot (nx * ny) 2) = Ret q /\ (2 <= nx * ny -> qrep q []) /\ (nx * ny < 2 -> q = mkQ [] [] 0 0 0)).
  { destruct (Z_lt_ge_dec (nx * ny) 2) as [D|D].
    - assert (nx * ny = 1) as -> by nia. exists (mkQ [] [] 0 0 0). split; [reflexivity|]. split; [lia|reflexivity].
    - assert (1 <= Z.quot (nx * ny) 2) by (rewrite Z.quot_div_nonneg by lia; lia).
      destruct (create_rep _ H) as (q & E & _ & R). exists q. split; [exact E|]. split; [auto|lia]. }
  destruct EQ as (q & -> & Q1 & Q2). cbn [bind]. rewrite Emx. cbn [bind]. rewrite E0. cbn [bind].
  destruct (scans_ok mask nx ny M0 q HI Hsx Hsy B0 Q1) as (M1 & st & -> & E2 & P1 & P2). cbn [bind]. rewrite E2. cbn [bind].
  destruct (Z_lt_ge_dec (nx * ny) 2) as [D|D].
  - rewrite (P2 D), (Q2 D). exists 1%nat. intros [|n] Hn; [lia|]. exists SUCCESS, M0. split; [reflexivity|]. split; [exact B0|].
    right. split; [reflexivity|]. intros a b c d I. unfold interior in I. nia.
  - specialize (P1 ltac:(lia)).
    assert (HF : exists n0, (0 < n0)%nat /\ forall l, fine nx ny st l -> zlen l + total (r_marker st) - total mask < Z.of_nat n0).
    { pose proof P1 as (_ & [P|(l & F & _)]).
      - exists 1%nat. split; [lia|]. intros l (F & _). congruence.
      - exists (Z.to_nat (Z.max 1 (zlen l + total (r_marker st) - total mask + 1))). split; [lia|]. intros l2 F2.
        assert (zlen l2 = zlen l).
        { destruct F as (_ & (_ & _ & _ & _ & _ & A1 & _) & _). destruct F2 as (_ & (_ & _ & _ & _ & _ & A2 & _) & _). lia. }
        lia. }
    destruct HF as (n0 & Hn0 & HF). exists n0. intros fuel Hf.
    destruct (drain_ok mask nx ny HI Hsx Hsy fuel st P1) as (st' & -> & B' & P'); [intros l F; specialize (HF l F); lia|lia|]. cbn [bind].
    exists (r_rc st'), (r_marker st'). auto.
Qed.

(** The function always terminates without leaving its arrays.  If it returns
    SUCCESS, every pixel holds the smallest level at which it is reached from the
    image border: the minimum over all 8-connected paths of the maximum of the mask.
    The initial content of the marker does not matter. *)
Theorem C33_flooding mask marker nx ny : image mask nx ny -> zlen marker = nx * ny -> nx <= 32768 -> ny <= 32768 ->
  exists n0, forall fuel, (n0 <= fuel)%nat -> exists r M, greyscale_reconstruction fuel mask marker nx ny = Ret (r, M) /\ zlen M = nx * ny /\
    (r = SUCCESS -> forall i j, inside nx ny i j -> exists w, pix M nx i j = Some w /\ flood_level mask nx ny i j w) /\
    (r = SUCCESS \/ r = FAILURE).
Proof.
  intros HI LM Hsx Hsy. destruct (run_ok mask marker nx ny HI LM Hsx Hsy) as (n0 & H). exists n0. intros fuel Hf.
  destruct (H fuel Hf) as (r & M & E & B & P). pose proof B as (L & _ & _). exists r, M. split; [exact E|]. split; [exact L|]. split; [|destruct P as [->|(-> & _)]; auto].
  intros R i j I. destruct P as [P|(_ & S)]; [congruence|]. exists (pv M nx i j). split; [exact (pv_pix M nx ny i j L I)|].
  exact (all_stable mask nx ny M B S i j I).
Qed.
Print Assumptions C33_flooding.

(** Also when FAILURE is returned, no pixel is below its flood level, none is
    below the mask, and the border equals the mask. *)
Theorem C33_never_below mask marker nx ny : image mask nx ny -> zlen marker = nx * ny -> nx <= 32768 -> ny <= 32768 ->
  exists n0, forall fuel, (n0 <= fuel)%nat -> exists r M, greyscale_reconstruction fuel mask marker nx ny = Ret (r, M) /\
    forall i j, inside nx ny i j -> exists w k, pix M nx i j = Some w /\ pix mask nx i j = Some k /\ k <= w /\
      (on_border nx ny i j -> w = k) /\ reach mask nx ny w i j.
Proof.
  intros HI LM Hsx Hsy. destruct (run_ok mask marker nx ny HI LM Hsx Hsy) as (n0 & H). exists n0. intros fuel Hf.
  destruct (H fuel Hf) as (r & M & E & B & P). pose proof B as (L & BB & SS). pose proof HI as (_ & _ & Lm & _). exists r, M. split; [exact E|].
  intros i j I. exists (pv M nx i j), (pv mask nx i j). split; [exact (pv_pix M nx ny i j L I)|]. split; [exact (pv_pix mask nx ny i j Lm I)|].
  split; [exact (base_mask mask nx ny M i j B I)|]. split; [apply BB|]. apply SS; [exact I|lia].
Qed.
Print Assumptions C33_never_below.

(** A 5 x 5 basin with an outlet of level 1 at the left. *)
Definition basin : list Z :=
  [9; 9; 9; 9; 9;
   9; 0; 5; 0; 9;
   1; 0; 5; 2; 9;
   9; 0; 3; 0; 9;
   9; 9; 9; 9; 9].
Example C33_example : image basin 5 5 /\
  greyscale_reconstruction 50 basin (repeat 0 25) 5 5 =
  Ret (SUCCESS, [9; 9; 9; 9; 9; 9; 1; 5; 3; 9; 1; 1; 5; 3; 9; 9; 1; 3; 3; 9; 9; 9; 9; 9; 9]).
Proof. split; [repeat split; cbv; congruence|vm_compute; reflexivity]. Qed.

(** The function does not always succeed: for this 6 x 6 image the queue of
    18 cells is too small, FAILURE is returned and pixel (1, 4) is left above its
    flood level. *)
Definition lake : list Z :=
  [2; 2; 2; 2; 2; 2;
   2; 0; 0; 0; 0; 2;
   2; 0; 0; 0; 0; 2;
   2; 0; 0; 0; 0; 2;
   0; 2; 0; 0; 0; 2;
   0; 1; 2; 2; 2; 2].
Theorem C33_success_refuted : exists M, image lake 6 6 /\
  (forall fuel, (3 <= fuel)%nat -> greyscale_reconstruction fuel lake (repeat 0 36) 6 6 = Ret (FAILURE, M)) /\
  pix M 6 1 4 = Some 1 /\ reach lake 6 6 0 1 4.
Proof.
  exists [2; 2; 2; 2; 2; 2; 2; 0; 0; 0; 1; 2; 2; 0; 0; 1; 1; 2; 2; 0; 1; 1; 1; 2; 0; 2; 1; 1; 1; 2; 0; 1; 2; 2; 2; 2].
  split; [repeat split; cbv; congruence|]. split.
  - intros fuel Hf. destruct fuel as [|[|[|n]]]; [lia..|]. vm_compute. reflexivity.
  - split; [reflexivity|].
    assert (A : forall i j i' j', adjacent i' j' i j -> inside 6 6 i j -> pix lake 6 i j = Some 0 -> reach lake 6 6 0 i' j' -> reach lake 6 6 0 i j).
    { intros i j i' j' A I E R. exact (reach_step lake 6 6 0 i j i' j' 0 R A I E ltac:(lia)). }
    assert (AD : forall i j i' j', (Z.abs (i' - i) <=? 1) && (Z.abs (j' - j) <=? 1) && negb ((i' =? i) && (j' =? j)) = true -> adjacent i' j' i j).
    { intros i j i' j' H. unfold adjacent. apply andb_prop in H. destruct H as (H & H3). apply andb_prop in H. destruct H as (H1 & H2).
      split; [lia|]. split; [lia|]. intros X. injection X as -> ->. rewrite !Z.eqb_refl in H3. discriminate. }
    apply (A 1 4 1 3); [apply AD; reflexivity|unfold inside; lia|reflexivity|].
    apply (A 1 3 2 2); [apply AD; reflexivity|unfold inside; lia|reflexivity|].
    apply (A 2 2 3 1); [apply AD; reflexivity|unfold inside; lia|reflexivity|].
    apply (A 3 1 4 0); [apply AD; reflexivity|unfold inside; lia|reflexivity|].
    apply (reach_border lake 6 6 0 4 0 0); [unfold on_border, inside; lia|reflexivity|lia].
Qed.
Print Assumptions C33_success_refuted.
