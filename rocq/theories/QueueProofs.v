From Verif Require Import Base BaseFacts QueueModel QueueSpec.

(** Number of queued pairs, and the slot of the k-th oldest one. *)
Definition qcount (q : queue) : Z :=
  if head q <? tail q then head q - tail q + size q else head q - tail q.
Definition slot (q : queue) (k : Z) : Z :=
  if tail q + k <? size q then tail q + k else tail q + k - size q.

Definition qrep (q : queue) (l : list (Z * Z)) : Prop :=
  1 <= size q /\ zlen (buf_x q) = size q /\ zlen (buf_y q) = size q /\
  0 <= head q < size q /\ 0 <= tail q < size q /\
  qcount q = zlen l /\
  (forall k p, get_at l k = Some p ->
     get_at (buf_x q) (slot q k) = Some (fst p) /\ get_at (buf_y q) (slot q k) = Some (snd p)).

Lemma create_rep n : 1 <= n -> exists q, create_queue n = Ret q /\ size q = n /\ qrep q [].
Proof.
  intros H; unfold create_queue; destruct (Z.ltb_spec n 0); [lia|].
  eexists; split; [reflexivity|]. split; [reflexivity|].
  unfold qrep, qcount, zlen; simpl; rewrite !repeat_length.
  repeat (split; [lia|]).
  intros k p Hk; apply get_at_inv in Hk; unfold zlen in Hk; simpl in Hk; lia.
Qed.

Lemma get_at_app_l {A} (l : list A) a k : 0 <= k < zlen l -> get_at (l ++ [a]) k = get_at l k.
Proof.
  unfold get_at, zlen; intros H; destruct (Z.ltb_spec k 0); [lia|].
  apply nth_error_app1; lia.
Qed.

Lemma get_at_app_last {A} (l : list A) a : get_at (l ++ [a]) (zlen l) = Some a.
Proof.
  unfold get_at, zlen; destruct (Z.ltb_spec (Z.of_nat (length l)) 0); [lia|].
  rewrite nth_error_app2; [|lia].
  rewrite Nat2Z.id, Nat.sub_diag; reflexivity.
Qed.

Lemma zlen_app {A} (l : list A) a : zlen (l ++ [a]) = zlen l + 1.
Proof. unfold zlen; rewrite app_length; simpl; lia. Qed.

Lemma zlen_cons {A} (l : list A) a : zlen (a :: l) = zlen l + 1.
Proof. unfold zlen; simpl length; lia. Qed.

Lemma get_at_cons {A} (l : list A) a k : 0 <= k -> get_at (a :: l) (k + 1) = get_at l k.
Proof.
  unfold get_at; intros H; destruct (Z.ltb_spec (k+1) 0); [lia|]; destruct (Z.ltb_spec k 0); [lia|].
  replace (Z.to_nat (k+1)) with (S (Z.to_nat k)) by lia; reflexivity.
Qed.

Lemma enqueue_rep q l x y :
  qrep q l ->
  exists q', enqueue q x y = Ret (if zlen l <? size q - 1 then SUCCESS else FAILURE, q') /\
    size q' = size q /\
    qrep q' (if zlen l <? size q - 1 then l ++ [short_pair (x, y)] else l).
Proof.
  intros (Hs & Hbx & Hby & Hh & Ht & Hc & Hel).
  unfold enqueue, qcount in *.
  destruct ((head q + 1 =? tail q) || ((head q + 1 =? size q) && (tail q =? 0))) eqn:E.
  - exists q.
    assert (zlen l = size q - 1) as Hl.
    { destruct (Z.ltb_spec (head q) (tail q)); lia. }
    destruct (Z.ltb_spec (zlen l) (size q - 1)); [lia|].
    split; [reflexivity|]. split; [reflexivity|].
    unfold qrep, qcount; auto 10.
  - assert (zlen l < size q - 1) as Hl.
    { destruct (Z.ltb_spec (head q) (tail q)); lia. }
    rewrite !set_at_some by lia; simpl.
    eexists; split.
    { destruct (Z.ltb_spec (zlen l) (size q - 1)); [reflexivity|lia]. }
    split; [reflexivity|].
    destruct (Z.ltb_spec (zlen l) (size q - 1)); [clear H|lia].
    unfold qrep, qcount; simpl.
    set (h' := if head q + 1 =? size q then 0 else head q + 1).
    assert (h' = if head q + 1 =? size q then 0 else head q + 1) as Hh' by reflexivity.
    rewrite zlen_app.
    assert (head q = slot q (zlen l)) as Hslot.
    { unfold slot; destruct (Z.ltb_spec (head q) (tail q));
        destruct (Z.ltb_spec (tail q + zlen l) (size q)); lia. }
    split; [lia|]. split; [unfold zlen in *; rewrite length_list_set; lia|].
    split; [unfold zlen in *; rewrite length_list_set; lia|].
    split; [destruct (Z.eqb_spec (head q + 1) (size q)); lia|].
    split; [lia|]. split.
    { destruct (Z.eqb_spec (head q + 1) (size q)); destruct (Z.ltb_spec (head q) (tail q));
        destruct (Z.ltb_spec h' (tail q)); lia. }
    intros k p Hk.
    pose proof (get_at_inv _ _ _ Hk) as Hr; rewrite zlen_app in Hr.
    assert (slot (mkQ (list_set (buf_x q) (Z.to_nat (head q)) (to_short x))
                      (list_set (buf_y q) (Z.to_nat (head q)) (to_short y)) h' (tail q) (size q)) k
            = slot q k) as -> by reflexivity.
    destruct (Z.eq_dec k (zlen l)) as [->|Hkl].
    + rewrite get_at_app_last in Hk; inversion Hk; subst p; simpl.
      rewrite <- Hslot.
      split; eapply get_set_same; apply set_at_some; lia.
    + rewrite get_at_app_l in Hk by lia.
      specialize (Hel k p Hk); destruct Hel as [E1 E2].
      assert (head q <> slot q k) as Hne.
      { rewrite Hslot; unfold slot.
        destruct (Z.ltb_spec (tail q + zlen l) (size q));
          destruct (Z.ltb_spec (tail q + k) (size q)); lia. }
      split.
      * erewrite get_set_other; [exact E1| apply set_at_some; lia | exact Hne].
      * erewrite get_set_other; [exact E2| apply set_at_some; lia | exact Hne].
Qed.

Lemma dequeue_rep q l :
  qrep q l ->
  exists q',
    dequeue q = Ret (match l with [] => FAILURE | _ => SUCCESS end,
                     match l with [] => None | p :: _ => Some p end, q') /\
    size q' = size q /\ qrep q' (tl l).
Proof.
  intros (Hs & Hbx & Hby & Hh & Ht & Hc & Hel).
  unfold dequeue, qcount in *.
  destruct l as [|p t].
  - assert (tail q = head q) as E.
    { unfold zlen in Hc; simpl in Hc; destruct (Z.ltb_spec (head q) (tail q)); lia. }
    exists q; rewrite E, Z.eqb_refl; simpl.
    split; [reflexivity|]. split; [reflexivity|].
    unfold qrep, qcount; auto 10.
  - rewrite zlen_cons in Hc.
    assert (0 <= zlen t) as Ht0 by (unfold zlen; lia).
    assert (zlen t + 1 <= size q - 1) as Hcap by (destruct (Z.ltb_spec (head q) (tail q)); lia).
    destruct (Z.eqb_spec (tail q) (head q)) as [E|E];
      [destruct (Z.ltb_spec (head q) (tail q)); lia|]; simpl.
    destruct (Hel 0 p eq_refl) as [E1 E2].
    assert (slot q 0 = tail q) as Hs0 by (unfold slot; destruct (Z.ltb_spec (tail q + 0) (size q)); lia).
    rewrite Hs0 in E1, E2; rewrite E1, E2; simpl.
    eexists; split; [destruct p; reflexivity|]. split; [reflexivity|].
    unfold qrep, qcount; simpl.
    set (t' := if tail q + 1 =? size q then 0 else tail q + 1).
    assert (t' = if tail q + 1 =? size q then 0 else tail q + 1) as Ht' by reflexivity.
    split; [lia|]. split; [lia|]. split; [lia|]. split; [lia|].
    split; [destruct (Z.eqb_spec (tail q + 1) (size q)); lia|].
    split.
    { destruct (Z.eqb_spec (tail q + 1) (size q)); destruct (Z.ltb_spec (head q) (tail q));
        destruct (Z.ltb_spec (head q) t'); lia. }
    intros k p' Hk. pose proof (get_at_inv _ _ _ Hk) as Hr.
    specialize (Hel (k + 1) p').
    rewrite get_at_cons in Hel by lia. specialize (Hel Hk).
    assert (slot q (k + 1) =
            slot (mkQ (buf_x q) (buf_y q) (head q) t' (size q)) k) as Heq.
    { unfold slot; simpl.
      destruct (Z.eqb_spec (tail q + 1) (size q));
        destruct (Z.ltb_spec (tail q + (k + 1)) (size q)); destruct (Z.ltb_spec (t' + k) (size q)); lia. }
    rewrite Heq in Hel; exact Hel.
Qed.

Lemma run_queue_rep ops : forall q l,
  qrep q l ->
  exists q', run_queue q ops = Ret (fst (fifo_run short_pair (size q - 1) l ops), q') /\
    size q' = size q /\ qrep q' (snd (fifo_run short_pair (size q - 1) l ops)).
Proof.
  induction ops as [|o ops IH]; intros q l H.
  - exists q; simpl; auto.
  - destruct o as [x y|].
    + destruct (enqueue_rep q l x y H) as (q1 & E1 & S1 & R1).
      cbn [run_queue fifo_run fifo_step]; rewrite E1; cbn [bind fst snd].
      destruct (IH q1 _ R1) as (q2 & E2 & S2 & R2).
      rewrite E2; cbn [bind fst snd].
      exists q2; rewrite S1 in *.
      destruct (zlen l <? size q - 1); cbn [fst snd] in *; auto.
    + destruct (dequeue_rep q l H) as (q1 & E1 & S1 & R1).
      cbn [run_queue fifo_run fifo_step]; rewrite E1; cbn [bind fst snd].
      destruct (IH q1 _ R1) as (q2 & E2 & S2 & R2).
      rewrite E2; cbn [bind fst snd].
      exists q2; rewrite S1 in *.
      destruct l as [|p t]; cbn [fst snd tl] in *; auto.
Qed.

Lemma queue_fifo n ops : 1 <= n ->
  exists q q', create_queue n = Ret q /\
    run_queue q ops = Ret (fst (fifo_run short_pair (n - 1) [] ops), q').
Proof.
  intros Hn; destruct (create_rep n Hn) as (q & E & S & R).
  destruct (run_queue_rep ops q [] R) as (q' & E' & _ & _).
  exists q, q'; rewrite S in E'; auto.
Qed.

Lemma fifo_len st cap ops : forall l, 0 <= cap -> zlen l <= cap ->
  zlen (snd (fifo_run st cap l ops)) <= cap.
Proof.
  induction ops as [|o ops IH]; intros l Hc Hl; [exact Hl|].
  cbn [fifo_run snd]; apply IH; auto.
  destruct o as [x y|]; cbn [fifo_step].
  - destruct (Z.ltb_spec (zlen l) cap); cbn [snd]; auto; rewrite zlen_app; lia.
  - destruct l as [|p t]; cbn [snd]; auto; rewrite zlen_cons in Hl; lia.
Qed.

Lemma fifo_short_exact cap ops : forall l, Forall op_in_short ops ->
  fifo_run short_pair cap l ops = fifo_run exact cap l ops.
Proof.
  induction ops as [|o ops IH]; intros l H; [reflexivity|].
  inversion H as [|? ? Ho Hops]; subst.
  assert (fifo_step short_pair cap l o = fifo_step exact cap l o) as E.
  { destruct o as [x y|]; cbn [fifo_step]; auto.
    destruct Ho as [Hx Hy]. unfold short_pair, exact; cbn [fst snd].
    rewrite (to_short_id x Hx), (to_short_id y Hy). reflexivity. }
  cbn [fifo_run]; rewrite E, IH by assumption; reflexivity.
Qed.

Lemma queue_fifo_exact n ops : 1 <= n -> Forall op_in_short ops ->
  exists q q', create_queue n = Ret q /\
    run_queue q ops = Ret (fst (fifo_run exact (n - 1) [] ops), q').
Proof.
  intros Hn H; rewrite <- fifo_short_exact by assumption; apply queue_fifo, Hn.
Qed.

Lemma queue_fifo_trunc n ops : 1 <= n ->
  exists q q', create_queue n = Ret q /\
    run_queue q ops = Ret (fst (fifo_run short_pair (n - 1) [] ops), q').
Proof. intros Hn; apply queue_fifo, Hn. Qed.

Lemma fifo_balance st cap ops : forall l, 0 <= cap -> zlen l <= cap -> forall pre r post, fst (fifo_run st cap l ops) = pre ++ r :: post ->
  0 <= zlen l + balance pre <= cap /\
  (forall c, r = AEnq c -> (c = SUCCESS <-> zlen l + balance pre < cap)) /\
  (forall c v, r = ADeq c v -> (c = SUCCESS <-> 0 < zlen l + balance pre)).
Proof.
  induction ops as [|o ops IH]; intros l C L pre r post E; cbn [fifo_run fst] in E; [destruct pre; discriminate|].
  pose proof (zlen_nonneg l) as NN.
  assert (zlen (snd (fifo_step st cap l o)) = zlen l + balance [fst (fifo_step st cap l o)] /\ zlen (snd (fifo_step st cap l o)) <= cap) as [B1 B2].
  { destruct o as [x y|]; cbn [fifo_step].
    - destruct (Z.ltb_spec (zlen l) cap); cbn [fst snd balance]; unfold zlen in *; rewrite ?app_length; cbn [length] in *; lia.
    - destruct l as [|p t]; cbn [fst snd balance]; unfold zlen in *; cbn [length] in *; lia. }
  destruct pre as [|a pre]; cbn [app] in E.
  - assert (fst (fifo_step st cap l o) = r) as <- by congruence. cbn [balance]. split; [lia|].
    destruct o as [x y|]; cbn [fifo_step]; [destruct (Z.ltb_spec (zlen l) cap)|destruct l as [|p t]; unfold zlen in *; cbn [length] in *]; cbn [fst];
      (split; [intros c [= <-]|intros c v [= <- <-]]); try discriminate; split; intros; try lia; try discriminate; auto.
  - assert (fst (fifo_step st cap l o) = a /\ fst (fifo_run st cap (snd (fifo_step st cap l o)) ops) = pre ++ r :: post) as [EA ER] by (split; congruence).
    rewrite EA in B1. specialize (IH _ C B2 _ _ _ ER). rewrite B1 in IH.
    assert (forall z, balance (a :: z) = balance [a] + balance z) as BA by (intros z; destruct a as [[]|[] v]; cbn [balance]; lia).
    rewrite (BA pre). destruct IH as (I1 & I2 & I3). split; [lia|]. split.
    + intros c H. rewrite (I2 c H). split; lia.
    + intros c v H. rewrite (I3 c v H). split; lia.
Qed.
Lemma queued_bound n ops q ans q' : 1 <= n -> create_queue n = Ret q -> run_queue q ops = Ret (ans, q') ->
  forall pre r post, ans = pre ++ r :: post ->
    0 <= balance pre <= n - 1 /\ (forall c, r = AEnq c -> (c = SUCCESS <-> balance pre < n - 1)) /\
    (forall c v, r = ADeq c v -> (c = SUCCESS <-> 0 < balance pre)).
Proof.
  intros N C R pre r post E. destruct (queue_fifo_trunc n ops N) as (q0 & q1 & C0 & R0).
  rewrite C in C0. injection C0 as <-. rewrite R in R0. injection R0 as E0 _. rewrite E in E0. symmetry in E0.
  apply fifo_balance in E0; [exact E0|lia|unfold zlen; cbn [length]; lia].
Qed.

Lemma enqueue_size0_ub x y : exists q, create_queue 0 = Ret q /\ enqueue q x y = UB.
Proof. eexists; split; reflexivity. Qed.

Lemma queue_large_coord_refuted :
  exists n ops q q', 1 <= n /\ create_queue n = Ret q /\
    run_queue q ops = Ret ([AEnq SUCCESS; ADeq SUCCESS (Some (-25536, 5))], q') /\
    ops = [Enq 40000 5; Deq].
Proof.
  exists 4, [Enq 40000 5; Deq].
  eexists; eexists; split; [lia|]; split; [reflexivity|]; split; [vm_compute; reflexivity|reflexivity].
Qed.
