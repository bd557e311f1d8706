(** Facts about the shared vocabulary. *)
From Verif Require Import Base.

Lemma to_short_id z : in_short z -> to_short z = z.
Proof. unfold in_short, to_short; intros H; lia. Qed.

Lemma to_short_range z : in_short (to_short z).
Proof. unfold in_short, to_short; lia. Qed.

Lemma to_short_id_iff z : to_short z = z <-> in_short z.
Proof. unfold in_short, to_short; lia. Qed.

Lemma in_shortb_spec z : in_shortb z = true <-> in_short z.
Proof. unfold in_shortb, in_short; lia. Qed.

Lemma in_intb_spec z : in_intb z = true <-> in_int z.
Proof. unfold in_intb, in_int; lia. Qed.

Lemma chk_int_ok z : in_int z -> chk_int z = Ret z.
Proof. intros H; unfold chk_int; apply in_intb_spec in H; now rewrite H. Qed.

Lemma length_list_set {A} (l : list A) n v : length (list_set l n v) = length l.
Proof. revert n; induction l as [|h t IH]; intros [|n]; simpl; auto. Qed.

Lemma nth_error_list_set_same {A} (l : list A) n v :
  (n < length l)%nat -> nth_error (list_set l n v) n = Some v.
Proof.
  revert n; induction l as [|h t IH]; intros [|n] H; simpl in *; try lia; auto.
  apply IH; lia.
Qed.

Lemma nth_error_list_set_other {A} (l : list A) n m v :
  n <> m -> nth_error (list_set l n v) m = nth_error l m.
Proof.
  revert n m; induction l as [|h t IH]; intros [|n] [|m] H; simpl in *; auto; try lia.
Qed.

Lemma list_set_out {A} (l : list A) n v : (length l <= n)%nat -> list_set l n v = l.
Proof.
  revert n; induction l as [|h t IH]; intros [|n] H; simpl in *; auto; try lia.
  f_equal; apply IH; lia.
Qed.

Lemma list_set_app_l {A} (l1 l2 : list A) n v :
  (n < length l1)%nat -> list_set (l1 ++ l2) n v = list_set l1 n v ++ l2.
Proof.
  revert n; induction l1 as [|h t IH]; intros [|n] H; simpl in *; try lia; auto.
  f_equal; apply IH; lia.
Qed.

Lemma list_set_app_r {A} (l1 l2 : list A) n v :
  (length l1 <= n)%nat -> list_set (l1 ++ l2) n v = l1 ++ list_set l2 (n - length l1) v.
Proof.
  revert n; induction l1 as [|h t IH]; intros [|n] H; simpl in *; try lia; auto.
  f_equal; apply IH; lia.
Qed.

Lemma get_at_some {A} (l : list A) i :
  0 <= i < zlen l -> exists a, get_at l i = Some a.
Proof.
  unfold get_at, zlen; intros [H1 H2].
  destruct (Z.ltb_spec i 0); [lia|].
  destruct (nth_error l (Z.to_nat i)) eqn:E; [eauto|].
  apply nth_error_None in E; lia.
Qed.

Lemma get_at_inv {A} (l : list A) i a : get_at l i = Some a -> 0 <= i < zlen l.
Proof.
  unfold get_at, zlen; destruct (Z.ltb_spec i 0); [discriminate|].
  intros E; assert (nth_error l (Z.to_nat i) <> None) as N by congruence.
  apply nth_error_Some in N; lia.
Qed.

Lemma get_at_none {A} (l : list A) i : get_at l i = None <-> (i < 0 \/ zlen l <= i).
Proof.
  unfold get_at, zlen; destruct (Z.ltb_spec i 0) as [Hi|Hi].
  - split; [lia | auto].
  - rewrite nth_error_None; lia.
Qed.

Lemma get_at_nat {A} (l : list A) (n : nat) : get_at l (Z.of_nat n) = nth_error l n.
Proof.
  unfold get_at; destruct (Z.ltb_spec (Z.of_nat n) 0); [lia|].
  now rewrite Nat2Z.id.
Qed.

Lemma set_at_some {A} (l : list A) i v :
  0 <= i < zlen l -> set_at l i v = Some (list_set l (Z.to_nat i) v).
Proof.
  unfold set_at, zlen; intros H.
  destruct ((i <? 0) || (Z.of_nat (length l) <=? i)) eqn:E; auto; lia.
Qed.

Lemma set_at_inv {A} (l l' : list A) i v :
  set_at l i v = Some l' -> 0 <= i < zlen l /\ l' = list_set l (Z.to_nat i) v.
Proof.
  unfold set_at, zlen.
  destruct ((i <? 0) || (Z.of_nat (length l) <=? i)) eqn:E; [discriminate|].
  intros H; inversion H; subst; split; auto; lia.
Qed.

Lemma set_at_length {A} (l l' : list A) i v :
  set_at l i v = Some l' -> zlen l' = zlen l.
Proof.
  intros H; apply set_at_inv in H; destruct H as [_ ->]; unfold zlen.
  now rewrite length_list_set.
Qed.

Lemma get_set_same {A} (l l' : list A) i v :
  set_at l i v = Some l' -> get_at l' i = Some v.
Proof.
  intros H; apply set_at_inv in H; destruct H as [H ->]; unfold get_at, zlen in *.
  destruct (Z.ltb_spec i 0); [lia|].
  apply nth_error_list_set_same; lia.
Qed.

Lemma get_set_other {A} (l l' : list A) i j v :
  set_at l i v = Some l' -> i <> j -> get_at l' j = get_at l j.
Proof.
  intros H Hij; apply set_at_inv in H; destruct H as [H ->]; unfold get_at, zlen in *.
  destruct (Z.ltb_spec j 0); auto.
  apply nth_error_list_set_other; lia.
Qed.

Lemma get_at_In {A} (l : list A) i a : get_at l i = Some a -> In a l.
Proof. unfold get_at; destruct (i <? 0); [discriminate|]. apply nth_error_In. Qed.

Lemma In_get_at {A} (l : list A) a : In a l -> exists i, 0 <= i < zlen l /\ get_at l i = Some a.
Proof.
  intros H; apply In_nth_error in H; destruct H as (n & H).
  exists (Z.of_nat n); rewrite get_at_nat; split; auto.
  assert (nth_error l n <> None) as N by congruence. apply nth_error_Some in N.
  unfold zlen; lia.
Qed.

Lemma Forall_get_at {A} (P : A -> Prop) l i a : Forall P l -> get_at l i = Some a -> P a.
Proof. intros F G; exact (proj1 (Forall_forall _ _) F a (get_at_In _ _ _ G)). Qed.

Lemma Forall_list_set {A} (P : A -> Prop) l n v : Forall P l -> P v -> Forall P (list_set l n v).
Proof.
  intros F Pv; revert n; induction F as [|x l Px F IH]; intros [|n]; cbn; constructor; auto.
Qed.

Lemma Forall_set_at {A} (P : A -> Prop) l i v l' :
  Forall P l -> P v -> set_at l i v = Some l' -> Forall P l'.
Proof. intros F Pv E; apply set_at_inv in E; destruct E as [_ ->]; apply Forall_list_set; auto. Qed.

Lemma zlen_nonneg {A} (l : list A) : 0 <= zlen l.
Proof. unfold zlen; lia. Qed.

Lemma get_at_ext {A} (l1 l2 : list A) : zlen l1 = zlen l2 ->
  (forall i, 0 <= i < zlen l1 -> get_at l1 i = get_at l2 i) -> l1 = l2.
Proof.
  unfold zlen; revert l2; induction l1 as [|x l1 IH]; intros [|y l2] L E; cbn [length] in *; try lia; auto.
  f_equal.
  - specialize (E 0 ltac:(lia)); cbn in E; congruence.
  - apply IH; [lia|]. intros i I; specialize (E (i + 1) ltac:(lia)).
    unfold get_at in *. replace (i + 1 <? 0) with false in E by lia.
    replace (i <? 0) with false by lia.
    replace (Z.to_nat (i + 1)) with (S (Z.to_nat i)) in E by lia. exact E.
Qed.
