(** Lemmas about the topography. *)
From Coq Require Import Reals Lra Lia ZifyBool.
From Flocq Require Import Core.
From Verif Require Import Base Loops RoundModel RoundFacts RadModel RadSpec TopModel TopSpec.
#[local] Open Scope nat_scope.

(** ** Ocean *)
Lemma down_0 g j : down g 0 j = g 0 j. Proof. reflexivity. Qed.
Lemma down_S g i j : down g (S i) j = sea (down g i j) (g (S i) j). Proof. reflexivity. Qed.
Lemma up_last ny g j : 0 < ny -> up ny g (ny - 1) j = g (ny - 1) j.
Proof. intros H. unfold up, flip at 1. replace (ny - 1 - (ny - 1)) with 0 by lia. cbn [down]. unfold flip. f_equal; lia. Qed.
Lemma up_prev ny g i j : S i < ny -> up ny g i j = sea (up ny g (S i) j) (g i j).
Proof.
  intros H. unfold up. unfold flip at 1. replace (ny - 1 - i) with (S (ny - 1 - S i)) by lia. rewrite down_S. f_equal. unfold flip. f_equal; lia.
Qed.
Lemma right_0 g i : right g i 0 = g i 0. Proof. reflexivity. Qed.
Lemma right_S g i j : right g i (S j) = sea (right g i j) (g i (S j)). Proof. reflexivity. Qed.
Lemma left_last nx g i : 0 < nx -> left nx g i (nx - 1) = g i (nx - 1).
Proof. intros H. unfold left, turn at 1. rewrite up_last by auto. reflexivity. Qed.
Lemma left_prev nx g i j : S j < nx -> left nx g i j = sea (left nx g i (S j)) (g i j).
Proof. intros H. unfold left, turn at 1. rewrite up_prev by auto. reflexivity. Qed.

Section Ocean.
Variable ny nx : nat.
Variable g : grid (option R).
Definition good (h : grid (option R)) (i j : nat) : Prop :=
  h i j = g i j \/ (g i j = None /\ h i j = Some 0%R /\ sea_water ny nx g i j).
Lemma good_step h h' i j i1 j1 : h' i j = sea (h' i1 j1) (h i j) -> beside i1 j1 i j -> within ny nx i j -> within ny nx i1 j1 -> good h' i1 j1 -> good h i j -> good h' i j.
Proof.
  intros E B W W1 G1 G. unfold good in *. rewrite E. destruct G as [G|(G & G2 & G3)].
  - rewrite G. unfold sea. destruct (h' i1 j1) as [z|] eqn:Z; [|left; destruct (g i j); auto]. destruct (g i j) as [v|] eqn:V; [left; auto|].
    destruct (Req_bool_spec z 0) as [Q|Q]; [|left; auto]. right. subst z. split; auto. split; auto.
    apply sw_next with i1 j1; auto. destruct G1 as [G1|(_ & _ & G1)]; auto. apply sw_zero; auto.
  - rewrite G2. right. split; auto. split; auto. unfold sea. destruct (h' i1 j1); auto.
Qed.
Lemma good_down h : (forall i j, within ny nx i j -> good h i j) -> forall i j, within ny nx i j -> good (down h) i j.
Proof.
  intros H. induction i as [|i IH]; intros j W; [apply H in W; auto|]. unfold within in W. eapply good_step; [apply down_S|right; auto|split; lia|split; lia|apply IH; split; lia|apply H; split; lia].
Qed.
Lemma good_up h : (forall i j, within ny nx i j -> good h i j) -> forall i j, within ny nx i j -> good (up ny h) i j.
Proof.
  intros H. assert (forall k i j, k = ny - 1 - i -> within ny nx i j -> good (up ny h) i j) as A; [|intros i j W; apply (A (ny - 1 - i)); auto; unfold within in W; lia].
  induction k as [|k IH]; intros i j E W; unfold within in W.
  - assert (i = ny - 1) by lia. clear E. subst i. unfold good. rewrite up_last by lia. apply H. split; lia.
  - destruct (Nat.eq_dec i (ny - 1)) as [Q|Q]; [exfalso; lia|]. eapply good_step; [apply up_prev; lia|right; auto|split; lia|split; lia|apply IH; [lia|split; lia]|apply H; split; lia].
Qed.
Lemma good_right h : (forall i j, within ny nx i j -> good h i j) -> forall j i, within ny nx i j -> good (right h) i j.
Proof.
  intros H. induction j as [|j IH]; intros i W; [apply H in W; auto|]. unfold within in W. eapply good_step; [apply right_S|left; auto|split; lia|split; lia|apply IH; split; lia|apply H; split; lia].
Qed.
Lemma good_left h : (forall i j, within ny nx i j -> good h i j) -> forall i j, within ny nx i j -> good (left nx h) i j.
Proof.
  intros H. assert (forall k i j, k = nx - 1 - j -> within ny nx i j -> good (left nx h) i j) as A; [|intros i j W; apply (A (nx - 1 - j)); auto; unfold within in W; lia].
  induction k as [|k IH]; intros i j E W; unfold within in W.
  - assert (j = nx - 1) by lia. clear E. subst j. unfold good. rewrite left_last by lia. apply H. split; lia.
  - destruct (Nat.eq_dec j (nx - 1)) as [Q|Q]; [exfalso; lia|]. eapply good_step; [apply left_prev; lia|left; auto|split; lia|split; lia|apply IH; [lia|split; lia]|apply H; split; lia].
Qed.
Lemma good_ocean i j : within ny nx i j -> good (ocean ny nx g) i j.
Proof.
  intros W. unfold ocean. apply good_left; auto. intros. apply good_right; auto. intros. apply good_up; auto. intros. apply good_down; auto. intros. left. auto.
Qed.
End Ocean.

(** Straight runs. *)
Lemma sea_zero b : b = None \/ b = Some 0%R -> sea (Some 0%R) b = Some 0%R.
Proof. intros [->| ->]; cbn [sea]; auto. rewrite Req_bool_true; auto. Qed.
Lemma sea_keep a v : sea a (Some v) = Some v. Proof. destruct a; reflexivity. Qed.
Lemma down_keep g i j v : g i j = Some v -> down g i j = Some v.
Proof. intros H. destruct i; [auto|]. rewrite down_S, H. apply sea_keep. Qed.
Lemma up_keep ny g i j v : i < ny -> g i j = Some v -> up ny g i j = Some v.
Proof. intros L H. destruct (Nat.eq_dec i (ny - 1)) as [->|Q]; [rewrite up_last by lia; auto|]. rewrite up_prev, H by lia. apply sea_keep. Qed.
Lemma right_keep g i j v : g i j = Some v -> right g i j = Some v.
Proof. intros H. destruct j; [auto|]. rewrite right_S, H. apply sea_keep. Qed.
Lemma left_keep nx g i j v : j < nx -> g i j = Some v -> left nx g i j = Some v.
Proof. intros L H. destruct (Nat.eq_dec j (nx - 1)) as [->|Q]; [rewrite left_last by lia; auto|]. rewrite left_prev, H by lia. apply sea_keep. Qed.
Lemma down_run g j i0 i : i0 <= i -> g i0 j = Some 0%R -> (forall k, i0 < k <= i -> g k j = None \/ g k j = Some 0%R) -> down g i j = Some 0%R.
Proof.
  intros L Z. induction L as [|i L IH]; intros N; [apply down_keep; auto|]. rewrite down_S, IH by (intros; apply N; lia). apply sea_zero. apply N. lia.
Qed.
Lemma up_run ny g j i0 i : i0 < ny -> i <= i0 -> g i0 j = Some 0%R -> (forall k, i <= k < i0 -> g k j = None \/ g k j = Some 0%R) -> up ny g i j = Some 0%R.
Proof.
  intros L0 L Z N. remember (i0 - i) as d eqn:D. revert i D L N. induction d as [|d IH]; intros i D L N.
  - assert (i = i0) by lia. subst. apply up_keep; auto.
  - rewrite up_prev by lia. rewrite (IH (S i)) by (try lia; intros; apply N; lia). apply sea_zero. apply N. lia.
Qed.
Lemma right_run g i j0 j : j0 <= j -> g i j0 = Some 0%R -> (forall k, j0 < k <= j -> g i k = None \/ g i k = Some 0%R) -> right g i j = Some 0%R.
Proof. intros L Z N. apply (down_run (turn g) i j0 j L Z N). Qed.
Lemma left_run nx g i j0 j : j0 < nx -> j <= j0 -> g i j0 = Some 0%R -> (forall k, j <= k < j0 -> g i k = None \/ g i k = Some 0%R) -> left nx g i j = Some 0%R.
Proof. intros L0 L Z N. apply (up_run nx (turn g) i j0 j L0 L Z N). Qed.
Lemma good_cases ny nx g h i j : good ny nx g h i j -> g i j = None -> h i j = None \/ h i j = Some 0%R.
Proof. unfold good. intros [H|(_ & H & _)] N; [left; congruence|right; auto]. Qed.
Lemma ocean_run ny nx g i0 j0 i j : within ny nx i0 j0 -> within ny nx i j -> g i0 j0 = Some 0%R ->
  (forall k, (i0 < k <= i \/ i <= k < i0) -> g k j0 = None) -> (forall k, (j0 < k <= j \/ j <= k < j0) -> g i k = None) -> ocean ny nx g i j = Some 0%R.
Proof.
  intros (A1 & A2) (B1 & B2) Z C R. unfold ocean. set (h1 := down g). set (h2 := up ny h1). set (h3 := right h2).
  assert (G1 : forall i j, within ny nx i j -> good ny nx g h1 i j) by (apply good_down; intros; left; auto).
  assert (G2 : forall i j, within ny nx i j -> good ny nx g h2 i j) by (apply good_up; auto).
  assert (G3 : forall i j, within ny nx i j -> good ny nx g h3 i j) by (intros; apply good_right; auto).
  assert (E : h2 i j0 = Some 0%R).
  { destruct (Nat.le_gt_cases i0 i) as [L|L].
    - apply up_keep; auto. apply down_run with i0; auto.
    - apply up_run with i0; auto; [lia|apply down_keep; auto|]. intros k K. apply (good_cases ny nx g); [apply G1; split; lia|auto]. }
  destruct (Nat.le_gt_cases j0 j) as [L|L].
  - apply left_keep; auto. apply right_run with j0; auto. intros k K. apply (good_cases ny nx g); [apply G2; split; lia|auto].
  - apply left_run with j0; auto; [lia|apply right_keep; auto|]. intros k K. apply (good_cases ny nx g); [apply G3; split; lia|auto].
Qed.

(** ** Borders *)
Lemma take_off e s : x_off (take e s) = x_off e || x_off s.
Proof. unfold take. destruct (x_off e) eqn:E; auto. destruct (x_off s) eqn:S; cbn; auto. Qed.
Lemma take_val e s : x_off (take e s) = false -> x_slp (take e s) = x_slp s /\ x_asp (take e s) = x_asp s.
Proof. unfold take. destruct (x_off e) eqn:E; [congruence|]. destruct (x_off s) eqn:S; cbn; [discriminate|auto]. Qed.
Lemma take_steep e s : x_steep (take e s) = x_steep e.
Proof. unfold take. destruct (x_off e), (x_off s); auto. Qed.
Lemma clamp_in n i : 3 <= n -> 1 <= i < n - 1 -> clamp n i = i. Proof. unfold clamp. lia. Qed.
Lemma clamp_lo n : 3 <= n -> clamp n 0 = 1. Proof. unfold clamp. lia. Qed.
Lemma clamp_hi n : 3 <= n -> clamp n (n - 1) = n - 2. Proof. unfold clamp. lia. Qed.
Lemma where_is n i : 3 <= n -> i < n -> i = 0 \/ i = n - 1 \/ (1 <= i < n - 1). Proof. lia. Qed.
Ltac eqb_simpl := repeat match goal with |- context [Nat.eqb ?a ?b] => first [replace (Nat.eqb a b) with true by (symmetry; apply Nat.eqb_eq; lia) | replace (Nat.eqb a b) with false by (symmetry; apply Nat.eqb_neq; lia)] end; cbv iota.
Lemma cols nx x i j : 3 <= nx -> j < nx -> let y := right_col nx (left_col x) in
  x_off (y i j) = x_off (x i j) || x_off (x i (clamp nx j)) /\ (x_off (y i j) = false -> x_slp (y i j) = x_slp (x i (clamp nx j)) /\ x_asp (y i j) = x_asp (x i (clamp nx j))) /\ x_steep (y i j) = x_steep (x i j).
Proof.
  intros N J y. unfold y, right_col, left_col. destruct (where_is nx j N J) as [->|[->|H]].
  - rewrite clamp_lo by auto. eqb_simpl. rewrite take_off, take_steep. split; auto. split; auto. intros O. apply take_val. rewrite take_off. auto.
  - rewrite clamp_hi by auto. eqb_simpl. rewrite take_off, take_steep. split; auto. split; auto. intros O. apply take_val. rewrite take_off. auto.
  - rewrite clamp_in by auto. eqb_simpl. split; [destruct (x_off (x i j)); auto|]. auto.
Qed.
Lemma borders_ok ny nx x i j : 3 <= ny -> 3 <= nx -> within ny nx i j -> let y := borders ny nx x in
  (x_off (y i j) = true <-> x_off (x i j) = true \/ x_off (x i (clamp nx j)) = true \/ x_off (x (clamp ny i) j) = true \/ x_off (x (clamp ny i) (clamp nx j)) = true) /\
  (x_off (y i j) = false -> x_slp (y i j) = x_slp (x (clamp ny i) (clamp nx j)) /\ x_asp (y i j) = x_asp (x (clamp ny i) (clamp nx j))) /\ x_steep (y i j) = x_steep (x i j).
Proof.
  intros NY NX (I & J) y. unfold y, borders. set (z := right_col nx (left_col x)).
  assert (C : forall k, _) by (intros k; exact (cols nx x k j NX J)). fold z in C. cbn zeta in C.
  unfold bottom_row, top_row. destruct (where_is ny i NY I) as [->|[->|H]].
  - rewrite clamp_lo by auto. eqb_simpl. rewrite take_off, take_steep. destruct (C 0) as (A1 & A2 & A3), (C 1) as (B1 & B2 & B3). rewrite A1, B1, A3. split; [|split; auto].
    + clear. repeat match goal with |- context [x_off ?e] => destruct (x_off e) end; cbn; intuition congruence.
    + intros O. apply orb_false_iff in O. destruct O as (O1 & O2). rewrite <- B1 in O2. destruct (B2 O2) as (<- & <-). apply take_val. rewrite take_off, A1, O1. auto.
  - rewrite clamp_hi by auto. eqb_simpl. rewrite take_off, take_steep. destruct (C (ny - 1)) as (A1 & A2 & A3), (C (ny - 2)) as (B1 & B2 & B3). rewrite A1, B1, A3. split; [|split; auto].
    + clear. repeat match goal with |- context [x_off ?e] => destruct (x_off e) end; cbn; intuition congruence.
    + intros O. apply orb_false_iff in O. destruct O as (O1 & O2). rewrite <- B1 in O2. destruct (B2 O2) as (<- & <-). apply take_val. rewrite take_off, A1, O1. auto.
  - rewrite (clamp_in ny i) by auto. eqb_simpl. destruct (C i) as (A1 & A2 & A3). rewrite A1, A3. split; [clear; repeat match goal with |- context [x_off ?e] => destruct (x_off e) end; cbn; intuition congruence|]. split; auto. rewrite <- A1. auto.
Qed.
