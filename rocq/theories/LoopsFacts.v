From Verif Require Import Base BaseFacts Loops.
From Coq Require Import Sorting.Sorted FinFun.

Lemma zrange_In lo hi x : In x (zrange lo hi) <-> lo <= x <= hi.
Proof.
  unfold zrange. rewrite in_map_iff; split.
  - intros (k & <- & H). apply in_seq in H. lia.
  - intros H. exists (Z.to_nat (x - lo)). split; [lia|]. apply in_seq. lia.
Qed.

Lemma zupto_In n x : In x (zupto n) <-> 0 <= x < n.
Proof.
  unfold zupto. rewrite in_map_iff; split.
  - intros (k & <- & H). apply in_seq in H. lia.
  - intros H. exists (Z.to_nat x). split; [lia|]. apply in_seq. lia.
Qed.

Lemma zrange_length lo hi : length (zrange lo hi) = Z.to_nat (hi - lo + 1).
Proof. unfold zrange; now rewrite map_length, seq_length. Qed.
Lemma zupto_length n : length (zupto n) = Z.to_nat n.
Proof. unfold zupto; now rewrite map_length, seq_length. Qed.

Lemma zupto_zrange n : zupto n = zrange 0 (n - 1).
Proof. unfold zupto, zrange. replace (n - 1 - 0 + 1) with n by lia. apply map_ext; intros; lia. Qed.

Lemma zrange_nil lo hi : hi < lo -> zrange lo hi = [].
Proof. intros H; unfold zrange. replace (Z.to_nat (hi - lo + 1)) with O by lia. reflexivity. Qed.

Lemma zrange_cons lo hi : lo <= hi -> zrange lo hi = lo :: zrange (lo + 1) hi.
Proof.
  intros H; unfold zrange. replace (Z.to_nat (hi - lo + 1)) with (S (Z.to_nat (hi - (lo + 1) + 1))) by lia.
  cbn [seq map]. rewrite <- seq_shift, map_map. f_equal; [lia|]. apply map_ext; intros; lia.
Qed.

Lemma zrange_snoc lo hi : lo <= hi -> zrange lo hi = zrange lo (hi - 1) ++ [hi].
Proof.
  intros H; unfold zrange. replace (Z.to_nat (hi - lo + 1)) with (Z.to_nat (hi - 1 - lo + 1) + 1)%nat by lia.
  rewrite seq_app, map_app. cbn [seq map]. f_equal. f_equal. lia.
Qed.

Lemma zrange_app lo mid hi : lo <= mid <= hi + 1 -> zrange lo hi = zrange lo (mid - 1) ++ zrange mid hi.
Proof.
  intros H. unfold zrange at 1.
  replace (Z.to_nat (hi - lo + 1)) with (Z.to_nat (mid - 1 - lo + 1) + Z.to_nat (hi - mid + 1))%nat by lia.
  rewrite seq_app, map_app. f_equal. unfold zrange.
  rewrite Nat.add_0_l. set (a := Z.to_nat (mid - 1 - lo + 1)).
  assert (forall n b, map (fun k => lo + Z.of_nat k) (seq (a + b) n)
                      = map (fun k => mid + Z.of_nat k) (seq b n)) as G.
  { induction n as [|n IH]; intros b; cbn [seq map]; auto. f_equal; [lia|].
    rewrite <- IH. f_equal. f_equal. lia. }
  specialize (G (Z.to_nat (hi - mid + 1)) O). now rewrite Nat.add_0_r in G.
Qed.

Lemma zupto_snoc n : 0 <= n -> zupto (n + 1) = zupto n ++ [n].
Proof. intros H. rewrite !zupto_zrange. replace (n + 1 - 1) with n by lia. now apply zrange_snoc. Qed.

Lemma zrange_sorted lo hi : StronglySorted Z.lt (zrange lo hi).
Proof.
  unfold zrange. generalize (Z.to_nat (hi - lo + 1)) as n. intros n. generalize O as a.
  induction n as [|n IH]; intros a; cbn; constructor; auto.
  rewrite Forall_map. apply Forall_forall. intros x H. apply in_seq in H. lia.
Qed.

Lemma zrange_NoDup lo hi : NoDup (zrange lo hi).
Proof.
  unfold zrange. apply FinFun.Injective_map_NoDup; [intros a b; lia|apply seq_NoDup].
Qed.

Lemma zupto_nth n i d : 0 <= i < n -> nth (Z.to_nat i) (zupto n) d = i.
Proof.
  intros H; unfold zupto.
  rewrite (nth_indep _ d (Z.of_nat 0)) by (rewrite map_length, seq_length; lia).
  rewrite map_nth, seq_nth by lia. lia.
Qed.

Lemma ofold_app {A S} (f : S -> A -> outcome S) l1 l2 s :
  ofold f (l1 ++ l2) s = (s' <- ofold f l1 s ;; ofold f l2 s').
Proof.
  revert s; induction l1 as [|a l1 IH]; intros s; cbn; auto.
  destruct (f s a); cbn; auto.
Qed.

(** Invariant rule. *)
Lemma ofold_inv {A S} (f : S -> A -> outcome S) (I : list A -> S -> Prop) : forall l done s,
  I done s ->
  (forall pre a post st, l = pre ++ a :: post -> I (done ++ pre) st ->
     exists st', f st a = Ret st' /\ I (done ++ pre ++ [a]) st') ->
  exists s', ofold f l s = Ret s' /\ I (done ++ l) s'.
Proof.
  induction l as [|a l IH]; intros done s H0 HS; cbn.
  - exists s. now rewrite app_nil_r.
  - destruct (HS [] a l s eq_refl) as (s1 & E1 & H1); [now rewrite app_nil_r|].
    rewrite E1; cbn.
    destruct (IH (done ++ [a]) s1) as (s' & E' & H'); auto.
    + intros pre b post st EL HI. rewrite <- app_assoc in HI.
      destruct (HS (a :: pre) b post st) as (st' & E & R); [now rewrite EL|auto|].
      exists st'; split; auto. rewrite <- app_assoc. auto.
    + exists s'; split; auto. now rewrite <- app_assoc in H'.
Qed.

Lemma take_line_newline n l rest : Forall (fun c => c <> 10) l -> (length l < n)%nat ->
  take_line n (l ++ 10 :: rest) = (l ++ [10], rest).
Proof.
  revert n; induction l as [|c l IH]; intros [|n] F L; cbn in *; try lia; auto.
  inversion F; subst. replace (c =? 10) with false by lia. rewrite IH by (auto; lia). auto.
Qed.

Lemma take_line_split n l : fst (take_line n l) ++ snd (take_line n l) = l.
Proof.
  revert l; induction n as [|n IH]; intros [|c l]; cbn; auto.
  destruct (c =? 10); auto. specialize (IH l). destruct (take_line n l); cbn in *. congruence.
Qed.

Lemma take_line_length n l : (length (fst (take_line n l)) <= n)%nat.
Proof.
  revert l; induction n as [|n IH]; intros [|c l]; cbn; try lia.
  destruct (c =? 10); cbn; [lia|]. specialize (IH l). destruct (take_line n l); cbn in *. lia.
Qed.

Lemma fgets_newline n l rest : Forall (fun c => c <> 10) l -> zlen l + 1 < n ->
  fgets n (l ++ 10 :: rest) = Some (l ++ [10], rest).
Proof.
  intros F L; unfold fgets. rewrite (take_line_newline _ l rest) by (auto; unfold zlen in *; lia).
  destruct l; reflexivity.
Qed.

Lemma fgets_buf_length buf file b rest : fgets_buf buf file = Some (b, rest) -> (0 < length buf)%nat ->
  length b = length buf.
Proof.
  unfold fgets_buf, fgets; destruct file as [|c f]; [discriminate|]. intros H P.
  destruct (take_line (Z.to_nat (zlen buf - 1)) (c :: f)) as [l r] eqn:E. inversion H; subst; clear H.
  pose proof (take_line_length (Z.to_nat (zlen buf - 1)) (c :: f)) as L. rewrite E in L. cbn [fst] in L.
  unfold zlen in L. rewrite app_length. cbn [length]. rewrite skipn_length. lia.
Qed.

(** The same for a counting loop: the invariant speaks of the next index. *)
Lemma ofold_zrange {S} (f : S -> Z -> outcome S) (I : Z -> S -> Prop) lo hi s : lo <= hi + 1 -> I lo s ->
  (forall k st, lo <= k <= hi -> I k st -> exists st', f st k = Ret st' /\ I (k + 1) st') ->
  exists s', ofold f (zrange lo hi) s = Ret s' /\ I (hi + 1) s'.
Proof.
  intros Hlo H0 HS. remember (Z.to_nat (hi + 1 - lo)) as n eqn:En. revert lo s Hlo H0 HS En.
  induction n as [|n IH]; intros lo s Hlo H0 HS En.
  - rewrite zrange_nil by lia. exists s. split; [reflexivity|]. replace (hi + 1) with lo by lia. exact H0.
  - rewrite zrange_cons by lia. cbn. destruct (HS lo s ltac:(lia) H0) as (s1 & -> & H1). cbn.
    apply IH; try lia; auto. intros k st Hk. apply HS. lia.
Qed.

(** A loop counting down: the invariant speaks of the last index done. *)
Lemma ofold_zrange_rev {S} (f : S -> Z -> outcome S) (I : Z -> S -> Prop) lo hi s : lo <= hi + 1 -> I (hi + 1) s ->
  (forall k st, lo <= k <= hi -> I (k + 1) st -> exists st', f st k = Ret st' /\ I k st') ->
  exists s', ofold f (rev (zrange lo hi)) s = Ret s' /\ I lo s'.
Proof.
  intros Hlo H0 HS. remember (Z.to_nat (hi + 1 - lo)) as n eqn:En. revert hi s Hlo H0 HS En.
  induction n as [|n IH]; intros hi s Hlo H0 HS En.
  - rewrite zrange_nil by lia. exists s. split; [reflexivity|]. replace lo with (hi + 1) by lia. exact H0.
  - rewrite zrange_snoc, rev_app_distr by lia. cbn [rev app ofold]. destruct (HS hi s ltac:(lia) H0) as (s1 & -> & H1). cbn [bind].
    apply IH; try lia; auto; [now replace (hi - 1 + 1) with hi by lia|]. intros k st Hk. apply HS. lia.
Qed.
