(** Proofs for L2qProps. *)
From Coq Require Import Permutation.
From Verif Require Import Base CStr CStrFacts L2qModel L2qSpec.

Ltac other x := destruct x as [|x|x]; try reflexivity; do 6 (try (destruct x as [x|x|]; try reflexivity)); congruence.
Lemma starts_spec w : forall l, starts w l = true <-> exists r, l = w ++ r.
Proof.
  induction w as [|a w IH]; intros l; cbn [starts app].
  - split; [intros _; now exists l | auto].
  - destruct l as [|c t]; [split; [discriminate | intros (r & E); discriminate]|].
    rewrite andb_true_iff, Z.eqb_eq, IH. split.
    + intros (-> & r & ->). now exists r.
    + intros (r & E). injection E as -> ->. eauto.
Qed.
Lemma contains_spec w : forall l, contains w l = true <-> occurs w l.
Proof.
  induction l as [|c t IH]; cbn [contains]; rewrite orb_true_iff, starts_spec; unfold occurs.
  - split.
    + intros [(r & E)|]; [|discriminate]. now exists [], r.
    + intros (a & b & E). left. destruct a; [cbn in E; eauto | discriminate].
  - rewrite IH. unfold occurs. split.
    + intros [(r & E)|(a & b & ->)]; [now exists [], r | now exists (c :: a), b].
    + intros (a & b & E). destruct a as [|x a]; [left; cbn in E; eauto|]. injection E as -> ->. right. eauto.
Qed.

Lemma match_at_spec p : forall l r, match_at p l = Some r <-> exists s, l = s ++ r /\ resembles p s.
Proof.
  unfold resembles. induction p as [|a p IH]; intros l r; cbn [match_at].
  - split.
    + intros E. injection E as ->. exists []. split; auto.
    + intros (s & -> & F). inversion F. reflexivity.
  - destruct l as [|c t].
    + split; [discriminate|]. intros (s & E & F). inversion F; subst. discriminate.
    + destruct ((a =? 46) || (a =? c)) eqn:C.
      * rewrite IH. split.
        { intros (s & -> & F). exists (c :: s). split; [reflexivity|]. constructor; [lia | exact F]. }
        { intros (s & E & F). inversion F as [|? b ? s' Ab F']; subst. injection E as -> ->. eauto. }
      * split; [discriminate|]. intros (s & E & F). inversion F as [|? b ? s' Ab F']; subst. injection E as -> ->. lia.
Qed.

Lemma unique_blank (a b c d : text) : ~ In 32 a -> ~ In 32 b -> a ++ 32 :: b = c ++ 32 :: d -> a = c /\ b = d.
Proof.
  revert c. induction a as [|x a IH]; intros c A B E.
  - destruct c as [|y c]; cbn in E; [injection E as ->; auto|].
    injection E as <- ->. exfalso. apply B. apply in_or_app. right. now left.
  - destruct c as [|y c]; cbn in E; [injection E as -> _; exfalso; apply A; now left|].
    injection E as <- E. destruct (IH c) as (-> & ->); auto. intros I. apply A. now right.
Qed.

Lemma sed_step p st c t : (forall r, match_at p (c :: t) <> Some (32 :: r)) -> sed_line p st (c :: t) = c :: sed_line p st t.
Proof.
  intros N. cbn [sed_line]. destruct (match_at p (c :: t)) as [[|x r]|] eqn:M; auto.
  destruct (Z.eq_dec x 32) as [->|D]; [exfalso; eapply N; reflexivity|].
  other x.
Qed.

Lemma sed_none p st : p <> [] -> forall s, ~ In 32 s -> sed_line p st s = s.
Proof.
  intros N. induction s as [|c t IH]; intros B.
  - cbn [sed_line]. destruct p; [contradiction | reflexivity].
  - rewrite sed_step; [rewrite IH; auto; intros I; apply B; now right|].
    intros r M. apply match_at_spec in M as (s & E & F). apply B. rewrite E. apply in_or_app. right. now left.
Qed.

Lemma sed_hit p st s : sed_line p st (p ++ 32 :: s) = p ++ 32 :: st.
Proof.
  assert (M : match_at p (p ++ 32 :: s) = Some (32 :: s)).
  { apply match_at_spec. exists p. split; auto. unfold resembles. induction p; constructor; auto. }
  destruct (p ++ 32 :: s) as [|c t] eqn:E.
  - destruct p; discriminate.
  - cbn [sed_line]. rewrite M. rewrite <- E, firstn_app, firstn_all, Nat.sub_diag. cbn. rewrite app_nil_r. reflexivity.
Qed.

Lemma sed_miss p st s : p <> [] -> ~ In 32 s -> forall q, ~ In 32 q -> (forall a b, q = a ++ b -> ~ resembles p b) -> sed_line p st (q ++ 32 :: s) = q ++ 32 :: s.
Proof.
  intros N S. induction q as [|c q IH]; intros Q A.
  - cbn [app]. rewrite sed_step, sed_none; auto.
    intros r M. apply match_at_spec in M as (x & E & F). destruct x as [|y x]; [inversion F; subst; contradiction|].
    injection E as <- ->. apply S. apply in_or_app. right. now left.
  - cbn [app]. rewrite sed_step.
    + rewrite IH; auto; [intros I; apply Q; now right|]. intros a b -> R. apply (A (c :: a) b); auto.
    + intros r M. apply match_at_spec in M as (x & E & F). change (c :: q ++ 32 :: s) with ((c :: q) ++ 32 :: s) in E.
      apply unique_blank in E as (<- & _); auto. apply (A [] (c :: q)); auto.
Qed.

Lemma path_plain p : path p -> existsb (fun c => memz c special) p = false /\ memz 43 p = false.
Proof.
  intros (_ & _ & M). split.
  - apply not_true_iff_false. intros E. apply existsb_exists in E as (c & I & E). apply memz_spec in E. apply (M c I). revert E. vm_compute. intuition.
  - apply memz_false. intros I. apply (M 43 I). vm_compute. intuition.
Qed.

Lemma record_ok U p st es : apart U -> Forall path U -> In p U -> good U es -> record p st (map line es) = Some (map line (set_status p st es)).
Proof.
  intros A P I G. unfold record. rewrite Forall_forall in P. destruct (path_plain p (P p I)) as (-> & ->). f_equal.
  unfold set_status. rewrite !map_map. apply map_ext_in. intros (q, s) J. unfold good in G. rewrite Forall_forall in G. destruct (G _ J) as (Q & W). cbn [fst snd] in *.
  unfold line. destruct (list_eq_dec Z.eq_dec q p) as [->|D]; cbn [fst snd].
  - apply sed_hit.
  - apply sed_miss.
    + destruct (P p I) as ((N & _) & _). exact N.
    + apply W.
    + destruct (P q Q) as (Wq & _). apply Wq.
    + intros a b E R. apply D. symmetry. exact (A p q a b I Q E R).
Qed.

Lemma set_good U p st es : In p U -> word st -> good U es -> good U (set_status p st es).
Proof.
  intros I W G. unfold good, set_status in *. rewrite Forall_forall in *. intros e J. apply in_map_iff in J as (e' & <- & J).
  destruct (list_eq_dec _ _ _); [cbn [fst snd]; split; assumption | exact (G e' J)].
Qed.

Lemma core_word w tmp img st : core w tmp img = Some st -> st = DONE \/ st = FAIL.
Proof. unfold core. intros E. injection E as <-. destruct (w_core _ _); auto. Qed.
Lemma process_status w tmp img st : process w tmp img = Some st -> st = DONE \/ st = FAIL.
Proof.
  unfold process. destruct (_ || _).
  - destruct (negb _); [discriminate|]. destruct (w_unpack _ _); [apply core_word | intros E; injection E; auto].
  - destruct (ends _ _).
    + destruct (negb _); [discriminate|]. destruct (w_unpack _ _); [|intros E; injection E; auto]. destruct (w_dir _ _); [apply core_word | discriminate].
    + destruct (w_dir _ _); [apply core_word | discriminate].
Qed.
Lemma word_DONE : word DONE. Proof. repeat split; try discriminate; vm_compute; intuition discriminate. Qed.
Lemma word_FAIL : word FAIL. Proof. repeat split; try discriminate; vm_compute; intuition discriminate. Qed.
Lemma word_QUEUED : word QUEUED. Proof. repeat split; try discriminate; vm_compute; intuition discriminate. Qed.
Lemma process_word w tmp img st : process w tmp img = Some st -> word st.
Proof. intros E. destruct (process_status _ _ _ _ E) as [->| ->]; [exact word_DONE | exact word_FAIL]. Qed.

Lemma run_ok U w tmp c : apart U -> Forall path U -> forall evs es, good U es -> Forall (concerns U) evs ->
  run w tmp (mkState (map line es) c) evs = Some (mkState (map line (meaning w tmp es evs)) c) /\ good U (meaning w tmp es evs).
Proof.
  intros A P. induction evs as [|e evs IH]; intros es G F; cbn [run meaning]; [auto|].
  inversion F as [|? ? C F']; subst. destruct e as [img|p| |]; cbn [concerns step] in *; try contradiction.
  - destruct (process w tmp img) as [st|] eqn:E; [|apply IH; auto]. cbn [s_lines].
    rewrite (record_ok U) by auto. cbn [s_copy]. apply IH; auto. apply set_good; eauto using process_word.
  - cbn [s_lines s_copy].
    assert (G2 : good U (es ++ [(p, QUEUED)])) by (unfold good in *; apply Forall_app; split; auto; constructor; [split; [exact C | exact word_QUEUED] | constructor]).
    destruct (IH _ G2 F') as (R & G3). rewrite map_app in R. exact (conj R G3).
Qed.

(** Jobs. *)
Lemma erase_clean w : forall l r, (forall a b, l ++ r = a ++ b -> (length a < length l)%nat -> starts w b = false) -> erase w 0 (l ++ r) = l ++ erase w 0 r.
Proof.
  induction l as [|c l IH]; intros r N; [reflexivity|]. cbn [app erase].
  pose proof (N [] (c :: l ++ r) eq_refl) as E. cbn [app length starts] in E. rewrite E by lia. f_equal. apply IH.
  intros a b Eq L. apply (N (c :: a) b); [cbn; f_equal; exact Eq | cbn; lia].
Qed.
Lemma erase_queued : erase QUEUED 0 QUEUED = [].
Proof. vm_compute. reflexivity. Qed.

Lemma no_start p b : ~ occurs QUEUED p -> ~ In 32 p -> forall a, p ++ 32 :: QUEUED = a ++ b -> (length a < length (p ++ [32%Z]))%nat -> starts QUEUED b = false.
Proof.
  intros N B a E L. apply not_true_iff_false. intros S. apply starts_spec in S as (r & ->).
  (* the occurrence begins within p or at the blank *)
  assert (Cut : exists u v, p ++ [32%Z] = a ++ u ++ v /\ u ++ v <> [] /\ (u = QUEUED \/ (v = [] /\ exists z, QUEUED = u ++ z))).
  { assert (E' : (p ++ [32%Z]) ++ QUEUED = a ++ QUEUED ++ r) by (rewrite <- app_assoc; exact E).
    assert (Pa : exists m, p ++ [32%Z] = a ++ m /\ m ++ QUEUED = QUEUED ++ r /\ m <> []).
    { clear -E' L. revert a E' L. generalize (p ++ [32%Z]). intros q. induction q as [|x q IH]; intros a E L; [cbn in L; lia|].
      destruct a as [|y a]; [exists (x :: q); split; auto; split; auto; discriminate|]. injection E as <- E. destruct (IH a E ltac:(cbn in L; lia)) as (m & -> & F & N). exists m. auto. }
    destruct Pa as (m & Em & Eq & Nm). destruct (le_lt_dec (length QUEUED) (length m)) as [Le|Lt].
    - exists QUEUED, (skipn (length QUEUED) m). assert (Mm : m = QUEUED ++ skipn (length QUEUED) m).
      { rewrite <- (firstn_skipn (length QUEUED) m) at 1. f_equal. apply (f_equal (firstn (length QUEUED))) in Eq. rewrite !firstn_app in Eq. rewrite firstn_all, Nat.sub_diag in Eq. replace (length QUEUED - length m)%nat with 0%nat in Eq by lia. cbn [firstn] in Eq. rewrite !app_nil_r in Eq. exact Eq. }
      rewrite <- Mm. auto.
    - exists m, []. rewrite app_nil_r. split; auto. split; auto. right. split; auto. exists (skipn (length m) QUEUED).
      rewrite <- (firstn_skipn (length m) QUEUED) at 1. f_equal. apply (f_equal (firstn (length m))) in Eq. rewrite !firstn_app in Eq. rewrite firstn_all, Nat.sub_diag in Eq. replace (length m - length QUEUED)%nat with 0%nat in Eq by lia. cbn [firstn] in Eq. rewrite !app_nil_r in Eq. auto. }
  destruct Cut as (u & v & E2 & Nn & [-> | (-> & z & Z)]).
  - apply N. destruct v as [|x v] using rev_ind.
    + rewrite app_nil_r in E2. apply (f_equal (@rev Z)) in E2. rewrite !rev_app_distr in E2. cbn in E2. discriminate.
    + rewrite !app_assoc in E2. apply app_inj_tail in E2 as (-> & _). exists a, v. rewrite app_assoc. reflexivity.
  - rewrite app_nil_r in *. destruct u as [|x u] using rev_ind; [contradiction|]. rewrite app_assoc in E2. apply app_inj_tail in E2 as (_ & <-).
    assert (In 32 QUEUED) by (rewrite Z; apply in_or_app; left; apply in_or_app; right; now left). revert H. vm_compute. intuition discriminate.
Qed.

Lemma erase_line p : ~ occurs QUEUED p -> ~ In 32 p -> erase QUEUED 0 (p ++ 32 :: QUEUED) = p ++ [32%Z].
Proof.
  intros N B. change (p ++ 32 :: QUEUED) with (p ++ [32%Z] ++ QUEUED). rewrite app_assoc.
  rewrite erase_clean; [rewrite erase_queued, app_nil_r; reflexivity|].
  intros a b E. rewrite <- app_assoc in E. apply (no_start p b N B a E).
Qed.

Lemma unblank_word p : ~ In 32 p -> unblank (p ++ [32%Z]) = p.
Proof.
  intros B. unfold unblank. rewrite filter_app. cbn. rewrite app_nil_r. induction p as [|c p IH]; [reflexivity|]. cbn.
  destruct (c =? 32) eqn:C; [exfalso; apply B; left; lia|]. cbn. f_equal. apply IH. intros I. apply B. now right.
Qed.

Lemma tokens_word p : p <> [] -> ~ In 32 p -> tokens [32%Z] (p ++ [32%Z]) = [p].
Proof.
  intros N B. assert (F : Forall (fun c => memz c [32%Z] = false) p) by (apply Forall_forall; intros c I; apply memz_false; intros [<-|[]]; auto).
  destruct p as [|c p]; [contradiction|]. unfold tokens. cbn [strtok_all]. unfold strtok.
  assert (C : memz c [32%Z] = false) by (inversion F; auto).
  change ((c :: p) ++ [32%Z]) with (c :: (p ++ [32%Z])). rewrite skip_while_clean by auto.
  change (c :: p ++ [32%Z]) with ((c :: p) ++ 32 :: []). rewrite take_until_app by (auto; reflexivity).
  assert (D : drop_until [32%Z] ((c :: p) ++ [32%Z]) = [32%Z]).
  { clear -F. induction (c :: p) as [|x q IH]; [reflexivity|]. inversion F; subst. cbn [app drop_until]. rewrite H1. auto. }
  rewrite D. cbn [tl]. destruct (length ((c :: p) ++ [32%Z])) eqn:L; [reflexivity|]. reflexivity.
Qed.

Lemma app_split (x : text) : forall y a b, x ++ y = a ++ b -> (length x <= length a)%nat -> exists z, a = x ++ z /\ y = z ++ b.
Proof.
  induction x as [|c x IH]; intros y a b E L; [exists a; auto|]. destruct a as [|d a]; [cbn in L; lia|]. injection E as <- E.
  destruct (IH y a b E ltac:(cbn in L; lia)) as (z & -> & ->). exists z. auto.
Qed.

Lemma contains_line U es e : good U es -> Forall path U -> Forall unambiguous es -> In e es -> contains QUEUED (line e) = waits e.
Proof.
  intros G P A I. unfold good in G. rewrite Forall_forall in *. destruct (G e I) as (Q & W), (A e I) as (N & S). specialize (P _ Q). destruct P as ((_ & B & _) & _).
  unfold waits. destruct (list_eq_dec Z.eq_dec (snd e) QUEUED) as [E|D].
  - apply contains_spec. exists (fst e ++ [32%Z]), []. unfold line. rewrite E, <- app_assoc. reflexivity.
  - apply not_true_iff_false. intros C. apply contains_spec in C as (a & b & E). unfold line in E.
    destruct (le_lt_dec (length (fst e) + 1) (length a)) as [L|L].
    + apply D, S. change (fst e ++ 32 :: snd e) with (fst e ++ [32%Z] ++ snd e) in E. rewrite app_assoc in E.
      apply app_split in E as (z & _ & Ez); [exists z, b; exact Ez | rewrite app_length; cbn [length]; lia].
    + assert (X : exists m, fst e = a ++ m /\ m ++ 32 :: snd e = QUEUED ++ b).
      { clear -E L. destruct e as (p, s). cbn [fst snd] in *. revert a E L. induction p as [|x p IH]; intros a E L.
        - destruct a; [exists []; auto | cbn in L; lia].
        - destruct a as [|y a]; [exists (x :: p); auto|]. injection E as <- E. destruct (IH a E ltac:(cbn in L; lia)) as (m & -> & F). exists m. auto. }
      destruct X as (m & Em & Eq). apply N. rewrite Em.
      assert (Bm : ~ In 32 m) by (intros J; apply B; rewrite Em; apply in_or_app; now right).
      assert (Le : (length QUEUED <= length m)%nat).
      { destruct (le_lt_dec (length QUEUED) (length m)) as [|Lt]; auto. exfalso.
        assert (In 32 QUEUED); [|revert H; vm_compute; intuition discriminate].
        apply (f_equal (fun l => nth_error l (length m))) in Eq. rewrite nth_error_app2, Nat.sub_diag in Eq by lia. rewrite nth_error_app1 in Eq by lia. cbn in Eq. symmetry in Eq. eapply nth_error_In, Eq. }
      exists a, (skipn (length QUEUED) m). f_equal. rewrite <- (firstn_skipn (length QUEUED) m) at 1. f_equal.
      apply (f_equal (firstn (length QUEUED))) in Eq. rewrite !firstn_app in Eq. rewrite firstn_all, Nat.sub_diag in Eq. replace (length QUEUED - length m)%nat with 0%nat in Eq by lia. cbn [firstn] in Eq. rewrite !app_nil_r in Eq. exact Eq.
Qed.

Lemma queued_ok U es : good U es -> Forall path U -> Forall unambiguous es -> queued (map line es) = map (fun e => fst e ++ [32%Z]) (filter waits es).
Proof.
  intros G P A. unfold queued.
  assert (E : filter (contains QUEUED) (map line es) = map line (filter waits es)).
  { assert (H : forall e, In e es -> contains QUEUED (line e) = waits e) by (intros; eapply contains_line; eauto). clear G A.
    induction es as [|e es IH]; [reflexivity|]. cbn [map filter]. rewrite H by now left. rewrite IH by (intros; apply H; now right). destruct (waits e); reflexivity. }
  rewrite E, map_map. apply map_ext_in. intros e I. apply filter_In in I as (I & W). unfold waits in W. destruct (list_eq_dec _ _ _) as [Q|]; [|discriminate].
  unfold line. rewrite Q. unfold good in G. rewrite Forall_forall in *. destruct (G e I) as (Iu & _). destruct (P _ Iu) as ((_ & B & _) & _). apply erase_line; auto. apply A; auto.
Qed.

Lemma jobs_ok U es : good U es -> Forall path U -> Forall unambiguous es ->
  jobs (map line es) = if existsb waits es then Ret (map fst (filter waits es)) else Exit.
Proof.
  intros G P A. unfold jobs. rewrite (queued_ok U) by auto.
  assert (T : flat_map (tokens [32%Z]) (map (fun e => fst e ++ [32%Z]) (filter waits es)) = map fst (filter waits es) /\ forallb (starts [47]) (map fst (filter waits es)) = true /\ map unblank (map (fun e => fst e ++ [32%Z]) (filter waits es)) = map fst (filter waits es)).
  { assert (H : forall e, In e (filter waits es) -> path (fst e)).
    { intros e I. apply filter_In in I as (I & _). unfold good in G. rewrite Forall_forall in *. apply P. apply (G e I). }
    revert H. generalize (filter waits es). intros l. induction l as [|e l IH]; intros H; [auto|]. destruct IH as (E1 & E2 & E3); [intros; apply H; now right|].
    destruct (H e) as ((N & B & _) & (t & Ab) & _); [now left|]. cbn [map flat_map forallb]. rewrite tokens_word, unblank_word by auto. rewrite E1, E2, E3. cbn [app]. split; [reflexivity | split; [|reflexivity]]. rewrite Ab. reflexivity. }
  destruct T as (-> & -> & ->).
  assert (X : existsb waits es = negb (zlen (map fst (filter waits es)) =? 0)).
  { clear. unfold zlen. rewrite map_length. induction es as [|e es IH]; [reflexivity|]. cbn [existsb filter]. destruct (waits e); cbn [orb length]; [lia | exact IH]. }
  rewrite X. destruct (_ =? 0); reflexivity.
Qed.

(** Cleaning. *)
Lemma untab_blank b : blank b -> untab b = repeat 32 (length b).
Proof. induction 1 as [|c b [->| ->] _ IH]; cbn; [reflexivity | f_equal; exact IH | f_equal; exact IH]. Qed.
Lemma untab_word p : ~ In 9 p -> untab p = p.
Proof. induction p as [|c p IH]; intros N; [reflexivity|]. cbn. destruct (c =? 9) eqn:C; [exfalso; apply N; left; lia|]. f_equal. apply IH. intros I. apply N. now right. Qed.
Lemma squeeze_word p r : ~ In 32 p -> squeeze (p ++ r) = p ++ squeeze r.
Proof. induction p as [|c p IH]; intros N; [reflexivity|]. cbn [app squeeze]. destruct (c =? 32) eqn:C; [exfalso; apply N; left; lia|]. cbn [andb]. f_equal. apply IH. intros I. apply N. now right. Qed.
Lemma squeeze_blank n r : hd 0 r <> 32 -> squeeze (repeat 32 (S n) ++ r) = 32 :: squeeze r.
Proof.
  intros H. induction n as [|n IH].
  - cbn [repeat app squeeze]. change (32 =? 32) with true. cbn [andb]. destruct r as [|d r]; [reflexivity|]. cbn [hd] in H. destruct (d =? 32) eqn:D; [lia|]. reflexivity.
  - change (repeat 32 (S (S n)) ++ r) with (32 :: (repeat 32 (S n) ++ r)). cbn [squeeze]. change (32 =? 32) with true. cbn [andb]. change (repeat 32 (S n) ++ r) with (32 :: repeat 32 n ++ r) at 1. cbv iota beta. change (32 =? 32) with true. cbv iota. exact IH.
Qed.
Lemma squeeze_blanks n r : hd 0 r <> 32 -> squeeze (repeat 32 n ++ r) = (match n with O => [] | _ => [32%Z] end) ++ squeeze r.
Proof. destruct n; [reflexivity | apply squeeze_blank]. Qed.
Lemma strip_first_other l : hd 0 l <> 32 -> strip_first l = l.
Proof. destruct l as [|c l]; [reflexivity|]. cbn [hd strip_first]. intros H. other c. Qed.
Lemma strip_last_other l : hd 0 (rev l) <> 32 -> strip_last l = l.
Proof. unfold strip_last. destruct (rev l) as [|c r]; [reflexivity|]. cbn [hd]. intros H. other c. Qed.
Lemma strip_last_blank l : strip_last (l ++ [32%Z]) = l.
Proof. unfold strip_last. rewrite rev_app_distr. cbn. apply rev_involutive. Qed.
Lemma unix_other l : hd 0 (rev l) <> 13 -> unix l = l.
Proof. unfold unix. destruct (rev l) as [|c r]; [reflexivity|]. cbn [hd]. intros H. other c. Qed.
Lemma unix_cr l : unix (l ++ [13]) = l.
Proof. unfold unix. rewrite rev_app_distr. cbn. apply rev_involutive. Qed.
Lemma hd_rev_word (a s : text) x : word s -> (x = 32 \/ x = 13) -> hd 0 (rev (a ++ s)) <> x.
Proof.
  intros (N & A & _ & B) X. destruct s as [|c s] using rev_ind; [contradiction|]. rewrite app_assoc, rev_app_distr. cbn. intros ->.
  destruct X as [-> | ->]; [apply A | apply B]; apply in_or_app; right; now left.
Qed.

Lemma clean_ok a p b s c : blank a -> word p -> blank b -> b <> [] -> word s -> blank c -> forall cr, cr = [] \/ cr = [13] -> clean (a ++ p ++ b ++ s ++ c ++ cr) = line (p, s).
Proof.
  intros A P B Nb S C cr Cr. unfold clean.
  assert (U : unix (a ++ p ++ b ++ s ++ c ++ cr) = a ++ p ++ b ++ s ++ c).
  { destruct Cr as [-> | ->].
    - rewrite app_nil_r. apply unix_other. destruct c as [|x c] using rev_ind.
      + rewrite app_nil_r, !app_assoc. apply hd_rev_word; auto.
      + clear IHc. rewrite !app_assoc, rev_app_distr. cbn. apply Forall_app in C as (_ & C). inversion C as [|? ? [->| ->] _]; discriminate.
    - rewrite !app_assoc, unix_cr. reflexivity. }
  rewrite U. unfold untab. rewrite !map_app. fold (untab a) (untab p) (untab b) (untab s) (untab c).
  destruct P as (Np & P32 & P9 & P13), S as (Ns & S32 & S9 & S13).
  rewrite (untab_blank a), (untab_blank b), (untab_blank c), (untab_word p), (untab_word s) by assumption.
  assert (Hs : hd 0 (s ++ repeat 32 (length c)) <> 32) by (destruct s as [|x s]; [contradiction|]; cbn; intros ->; apply S32; now left).
  assert (Hp : hd 0 (p ++ repeat 32 (length b) ++ s ++ repeat 32 (length c)) <> 32) by (destruct p as [|x p]; [contradiction|]; cbn; intros ->; apply P32; now left).
  rewrite squeeze_blanks by auto. rewrite squeeze_word by auto. destruct b as [|x b]; [contradiction|]. cbn [length]. rewrite squeeze_blank by auto. rewrite squeeze_word by auto.
  rewrite <- (app_nil_r (repeat 32 (length c))). rewrite squeeze_blanks by (cbn; lia). cbn [squeeze]. rewrite app_nil_r.
  set (tail := match length c with O => [] | S _ => [32%Z] end).
  assert (F : strip_first ((match length a with O => [] | S _ => [32%Z] end) ++ p ++ 32 :: s ++ tail) = p ++ 32 :: s ++ tail).
  { destruct (length a); [|reflexivity]. apply strip_first_other. cbn [app]. destruct p as [|y p]; [contradiction|]. cbn. intros ->. apply P32. now left. }
  rewrite F. unfold line. cbn [fst snd]. subst tail. destruct (length c).
  - rewrite app_nil_r. apply strip_last_other. change (32 :: s) with ([32%Z] ++ s). rewrite app_assoc. apply hd_rev_word; auto. split; auto.
  - change (p ++ 32 :: s ++ [32%Z]) with (p ++ (32 :: s) ++ [32%Z]). rewrite app_assoc. apply strip_last_blank.
Qed.

(** Completions only. *)
Lemma meaning_finished w tmp : forall imgs es,
  meaning w tmp es (map Finished imgs) = map (fun e => (fst e, if in_dec (list_eq_dec Z.eq_dec) (fst e) imgs then match process w tmp (fst e) with Some st => st | None => snd e end else snd e)) es.
Proof.
  induction imgs as [|i imgs IH]; intros es; cbn [map meaning].
  - symmetry. erewrite map_ext; [apply map_id|]. intros (p, s). reflexivity.
  - rewrite IH. destruct (process w tmp i) as [st|] eqn:P.
    + unfold set_status. rewrite map_map. apply map_ext. intros (p, s). cbn [fst snd].
      destruct (list_eq_dec Z.eq_dec p i) as [E|D]; cbn [fst snd].
      * subst i. rewrite P. repeat match goal with |- context [in_dec ?d ?x ?l] => destruct (in_dec d x l) end; try reflexivity; exfalso; cbn [In] in *; tauto.
      * repeat match goal with |- context [in_dec ?d ?x ?l] => destruct (in_dec d x l) end; try reflexivity; exfalso; cbn [In] in *; intuition congruence.
    + apply map_ext. intros (p, s). cbn [fst snd].
      repeat match goal with |- context [in_dec ?d ?x ?l] => destruct (in_dec d x l) end; try reflexivity; cbn [In] in *; [exfalso; tauto|].
      assert (i = p) as <- by tauto. rewrite P. reflexivity.
Qed.
Lemma status_unambiguous st : st = DONE \/ st = FAIL -> ~ occurs QUEUED st /\ st <> QUEUED.
Proof.
  intros H. assert (contains QUEUED st = false /\ st <> QUEUED) as (C & N) by (destruct H as [-> | ->]; split; vm_compute; congruence).
  split; auto. rewrite <- contains_spec. congruence.
Qed.
