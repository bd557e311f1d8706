(** Proofs for CsdProps. *)
From Verif Require Import Base CsdModel CsdSpec.
From Coq Require Import Permutation Sorting.Sorted Arith.

Lemma insert_perm b x l : Permutation (insert b x l) (x :: l).
Proof. induction l as [|y t IH]; cbn [insert]; [auto|]. destruct (b x y); [auto|]. rewrite IH. apply perm_swap. Qed.
Lemma sort_perm b l : Permutation (arrange b l) l.
Proof. induction l as [|x t IH]; [constructor|]. change (arrange b (x :: t)) with (insert b x (arrange b t)). rewrite insert_perm. now constructor. Qed.
Lemma insert_sorted (b : scene -> scene -> bool) x l : (forall u v, b u v = true \/ b v u = true) -> (forall u v w, b u v = true -> b v w = true -> b u w = true) ->
  StronglySorted (fun u v => b u v = true) l -> StronglySorted (fun u v => b u v = true) (insert b x l).
Proof.
  intros T Tr. induction 1 as [|y t S IH F]; cbn [insert]; [repeat constructor|]. destruct (b x y) eqn:E.
  - constructor; [constructor; auto|]. constructor; auto. eapply Forall_impl; [|exact F]. cbv beta. eauto.
  - constructor; auto. apply Forall_forall. intros z I. apply (Permutation_in _ (insert_perm b x t)) in I. destruct I as [<-|I].
    + destruct (T y x); congruence.
    + rewrite Forall_forall in F. auto.
Qed.
Lemma sort_sorted b l : (forall u v, b u v = true \/ b v u = true) -> (forall u v w, b u v = true -> b v w = true -> b u w = true) ->
  StronglySorted (fun u v => b u v = true) (arrange b l).
Proof. intros T Tr. induction l as [|x t IH]; [constructor|]. change (arrange b (x :: t)) with (insert b x (arrange b t)). now apply insert_sorted. Qed.

Lemma firsts_in key : forall l seen s, In s (firsts key seen l) -> In s l /\ ~ In (key s) seen.
Proof.
  induction l as [|x t IH]; intros seen s I; [destruct I|]. cbn [firsts] in I. destruct (in_dec key_dec (key x) seen) as [K|K].
  - destruct (IH _ _ I). split; [now right | auto].
  - destruct I as [<-|I]; [split; [now left | auto]|]. destruct (IH _ _ I) as (A & B). split; [now right | intros C; apply B; now right].
Qed.
Lemma firsts_nodup key : forall l seen, NoDup (map key (firsts key seen l)).
Proof.
  induction l as [|x t IH]; intros seen; cbn [firsts]; [constructor|]. destruct (in_dec key_dec (key x) seen) as [K|K]; auto. cbn [map]. constructor; auto.
  intros I. apply in_map_iff in I as (y & E & I). apply firsts_in in I as (_ & N). apply N. left. auto.
Qed.
Lemma firsts_best key : forall l seen s, StronglySorted (fun u v => newest_first u v = true) l -> In s l -> ~ In (key s) seen ->
  exists t, In t (firsts key seen l) /\ key t = key s /\ c_version s <= c_version t.
Proof.
  induction l as [|x t IH]; intros seen s S I N; [destruct I|]. inversion S as [|? ? S' F]; subst. cbn [firsts]. destruct (in_dec key_dec (key x) seen) as [K|K].
  - destruct I as [<-|I]; [contradiction|]. now apply IH.
  - destruct (key_dec (key x) (key s)) as [E|D].
    + exists x. split; [now left|]. split; auto. destruct I as [<-|I]; [lia|]. rewrite Forall_forall in F. specialize (F s I). unfold newest_first in F. lia.
    + destruct I as [<-|I]; [congruence|]. destruct (IH (key x :: seen) s S' I) as (u & A & B & C); [intros [E|E]; auto|]. exists u. split; [now right | auto].
Qed.

Lemma wanted_spec q s : wanted q s = true <-> satisfies q s.
Proof. unfold wanted, satisfies. rewrite !andb_true_iff, !Z.leb_le. tauto. Qed.

Lemma select_ok key (same : scene -> scene -> Prop) q cat :
  (forall s t, In s cat -> In t cat -> (key s = key t <-> same s t)) -> chooses same q cat (select key q cat).
Proof.
  intros K. unfold select. set (w := arrange newest_first (filter (wanted q) cat)). set (f := firsts key [] w).
  assert (Pw : forall s, In s w <-> In s cat /\ wanted q s = true).
  { intros s. rewrite <- filter_In. split; apply Permutation_in; [apply sort_perm | apply Permutation_sym, sort_perm]. }
  assert (Pf : forall s, In s (arrange earliest_first f) <-> In s f) by (intros s; split; apply Permutation_in; [apply sort_perm | apply Permutation_sym, sort_perm]).
  assert (Ff : forall s, In s f -> In s cat /\ satisfies q s) by (intros s I; apply firsts_in in I as (I & _); apply Pw in I; rewrite wanted_spec in I; exact I).
  split; [|split; [|split]].
  - intros s I. now apply Ff, Pf.
  - intros s I W. destruct (firsts_best key w [] s) as (t & A & B & C).
    + apply sort_sorted; unfold newest_first; intros; lia.
    + apply Pw. rewrite wanted_spec. auto.
    + intros [].
    + exists t. split; [now apply Pf|]. split; [|exact C]. apply K; auto. now apply Ff.
  - intros l1 s l2 t l3 E Sa.
    assert (N : NoDup (map key (arrange earliest_first f))) by (eapply Permutation_NoDup; [apply Permutation_map, Permutation_sym, sort_perm | apply firsts_nodup]).
    assert (Is : In s cat /\ In t cat).
    { split; apply Ff, Pf; rewrite E; apply in_or_app; right; [now left|]. right. apply in_or_app. right. now left. }
    rewrite E, map_app in N. apply NoDup_remove_2 in N. apply N. apply in_or_app. right.
    assert (Ek : key s = key t) by (apply K; tauto). change (In (key s) (map key (l2 ++ t :: l3))). rewrite Ek. apply in_map. apply in_or_app. right. now left.
  - assert (S : StronglySorted (fun u v => earliest_first u v = true) (arrange earliest_first f)) by (apply sort_sorted; unfold earliest_first; intros; lia).
    apply StronglySorted_Sorted in S. clear -S. induction S as [|a l S IH H]; constructor; auto. inversion H as [|b m B]; constructor. unfold earliest_first in B. lia.
Qed.

(** ** The loop *)
Lemma upd_same {A} (f : Z -> A) s v : upd f s v s = v. Proof. unfold upd. rewrite Z.eqb_refl. reflexivity. Qed.
Lemma upd_other {A} (f : Z -> A) s v x : x <> s -> upd f s v x = f x. Proof. unfold upd. destruct (x =? s) eqn:E; [lia | auto]. Qed.
Lemma do_app p a b : do_ops p (a ++ b) = do_ops (do_ops p a) b.
Proof. unfold do_ops. apply fold_left_app. Qed.
(** Scene of a step. *)
Definition about (o : op) : Z := match o with Begin_file s | File s _ | Queue s => s end.
Lemma do_other os : forall p s, (forall o, In o os -> about o <> s) -> p_files (do_ops p os) s = p_files p s /\ p_flight (do_ops p os) s = p_flight p s.
Proof.
  induction os as [|o os IH]; intros p s N; [auto|]. change (do_ops p (o :: os)) with (do_ops (do_op p o) os).
  destruct (IH (do_op p o) s) as (-> & ->); [intros; apply N; now right|]. specialize (N o (or_introl eq_refl)).
  destruct o as [x|x i|x]; cbn [about] in N; cbn [do_op p_files p_flight]; rewrite ?upd_other by auto; auto.
Qed.
Lemma scene_about n s o : In o (scene_ops n s) -> about o = s.
Proof.
  unfold scene_ops. rewrite in_app_iff, in_flat_map. intros [(i & _ & [<-|[<-|[]]])|[<-|[]]]; reflexivity.
Qed.
Lemma files_ops n s : forall a p, let p' := do_ops p (flat_map (fun i => [Begin_file s; File s i]) (seq (S a) n)) in
  p_queue p' = p_queue p /\ ((0 < n)%nat -> p_flight p' s = false /\ (a + n <= p_files p' s)%nat).
Proof.
  induction n as [|n IH]; intros a p; [cbn; split; auto; lia|]. cbn [seq flat_map].
  rewrite do_app. set (p1 := do_ops p [Begin_file s; File s (S a)]). specialize (IH (S a) p1). cbv zeta in IH |- *. destruct IH as (Q & F). split.
  - rewrite Q. reflexivity.
  - intros _. destruct n as [|n].
    + cbn. rewrite !upd_same. split; [reflexivity | lia].
    + destruct F as (A & B); [lia|]. split; auto. lia.
Qed.
Lemma scene_done n s p : (0 < n)%nat -> let p' := do_ops p (scene_ops n s) in p_queue p' = p_queue p ++ [s] /\ p_flight p' s = false /\ (n <= p_files p' s)%nat.
Proof.
  intros N. unfold scene_ops. rewrite do_app. destruct (files_ops n s 0 p) as (Q & F). destruct (F N) as (A & B). cbn. rewrite Q. auto.
Qed.
Lemma present_done n s p : (0 < n)%nat -> present (do_ops p (scene_ops n s)) s = true.
Proof. intros N. destruct (scene_done n s p N) as (_ & A & B). unfold present. rewrite A. cbn. destruct (Nat.eqb_spec (p_files (do_ops p (scene_ops n s)) s) 0); [lia | reflexivity]. Qed.
Lemma present_other os p s : (forall o, In o os -> about o <> s) -> present (do_ops p os) s = present p s.
Proof. intros N. unfold present. destruct (do_other os p s N) as (-> & ->). reflexivity. Qed.

Lemma missing_ext links p p' : (forall s, In s links -> present p' s = present p s) -> missing links p' = missing links p.
Proof. intros H. unfold missing. induction links as [|s t IH]; [reflexivity|]. cbn [filter]. rewrite H by now left. rewrite IH by (intros; apply H; now right). reflexivity. Qed.

Lemma download_ops n : forall links p, NoDup links -> download n links p = flat_map (fun s => scene_ops (n s) s) (missing links p).
Proof.
  induction links as [|s t IH]; intros p N; [reflexivity|]. inversion N as [|? ? Ni N']; subst. unfold missing. cbn [download filter].
  destruct (present p s); cbn [negb flat_map]; [now apply IH|]. f_equal. rewrite IH by auto. f_equal. apply missing_ext. intros x I. apply present_other.
  intros o O. apply scene_about in O. rewrite O. intros ->. contradiction.
Qed.

Lemma ops_about n T o : In o (flat_map (fun s => scene_ops (n s) s) T) -> In (about o) T.
Proof. rewrite in_flat_map. intros (s & I & O). apply scene_about in O. now rewrite O. Qed.

(** Whole scenes. *)
Lemma do_scenes n : (forall s, (0 < n s)%nat) -> forall T p, NoDup T -> let p' := do_ops p (flat_map (fun s => scene_ops (n s) s) T) in
  p_queue p' = p_queue p ++ T /\ (forall s, In s T -> present p' s = true /\ (n s <= p_files p' s)%nat) /\ (forall s, ~ In s T -> p_files p' s = p_files p s /\ p_flight p' s = p_flight p s).
Proof.
  intros Pn. induction T as [|x T IH]; intros p N; [cbn; rewrite app_nil_r; split; auto; split; intros s I; [destruct I | auto]|].
  inversion N as [|? ? Ni N']; subst. cbn [flat_map]. rewrite do_app. set (p1 := do_ops p (scene_ops (n x) x)). destruct (IH p1 N') as (Q & Pr & Ot). cbv zeta. 
  destruct (scene_done (n x) x p (Pn x)) as (Q1 & F1 & L1). fold p1 in Q1, F1, L1. split; [|split].
  - rewrite Q, Q1, <- app_assoc. reflexivity.
  - intros s [<-|I]; [|now apply Pr]. destruct (Ot x Ni) as (A & B). split; [|rewrite A; exact L1]. unfold present. rewrite A, B.
    pose proof (present_done (n x) x p (Pn x)) as D. fold p1 in D. exact D.
  - intros s I. destruct (Ot s) as (A & B); [intros J; apply I; now right|]. rewrite A, B. apply do_other. intros o O. apply scene_about in O. rewrite O. intros ->. apply I. now left.
Qed.

(** How a prefix of the steps can end. *)
Lemma prefix_form n : forall T pre rest, flat_map (fun s => scene_ops (n s) s) T = pre ++ rest ->
  (pre = flat_map (fun s => scene_ops (n s) s) T) \/
  exists T1 s T2 a b, T = T1 ++ s :: T2 /\ pre = flat_map (fun s => scene_ops (n s) s) T1 ++ a /\ scene_ops (n s) s = a ++ b /\ b <> [].
Proof.
  induction T as [|s T IH]; intros pre rest E; cbn [flat_map] in E.
  - left. destruct pre; [reflexivity | discriminate].
  - destruct (le_lt_dec (length (scene_ops (n s) s)) (length pre)) as [L|L].
    + assert (X : exists z, pre = scene_ops (n s) s ++ z /\ flat_map (fun s => scene_ops (n s) s) T = z ++ rest).
      { clear -E L. revert E L. generalize (flat_map (fun s => scene_ops (n s) s) T). generalize (scene_ops (n s) s). intros x. revert pre. induction x as [|c x IH]; intros pre y E L; [exists pre; auto|].
        destruct pre as [|d pre]; [cbn in L; lia|]. injection E as <- E. destruct (IH pre y E ltac:(cbn in L; lia)) as (z & -> & ->). exists z. auto. }
      destruct X as (z & -> & F). destruct (IH z rest F) as [->|(T1 & u & T2 & a & b & -> & -> & Eu & B)]; [left; reflexivity|].
      right. exists (s :: T1), u, T2, a, b. cbn [flat_map app]. rewrite <- app_assoc. auto.
    + right. assert (X : exists b, scene_ops (n s) s = pre ++ b /\ b <> []).
      { clear -E L. revert E L. generalize (flat_map (fun s => scene_ops (n s) s) T). generalize (scene_ops (n s) s). intros x. revert x. induction pre as [|d pre IH]; intros x y E L.
        - exists x. split; auto. intros ->. cbn in L. lia.
        - destruct x as [|c x]; [cbn in L; lia|]. injection E as <- E. destruct (IH x y E ltac:(cbn in L; lia)) as (b & -> & B). exists b. auto. }
      destruct X as (b & Eb & B). exists [], s, T, pre, b. auto.
Qed.

Lemma part_queue n s a b : scene_ops n s = a ++ b -> b <> [] -> forall x, ~ In (Queue x) a.
Proof.
  unfold scene_ops. intros E B x I. destruct b as [|c b] using rev_ind; [contradiction|]. clear IHb. rewrite app_assoc in E. apply app_inj_tail in E as (E & _).
  assert (J : In (Queue x) (a ++ b)) by (apply in_or_app; now left). rewrite <- E in J. apply in_flat_map in J as (i & _ & [J|[J|[]]]); discriminate.
Qed.
Lemma no_queue os : (forall x, ~ In (Queue x) os) -> forall p, p_queue (do_ops p os) = p_queue p.
Proof.
  induction os as [|o os IH]; intros N p; [reflexivity|]. change (do_ops p (o :: os)) with (do_ops (do_op p o) os). rewrite IH by (intros x I; apply (N x); now right).
  destruct o; try reflexivity. exfalso. apply (N s). now left.
Qed.

Lemma NoDup_split {A} (a : list A) x b : NoDup (a ++ x :: b) -> NoDup a /\ ~ In x a /\ ~ In x b /\ forall y, In y a -> ~ In y b.
Proof.
  intros N. split; [|split; [|split]].
  - induction a as [|y a IH]; [constructor|]. inversion N as [|? ? Ni N']; subst. constructor; auto. intros I. apply Ni, in_or_app. now left.
  - apply NoDup_remove_2 in N. intros I. apply N, in_or_app. now left.
  - apply NoDup_remove_2 in N. intros I. apply N, in_or_app. now right.
  - induction a as [|z a IH]; intros y I J; [destruct I|]. inversion N as [|? ? Ni N']; subst. destruct I as [<-|I]; [apply Ni, in_or_app; right; now right | exact (IH N' y I J)].
Qed.

(** What is queued and what is missing together stay the same. *)
Lemma stopped_keeps n links p k : (forall s, (0 < n s)%nat) -> NoDup links -> harmless (firstn k (download n links p)) ->
  p_queue (stopped n links p k) ++ missing links (stopped n links p k) = p_queue p ++ missing links p.
Proof.
  intros Pn N H. unfold stopped. set (os := download n links p) in *. set (T := missing links p).
  assert (Eo : os = flat_map (fun s => scene_ops (n s) s) T) by (apply download_ops; auto).
  assert (NT : NoDup T) by (apply NoDup_filter; auto).
  assert (IT : forall s, In s T <-> In s links /\ present p s = false) by (intros s; unfold T, missing; rewrite filter_In, negb_true_iff; tauto).
  assert (E : flat_map (fun s => scene_ops (n s) s) T = firstn k os ++ skipn k os) by (rewrite firstn_skipn; auto).
  destruct (prefix_form n T _ _ E) as [E1|(T1 & s & T2 & a & b & ET & E1 & Es & Bn)].
  - rewrite E1. destruct (do_scenes n Pn T p NT) as (Q & Pr & _). rewrite Q.
    assert (M : missing links (do_ops p (flat_map (fun s => scene_ops (n s) s) T)) = []); [|rewrite M, app_nil_r; reflexivity].
    unfold missing.
    assert (Al : forall x, In x links -> present (do_ops p (flat_map (fun s => scene_ops (n s) s) T)) x = true).
    { intros x I. destruct (present p x) eqn:Px.
      - rewrite present_other; auto. intros o O. apply ops_about in O. intros E0. rewrite E0 in O. apply IT in O. destruct O; congruence.
      - apply Pr, IT. auto. }
    clear -Al. revert Al. generalize (do_ops p (flat_map (fun s => scene_ops (n s) s) T)). clear. intros p' Al. induction links as [|x l IH]; [reflexivity|]. cbn [filter]. rewrite Al by now left. apply IH. intros; apply Al. now right.
  - rewrite E1, do_app. rewrite ET in NT. destruct (NoDup_split _ _ _ NT) as (N1 & Ns1 & Ns2 & D12). destruct (do_scenes n Pn T1 p N1) as (Q & Pr & Ot). set (p1 := do_ops p (flat_map (fun s => scene_ops (n s) s) T1)) in *.
    assert (Aa : forall o, In o a -> about o = s) by (intros o O; apply (scene_about (n s)); rewrite Es; apply in_or_app; now left).
    rewrite no_queue by (eapply part_queue; eauto). rewrite Q, <- app_assoc. f_equal.
    (* the scene that was begun is not present *)
    assert (Ps : present (do_ops p1 a) s = false).
    { destruct H as [H|(pre & x & H)].
      - rewrite H in E1. symmetry in E1. apply app_eq_nil in E1 as (_ & ->). change (do_ops p1 []) with p1. destruct (Ot s Ns1) as (F1 & F2).
        unfold present. rewrite F1, F2. assert (In s T) by (rewrite ET; apply in_or_app; right; now left). apply IT in H0 as (_ & X). exact X.
      - destruct a as [|o a] using rev_ind.
        + change (do_ops p1 []) with p1. destruct (Ot s Ns1) as (F1 & F2). unfold present. rewrite F1, F2. assert (I : In s T) by (rewrite ET; apply in_or_app; right; now left). apply IT in I as (_ & X). exact X.
        + clear IHa. rewrite do_app. cbn. assert (o = Begin_file x \/ o = Queue x) as [->| ->].
          { rewrite E1 in H. rewrite app_assoc in H. destruct H as [H|H]; apply app_inj_tail in H as (_ & H); auto. }
          * assert (x = s) as -> by (apply (Aa (Begin_file x)); apply in_or_app; right; now left). unfold present. cbn [do_op p_flight p_files]. rewrite upd_same. apply andb_false_r.
          * exfalso. eapply (part_queue _ _ _ _ Es Bn x). apply in_or_app. right. now left. }
    assert (Pw : forall x, In x links -> present (do_ops p1 a) x = if in_dec Z.eq_dec x T1 then true else present p x).
    { intros x I. destruct (Z.eq_dec x s) as [->|D].
      - rewrite Ps. destruct (in_dec Z.eq_dec s T1); [contradiction|]. assert (J : In s T) by (rewrite ET; apply in_or_app; right; now left). apply IT in J as (_ & ->). reflexivity.
      - rewrite present_other by (intros o O E0; apply D; rewrite <- E0; exact (Aa o O)). destruct (in_dec Z.eq_dec x T1) as [J|J]; [now apply Pr|]. destruct (Ot x J) as (F1 & F2). unfold present. rewrite F1, F2. reflexivity. }
    assert (M : missing links (do_ops p1 a) = filter (fun x => if in_dec Z.eq_dec x T1 then false else true) T).
    { unfold T, missing. clear -Pw. induction links as [|x l IH]; [reflexivity|]. cbn [filter]. rewrite Pw by now left. rewrite IH by (intros; apply Pw; now right).
      destruct (present p x); cbn [negb]; destruct (in_dec Z.eq_dec x T1) eqn:X; cbn [negb filter]; rewrite ?X; reflexivity. }
    rewrite M, ET. rewrite filter_app.
    assert (F1 : filter (fun x => if in_dec Z.eq_dec x T1 then false else true) T1 = []).
    { assert (G : forall l, incl l T1 -> filter (fun x => if in_dec Z.eq_dec x T1 then false else true) l = []).
      { induction l as [|x l IH]; intros I; [reflexivity|]. cbn [filter]. destruct (in_dec Z.eq_dec x T1) as [|No]; [apply IH; intros y J; apply I; now right | exfalso; apply No, I; now left]. }
      apply G, incl_refl. }
    assert (F2 : filter (fun x => if in_dec Z.eq_dec x T1 then false else true) (s :: T2) = s :: T2).
    { assert (G : forall l, (forall x, In x l -> ~ In x T1) -> filter (fun x => if in_dec Z.eq_dec x T1 then false else true) l = l).
      { induction l as [|x l IH]; intros I; [reflexivity|]. cbn [filter]. destruct (in_dec Z.eq_dec x T1) as [Y|No]; [exfalso; eapply I; [now left | exact Y] | f_equal; apply IH; intros; apply I; now right]. }
      apply G. intros x [<-|J]; auto. intros K. exact (D12 x K J). }
    rewrite F1, F2. reflexivity.
Qed.

Lemma completed_queue n links p : (forall s, (0 < n s)%nat) -> NoDup links -> p_queue (completed n links p) = p_queue p ++ missing links p /\
  forall s, In s links -> present (completed n links p) s = true.
Proof.
  intros Pn N. unfold completed. rewrite download_ops by auto. destruct (do_scenes n Pn (missing links p) p) as (Q & Pr & _); [apply NoDup_filter; auto|]. split; auto.
  intros s I. destruct (present p s) eqn:P.
  - rewrite present_other; auto. intros o O. apply ops_about in O. intros E0. rewrite E0 in O. unfold missing in O. apply filter_In in O as (_ & O). rewrite P in O. discriminate.
  - apply Pr. unfold missing. apply filter_In. rewrite P. auto.
Qed.

(** Scenes are queued when all their files are there, whatever happens. *)
Lemma stopped_sound n links p k : (forall s, (0 < n s)%nat) -> NoDup links -> exists new, p_queue (stopped n links p k) = p_queue p ++ new /\ incl new (missing links p) /\
  (forall s, In s new -> (n s <= p_files (stopped n links p k) s)%nat) /\ (forall s, (p_files p s <= p_files (stopped n links p k) s)%nat).
Proof.
  intros Pn N. unfold stopped. set (os := download n links p). set (T := missing links p).
  assert (Eo : os = flat_map (fun s => scene_ops (n s) s) T) by (apply download_ops; auto).
  assert (NT : NoDup T) by (apply NoDup_filter; auto).
  assert (Mono : forall os p s, (p_files p s <= p_files (do_ops p os) s)%nat).
  { clear. induction os as [|o os IH]; intros p s; [cbn; lia|]. change (do_ops p (o :: os)) with (do_ops (do_op p o) os). etransitivity; [|apply IH]. destruct o as [x|x i|x]; cbn [do_op p_files]; try lia. unfold upd. destruct (s =? x) eqn:E; [|lia]. assert (s = x) by lia. subst. lia. }
  assert (E : flat_map (fun s => scene_ops (n s) s) T = firstn k os ++ skipn k os) by (rewrite firstn_skipn; auto).
  destruct (prefix_form n T _ _ E) as [E1|(T1 & s & T2 & a & b & ET & E1 & Es & Bn)].
  - exists T. rewrite E1. destruct (do_scenes n Pn T p NT) as (Q & Pr & _). split; auto. split; [apply incl_refl|]. split; auto. intros s I. now apply Pr.
  - exists T1. rewrite E1, do_app. rewrite ET in NT. destruct (NoDup_split _ _ _ NT) as (N1 & _). destruct (do_scenes n Pn T1 p N1) as (Q & Pr & _).
    rewrite no_queue by (eapply part_queue; eauto). split; auto. split; [rewrite ET; apply incl_appl, incl_refl|]. split.
    + intros x I. etransitivity; [|apply Mono]. now apply Pr.
    + intros x. etransitivity; [|apply Mono]. apply Mono.
Qed.
