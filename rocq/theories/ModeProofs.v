From Coq Require Import Permutation Sorted SetoidList.
From Verif Require Import Base BaseFacts Loops LoopsFacts ModeModel ModeSpec.

Lemma insert_perm a l : Permutation (a :: l) (insert a l).
Proof.
  induction l as [|b l IH]; cbn [insert]; auto.
  destruct (a <=? b); auto. rewrite perm_swap. auto.
Qed.
Lemma isort_perm l : Permutation l (isort l).
Proof. induction l as [|a l IH]; cbn [isort]; auto. rewrite <- insert_perm. auto. Qed.

Lemma insert_sorted a l : StronglySorted Z.le l -> StronglySorted Z.le (insert a l).
Proof.
  induction 1 as [|b l S IH F]; cbn [insert]; [repeat constructor|].
  destruct (Z.leb_spec a b).
  - constructor; [constructor; auto|]. constructor; auto. eapply Forall_impl; [|exact F]. cbn; lia.
  - constructor; auto. rewrite Forall_forall in *. intros x X.
    apply (Permutation_in x (Permutation_sym (insert_perm a l))) in X. destruct X as [<-|X]; [lia|auto].
Qed.
Lemma isort_sorted l : StronglySorted Z.le (isort l).
Proof. induction l as [|a l IH]; cbn [isort]; [constructor|]. now apply insert_sorted. Qed.

Lemma comparable_spec l : comparable l = true <-> differences_fit l.
Proof.
  unfold comparable, differences_fit. rewrite forallb_forall. split.
  - intros H a b A B. specialize (H a A). rewrite forallb_forall in H. specialize (H b B).
    unfold in_intb in H; unfold in_int; lia.
  - intros H a A. rewrite forallb_forall. intros b B. specialize (H a b A B).
    unfold in_intb; unfold in_int in H; lia.
Qed.

Lemma count_perm v l l' : Permutation l l' -> count v l = count v l'.
Proof. intros P. unfold count. exact (proj1 (Permutation_count_occ Z.eq_dec l l') P v). Qed.

Lemma count_app v a b : count v (a ++ b) = (count v a + count v b)%nat.
Proof. apply count_occ_app. Qed.
Lemma count_cons v a b : count v (a :: b) = ((if Z.eq_dec a v then 1 else 0) + count v b)%nat.
Proof. unfold count; cbn. destruct (Z.eq_dec a v); auto. Qed.
Lemma count_notin v l : ~ In v l -> count v l = 0%nat.
Proof. intros H. unfold count. now apply count_occ_not_In. Qed.
Lemma count_in v l : In v l -> (1 <= count v l)%nat.
Proof. intros H. apply (count_occ_In Z.eq_dec) in H. unfold count. lia. Qed.

Lemma sorted_app_le p r a b : StronglySorted Z.le (p ++ r) -> In a p -> In b r -> a <= b.
Proof.
  induction p as [|x p IH]; intros S A B; [destruct A|].
  cbn in S. inversion S as [|? ? S' F]; subst. destruct A as [->|A]; auto.
  rewrite Forall_forall in F. apply F. apply in_or_app; auto.
Qed.

(** Invariant of the scan: p is the processed prefix, prev its last element. *)
Lemma mode_scan_spec x0 : forall l p prev now max md,
  StronglySorted Z.le (p ++ l) -> In prev p -> (forall v, In v p -> v <= prev) ->
  now = Z.of_nat (count prev p) -> 1 <= max ->
  (forall v, v <> prev -> Z.of_nat (count v p) <= max) ->
  (max = 1 /\ md = x0 \/ md <> prev /\ max = Z.of_nat (count md p)) ->
  forall prev' now' max' md', mode_scan prev now max md l = (prev', now', max', md') ->
  let all := p ++ l in
  now' = Z.of_nat (count prev' all) /\ 1 <= max' /\
  (forall v, v <> prev' -> Z.of_nat (count v all) <= max') /\
  (max' = 1 /\ md' = x0 \/ md' <> prev' /\ max' = Z.of_nat (count md' all)).
Proof.
  induction l as [|x l IH]; intros p prev now max md S PI PM NW MX OT MD prev' now' max' md' E; cbn [mode_scan] in E.
  - inversion E; subst. cbv zeta. rewrite app_nil_r. auto.
  - assert (prev <= x) as LE by (apply (sorted_app_le p (x :: l)); cbn; auto).
    cbv zeta. replace (p ++ x :: l) with ((p ++ [x]) ++ l) in * by now rewrite <- app_assoc.
    assert (forall v, In v (p ++ [x]) -> v <= x) as PM'.
    { intros v V. apply in_app_or in V. destruct V as [V|[->|[]]]; [specialize (PM v V); lia|lia]. }
    assert (In x (p ++ [x])) as XI by (apply in_or_app; right; cbn; auto).
    destruct (Z.eqb_spec x prev) as [->|NE].
    + eapply IH; [exact S|exact XI|exact PM'| |exact MX| | |exact E].
      * rewrite count_app, count_cons. destruct (Z.eq_dec prev prev); [cbn; lia|congruence].
      * intros v V. rewrite count_app, count_cons. destruct (Z.eq_dec prev v); [congruence|]. specialize (OT v V). cbn; lia.
      * destruct MD as [MD|[M1 M2]]; [left; auto|right]. split; auto.
        rewrite count_app, count_cons. destruct (Z.eq_dec prev md); [congruence|]. cbn; lia.
    + assert (~ In x p) as NX by (intros I; specialize (PM x I); lia).
      assert (forall v, v <> x -> count v (p ++ [x]) = count v p) as CX.
      { intros v V. rewrite count_app, count_cons. destruct (Z.eq_dec x v); [congruence|]. cbn; lia. }
      assert (1 = Z.of_nat (count x (p ++ [x]))) as C1.
      { rewrite count_app, (count_notin x p NX), count_cons. destruct (Z.eq_dec x x); [cbn; lia|congruence]. }
      destruct (Z.gtb_spec now max) as [G|G].
      * eapply IH; [exact S|exact XI|exact PM'|exact C1| | | |exact E]; try lia.
        -- intros v V. rewrite (CX v V). destruct (Z.eq_dec v prev) as [->|VP]; [lia|]. specialize (OT v VP). lia.
        -- right. split; [congruence|]. rewrite CX by congruence. auto.
      * eapply IH; [exact S|exact XI|exact PM'|exact C1|exact MX| | |exact E].
        -- intros v V. rewrite (CX v V). destruct (Z.eq_dec v prev) as [->|VP]; [lia|]. specialize (OT v VP). lia.
        -- destruct MD as [MD|[M1 M2]]; [left; auto|right].
           destruct (Z.eq_dec md x) as [->|MX'].
           { exfalso. rewrite (count_notin x p NX) in M2. cbn in M2. lia. }
           split; [auto|]. rewrite CX by auto. auto.
Qed.

Lemma mode_spec x : differences_fit x -> x <> [] ->
  exists m, mode x = Ret m /\ In m x /\ forall v, (count v x <= count m x)%nat.
Proof.
  intros D NE. apply comparable_spec in D. unfold mode.
  destruct x as [|x0 xs]; [congruence|].
  change (get_at (x0 :: xs) 0) with (Some x0). cbn [of_option bind]. unfold qsort; rewrite D; cbn [bind].
  set (x := x0 :: xs) in *. pose proof (isort_perm x) as P. pose proof (isort_sorted x) as S.
  destruct (isort x) as [|a t] eqn:ES.
  { apply Permutation_sym, Permutation_nil in P. unfold x in P. discriminate. }
  destruct (mode_scan a 1 1 x0 t) as [[[prev now] max] md] eqn:ESC.
  destruct (mode_scan_spec x0 t [a] a 1 1 x0 S) with (prev' := prev) (now' := now) (max' := max) (md' := md)
    as (H1 & H2 & H3 & H4); auto; try lia.
  - cbn; auto.
  - intros v [<-|[]]; lia.
  - rewrite count_cons. destruct (Z.eq_dec a a); [auto|congruence].
  - intros v V. rewrite count_cons. destruct (Z.eq_dec a v); [congruence|cbn; lia].
  - cbv zeta in *. cbn [app] in *.
    assert (forall m, In m (a :: t) -> (forall v, (count v (a :: t) <= count m (a :: t))%nat) ->
       exists m0, Ret m = Ret m0 /\ In m0 x /\ forall v, (count v x <= count m0 x)%nat) as G.
    { intros m M1 M2. exists m. split; auto. split.
      - apply (Permutation_in m (Permutation_sym P)); auto.
      - intros v. rewrite !(count_perm _ x (a :: t) P). auto. }
    destruct (Z.gtb_spec now max) as [GT|LE]; apply G.
    + destruct (in_dec Z.eq_dec prev (a :: t)) as [I|I]; auto. rewrite (count_notin _ _ I) in H1. cbn in H1; lia.
    + intros v. destruct (Z.eq_dec v prev) as [->|V]; [lia|]. specialize (H3 v V). lia.
    + destruct H4 as [[_ ->]|[M1 M2]].
      * apply (Permutation_in x0 P). unfold x; cbn; auto.
      * destruct (in_dec Z.eq_dec md (a :: t)) as [I|I]; auto. rewrite (count_notin _ _ I) in M2. cbn in M2; lia.
    + intros v.
      assert (Z.of_nat (count v (a :: t)) <= max) as B.
      { destruct (Z.eq_dec v prev) as [->|V]; [lia|]. exact (H3 v V). }
      destruct H4 as [[M1 ->]|[M1 M2]]; [|lia].
      assert (In x0 (a :: t)) as I by (apply (Permutation_in x0 P); unfold x; cbn; auto).
      apply count_in in I. lia.
Qed.

(** ** Runs *)
Fixpoint runs (prev : Z) (cnt : Z) (l : list Z) : list (Z * Z) :=
  match l with
  | [] => [(prev, cnt)]
  | x :: t => if x =? prev then runs prev (cnt + 1) t else (prev, cnt) :: runs x 1 t
  end.

Lemma runs_length l : forall prev c, zlen (runs prev c l) = 1 + changes prev l.
Proof.
  induction l as [|x l IH]; intros prev c; cbn [runs changes]; [reflexivity|].
  destruct (Z.eqb_spec x prev) as [->|NE].
  - rewrite IH. lia.
  - specialize (IH x 1). unfold zlen in *. cbn [length]. lia.
Qed.

Lemma runs_fst_ge l : forall prev c, StronglySorted Z.le (prev :: l) -> Forall (fun r => prev <= fst r) (runs prev c l).
Proof.
  induction l as [|x l IH]; intros prev c S; cbn [runs]; [constructor; cbn; auto; lia|].
  inversion S as [|? ? S' F]; subst. inversion F as [|? ? F1 F2]; subst.
  destruct (Z.eqb_spec x prev) as [->|NE].
  - apply IH. auto.
  - constructor; [cbn; lia|]. eapply Forall_impl; [|apply (IH x 1 S')]. cbn; lia.
Qed.

Lemma runs_sorted l : forall prev c, StronglySorted Z.le (prev :: l) -> StronglySorted Z.lt (map fst (runs prev c l)).
Proof.
  induction l as [|x l IH]; intros prev c S; cbn [runs]; [repeat constructor|].
  inversion S as [|? ? S' F]; subst. inversion F as [|? ? F1 F2]; subst.
  destruct (Z.eqb_spec x prev) as [->|NE]; [auto|].
  cbn [map fst]. constructor; auto. rewrite Forall_map.
  eapply Forall_impl; [|apply (runs_fst_ge l x 1 S')]. cbn; lia.
Qed.

Lemma runs_in l : forall prev c v, In v (map fst (runs prev c l)) <-> In v (prev :: l).
Proof.
  induction l as [|x l IH]; intros prev c v; cbn [runs]; [cbn; tauto|].
  destruct (Z.eqb_spec x prev) as [->|NE].
  - rewrite IH. cbn. tauto.
  - cbn [map fst In]. rewrite IH. cbn; tauto.
Qed.

Lemma runs_count l : forall prev c v n, StronglySorted Z.le (prev :: l) -> In (v, n) (runs prev c l) ->
  n = Z.of_nat (count v l) + if Z.eq_dec v prev then c else 0.
Proof.
  induction l as [|x l IH]; intros prev c v n S I; cbn [runs] in I.
  - destruct I as [E|[]]; inversion E; subst. destruct (Z.eq_dec v v); [cbn; lia|congruence].
  - inversion S as [|? ? S' F]; subst. inversion F as [|? ? F1 F2]; subst.
    destruct (Z.eqb_spec x prev) as [->|NE].
    + rewrite (IH prev (c + 1) v n S' I), count_cons.
      destruct (Z.eq_dec v prev), (Z.eq_dec prev v); try congruence; lia.
    + destruct I as [E|I].
      * inversion E; subst. rewrite count_cons. destruct (Z.eq_dec x v); [congruence|].
        destruct (Z.eq_dec v v); [|congruence].
        inversion S' as [|? ? S'' F']; subst.
        rewrite (count_notin v l); [cbn; lia|]. intros I.
        rewrite Forall_forall in F'. specialize (F' v I). lia.
      * rewrite (IH x 1 v n S' I), count_cons.
        pose proof (runs_fst_ge l x 1 S') as G. rewrite Forall_forall in G. specialize (G (v, n) I). cbn in G.
        destruct (Z.eq_dec v x), (Z.eq_dec x v), (Z.eq_dec v prev); try congruence; lia.
Qed.

Lemma runs_sum l : forall prev c, zsum (map snd (runs prev c l)) = c + zlen l.
Proof.
  induction l as [|x l IH]; intros prev c; cbn [runs map snd zsum fold_right]; [cbn; lia|].
  destruct (Z.eqb_spec x prev) as [->|NE].
  - rewrite IH. unfold zlen; cbn [length]; lia.
  - cbn [map snd zsum fold_right]. fold (zsum (map snd (runs x 1 l))). rewrite IH. unfold zlen; cbn [length]; lia.
Qed.

Lemma lt_sorted_NoDup l : StronglySorted Z.lt l -> NoDup l.
Proof.
  induction 1 as [|a l S IH F]; constructor; auto.
  intros I. rewrite Forall_forall in F. specialize (F a I). lia.
Qed.

Lemma distinct_runs a t x c : Permutation x (a :: t) -> StronglySorted Z.le (a :: t) ->
  distinct x = zlen (runs a c t).
Proof.
  intros P S. unfold distinct, zlen. rewrite <- (map_length fst (runs a c t)). f_equal.
  apply Permutation_length, NoDup_Permutation.
  - apply NoDup_nodup.
  - apply lt_sorted_NoDup, runs_sorted; auto.
  - intros v. rewrite nodup_In, runs_in. split; apply Permutation_in; auto. now apply Permutation_sym.
Qed.

Lemma n_uniq_spec x : differences_fit x -> x <> [] -> n_uniq x = Ret (distinct x).
Proof.
  intros D NE. apply comparable_spec in D. unfold n_uniq, qsort; rewrite D; cbn [bind].
  pose proof (isort_perm x) as P. pose proof (isort_sorted x) as S.
  destruct (isort x) as [|a t]; [apply Permutation_sym, Permutation_nil in P; congruence|].
  f_equal. rewrite (distinct_runs a t x 1 P S). symmetry. apply runs_length.
Qed.

(** The two arrays filled by the histogram loop: k finished runs before the
    current one, [zs] untouched zero cells behind. *)
Lemma get_at_app_mid {A} (p q : list A) c : get_at (p ++ c :: q) (zlen p) = Some c.
Proof.
  unfold get_at, zlen. replace (Z.of_nat (length p) <? 0) with false by lia.
  rewrite Nat2Z.id, nth_error_app2, Nat.sub_diag by lia. reflexivity.
Qed.
Lemma list_set_app_mid {A} (p q : list A) c d : list_set (p ++ c :: q) (length p) d = p ++ d :: q.
Proof. induction p as [|x p IH]; cbn; auto. now rewrite IH. Qed.
Lemma set_at_app_mid {A} (p q : list A) c d : set_at (p ++ c :: q) (zlen p) d = Some (p ++ d :: q).
Proof.
  unfold set_at, zlen. rewrite app_length; cbn [length].
  replace ((Z.of_nat (length p) <? 0) || (Z.of_nat (length p + S (length q)) <=? Z.of_nat (length p))) with false by lia.
  rewrite Nat2Z.id, list_set_app_mid. reflexivity.
Qed.

Lemma changes_nonneg t : forall a, 0 <= changes a t.
Proof. induction t as [|y t IH]; intros a; cbn [changes]; [lia|]. specialize (IH y). destruct (y =? a); lia. Qed.

Lemma hist_scan_spec l : forall prev c pv pc,
  zlen pv = zlen pc ->
  hist_scan prev (zlen pc) l (pv ++ prev :: repeat 0 (Z.to_nat (changes prev l)))
                            (pc ++ c :: repeat 0 (Z.to_nat (changes prev l)))
  = Ret (pv ++ map fst (runs prev c l), pc ++ map snd (runs prev c l)).
Proof.
  induction l as [|x l IH]; intros prev c pv pc EL; cbn [hist_scan runs changes].
  - reflexivity.
  - pose proof (changes_nonneg l x) as CN.
    destruct (Z.eqb_spec x prev) as [->|NE].
    + cbn [bind]. rewrite get_at_app_mid; cbn [of_option bind]. rewrite set_at_app_mid; cbn [of_option bind].
      rewrite Z.add_0_l. apply IH. auto.
    + replace (Z.to_nat (1 + changes x l)) with (S (Z.to_nat (changes x l))) by lia. cbn [repeat].
      assert (zlen pc + 1 = zlen (pc ++ [c])) as K by (unfold zlen; rewrite app_length; cbn; lia).
      assert (zlen pc + 1 = zlen (pv ++ [prev])) as K2 by (unfold zlen in *; rewrite app_length; cbn; lia).
      rewrite K2 at 1.
      replace (pv ++ prev :: 0 :: repeat 0 (Z.to_nat (changes x l)))
        with ((pv ++ [prev]) ++ 0 :: repeat 0 (Z.to_nat (changes x l))) by now rewrite <- app_assoc.
      rewrite set_at_app_mid; cbn [of_option bind]. rewrite K.
      replace (pc ++ c :: 0 :: repeat 0 (Z.to_nat (changes x l)))
        with ((pc ++ [c]) ++ 0 :: repeat 0 (Z.to_nat (changes x l))) by now rewrite <- app_assoc.
      rewrite get_at_app_mid; cbn [of_option bind]. rewrite set_at_app_mid; cbn [of_option bind].
      rewrite IH by lia. cbn [map fst snd]. now rewrite <- !app_assoc.
Qed.

Lemma histogram_runs x a t : differences_fit x -> isort x = a :: t ->
  histogram x = Ret (map fst (runs a 1 t), map snd (runs a 1 t), zlen (runs a 1 t)).
Proof.
  intros D E. apply comparable_spec in D. unfold histogram, qsort; rewrite D; cbn [bind]. rewrite E.
  change (get_at (a :: t) 0) with (Some a). cbn [of_option bind tl].
  pose proof (changes_nonneg t a) as CN.
  replace (Z.to_nat (1 + changes a t)) with (S (Z.to_nat (changes a t))) by lia. cbn [repeat].
  pose proof (set_at_app_mid [] (repeat 0 (Z.to_nat (changes a t))) 0 a) as E1.
  pose proof (get_at_app_mid [] (repeat 0 (Z.to_nat (changes a t))) 0) as E2.
  pose proof (set_at_app_mid [] (repeat 0 (Z.to_nat (changes a t))) 0 1) as E3.
  pose proof (hist_scan_spec t a 1 [] [] eq_refl) as E4.
  cbn [app] in *. change (zlen (@nil Z)) with 0 in *.
  rewrite E1; cbn [of_option bind]. rewrite E2; cbn [of_option bind]. change (0 + 1) with 1. rewrite E3; cbn [of_option bind].
  rewrite E4; cbn [bind fst snd]. now rewrite runs_length.
Qed.

Lemma histogram_spec x : differences_fit x -> x <> [] ->
  exists vs cs, histogram x = Ret (vs, cs, distinct x) /\
    StronglySorted Z.lt vs /\ (forall v, In v vs <-> In v x) /\
    zlen vs = distinct x /\ cs = map (fun v => Z.of_nat (count v x)) vs /\ zsum cs = zlen x.
Proof.
  intros D NE. pose proof (isort_perm x) as P. pose proof (isort_sorted x) as S.
  destruct (isort x) as [|a t] eqn:E; [apply Permutation_sym, Permutation_nil in P; congruence|].
  exists (map fst (runs a 1 t)), (map snd (runs a 1 t)).
  rewrite (histogram_runs x a t D E), (distinct_runs a t x 1 P S). split; auto. split; [apply runs_sorted; auto|].
  split.
  { intros v. rewrite runs_in. split; apply Permutation_in; auto. now apply Permutation_sym. }
  split; [unfold zlen; now rewrite map_length|]. split.
  - rewrite map_map. apply map_ext_in. intros [v n] I. cbn [fst snd].
    rewrite (runs_count t a 1 v n S I), (count_perm v x (a :: t) P), count_cons.
    destruct (Z.eq_dec v a), (Z.eq_dec a v); try congruence; lia.
  - rewrite runs_sum. unfold zlen. rewrite (Permutation_length P). cbn [length]. lia.
Qed.
