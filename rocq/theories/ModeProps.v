(** C22: mode, unique count, histogram. *)
From Coq Require Import Sorted.
From Verif Require Import Base BaseFacts ModeModel ModeSpec ModeProofs.

Theorem C22_mode_partial : forall x, differences_fit x -> x <> [] ->
  exists m, mode x = Ret m /\ In m x /\ forall v, (count v x <= count m x)%nat.
Proof. exact mode_spec. Qed.

Theorem C22_n_uniq_partial : forall x, differences_fit x -> x <> [] -> n_uniq x = Ret (distinct x).
Proof. exact n_uniq_spec. Qed.

Theorem C22_histogram_partial : forall x, differences_fit x -> x <> [] ->
  exists vs cs, histogram x = Ret (vs, cs, distinct x) /\
    StronglySorted Z.lt vs /\ (forall v, In v vs <-> In v x) /\
    zlen vs = distinct x /\ cs = map (fun v => Z.of_nat (count v x)) vs /\ zsum cs = zlen x.
Proof. exact histogram_spec. Qed.

(** Missing: large values of opposite sign (the comparison overflows) and the
    empty array (unique count 1, the others read outside the array). *)
Theorem C22_overflow_refuted : exists x, Forall in_int x /\ mode x = UB /\ n_uniq x = UB /\ histogram x = UB.
Proof.
  exists [2147483647; -1]. split; [|split; [|split]]; [|vm_compute; reflexivity..].
  constructor; [unfold in_int; lia|]. constructor; [unfold in_int; lia|]. constructor.
Qed.

Theorem C22_empty_refuted : n_uniq [] = Ret 1 /\ distinct [] = 0 /\ mode [] = UB /\ histogram [] = UB.
Proof. repeat split; reflexivity. Qed.

Example C22_example :
  differences_fit [5; -3; 5; 7; 7; 5] /\ mode [5; -3; 5; 7; 7; 5] = Ret 5 /\
  n_uniq [5; -3; 5; 7; 7; 5] = Ret 3 /\
  histogram [5; -3; 5; 7; 7; 5] = Ret ([-3; 5; 7], [1; 3; 2], 3).
Proof.
  split; [apply comparable_spec; reflexivity|]. repeat split; vm_compute; reflexivity.
Qed.

Print Assumptions C22_mode_partial.
Print Assumptions C22_n_uniq_partial.
Print Assumptions C22_histogram_partial.
Print Assumptions C22_overflow_refuted.
Print Assumptions C22_empty_refuted.

(** C70: images are 16-bit, so no difference overflows; the results do not depend on the
    order of the pixels. *)
Lemma shorts_fit x : Forall in_short x -> differences_fit x.
Proof.
  intros F a b A B. rewrite Forall_forall in F. pose proof (F a A). pose proof (F b B). unfold in_short, in_int in *. lia.
Qed.

Lemma sorted_lt_same a : StronglySorted Z.lt a -> forall b, StronglySorted Z.lt b -> (forall v, In v a <-> In v b) -> a = b.
Proof.
  induction 1 as [|x a S IH F]; intros b T E.
  - destruct b as [|y b]; [reflexivity|]. exfalso. apply (proj2 (E y)). now left.
  - destruct T as [|y b T G]; [exfalso; apply (proj1 (E x)); now left|].
    rewrite Forall_forall in F, G.
    assert (x = y) as ->.
    { destruct (proj1 (E x) (or_introl eq_refl)) as [->|X]; [reflexivity|].
      destruct (proj2 (E y) (or_introl eq_refl)) as [->|Y]; [reflexivity|].
      specialize (F y Y). specialize (G x X). lia. }
    f_equal. apply IH; [exact T|]. intros v. split; intros I.
    + destruct (proj1 (E v) (or_intror I)) as [->|X]; [|exact X]. specialize (F v I). lia.
    + destruct (proj2 (E v) (or_intror I)) as [->|X]; [|exact X]. specialize (G v I). lia.
Qed.

Theorem C70_statistics_of_images : forall x, Forall in_short x -> x <> [] ->
  (exists m, mode x = Ret m /\ In m x /\ forall v, (count v x <= count m x)%nat) /\
  n_uniq x = Ret (distinct x) /\
  exists vs cs, histogram x = Ret (vs, cs, distinct x) /\
    StronglySorted Z.lt vs /\ (forall v, In v vs <-> In v x) /\
    zlen vs = distinct x /\ cs = map (fun v => Z.of_nat (count v x)) vs /\ zsum cs = zlen x.
Proof.
  intros x F N. pose proof (shorts_fit x F) as D.
  split; [exact (mode_spec x D N)|]. split; [exact (n_uniq_spec x D N)|exact (histogram_spec x D N)].
Qed.

Theorem C70_order_of_pixels : forall x y, Forall in_short x -> x <> [] -> Permutation.Permutation x y ->
  n_uniq x = n_uniq y /\ histogram x = histogram y /\
  forall m m', mode x = Ret m -> mode y = Ret m' -> count m x = count m' x.
Proof.
  intros x y F N P. assert (Forall in_short y) as F' by (eapply Permutation.Permutation_Forall; eassumption).
  assert (y <> []) as N' by (intros ->; apply N, Permutation.Permutation_nil, Permutation.Permutation_sym, P).
  destruct (C70_statistics_of_images x F N) as ((m1 & M1 & I1 & X1) & U1 & vs1 & cs1 & H1 & S1 & E1 & L1 & -> & _).
  destruct (C70_statistics_of_images y F' N') as ((m2 & M2 & I2 & X2) & U2 & vs2 & cs2 & H2 & S2 & E2 & L2 & -> & _).
  assert (vs1 = vs2) as ->.
  { apply sorted_lt_same; auto. intros v. rewrite E1, E2. split; apply Permutation.Permutation_in; [exact P|apply Permutation.Permutation_sym, P]. }
  assert (distinct x = distinct y) as D by congruence.
  assert (forall v, count v x = count v y) as C by (intros v; apply count_perm, P).
  split; [congruence|]. split.
  - rewrite H1, H2, D. f_equal. f_equal. f_equal. apply map_ext. intros v. rewrite C. reflexivity.
  - intros m m' A B. rewrite M1 in A. injection A as <-. rewrite M2 in B. injection B as <-.
    pose proof (X1 m2). pose proof (X2 m1). rewrite <- !C in H0. lia.
Qed.

Example C70_example : Forall in_short [5; -3; 5; 7; 7; 5] /\ Permutation.Permutation [5; -3; 5; 7; 7; 5] [5; 7; 7; 5; -3; 5] /\
  histogram [5; 7; 7; 5; -3; 5] = Ret ([-3; 5; 7], [1; 3; 2], 3).
Proof.
  split; [repeat constructor; unfold in_short; lia|].
  split; [apply (Permutation.Permutation_rev [5; -3; 5; 7; 7; 5])|vm_compute; reflexivity].
Qed.

Print Assumptions C70_statistics_of_images.
Print Assumptions C70_order_of_pixels.
