From Verif Require Import Base Loops BaseFacts CStr StringModel StringProofs ListingProofs ChunkProofs SensorModel SensorSpec.

Lemma filter_selected {A} (p : A -> bool) (P : A -> Prop) l : (forall a, p a = true <-> P a) -> selected P l (filter p l).
Proof.
  intros H. induction l as [|a l IH]; cbn [filter]; [constructor|]. destruct (p a) eqn:E.
  - apply sel_take; auto. now apply H.
  - apply sel_skip; auto. intros K. apply H in K. congruence.
Qed.

Lemma number_ok sensor b : number_of sensor b (vector_contains_pos sensor b + 1).
Proof.
  unfold vector_contains_pos. destruct (contains_pos_spec sensor b 0 ltac:(lia)) as [(E & N)|(k & E & K & F)]; rewrite E.
  - left. split; [lia|auto].
  - right. replace (0 + Z.of_nat k + 1 - 1) with (Z.of_nat k) by lia. split; [now rewrite get_at_nat|].
    intros j J G. destruct (Z_lt_dec j 0) as [L|L].
    + assert (get_at sensor j = None) by (apply get_at_none; lia). congruence.
    + apply (F (Z.to_nat j)); [lia|]. rewrite <- get_at_nat. now rewrite Z2Nat.id by lia.
Qed.

Lemma union_add acc b : forall x, In x (add_band acc b) <-> In x acc \/ x = b.
Proof.
  intros x. unfold add_band. destruct (vector_contains acc b) eqn:E.
  - apply vec_in in E. split; [tauto|]. intros [I| ->]; auto.
  - rewrite in_app_iff. cbn. intuition congruence.
Qed.
Lemma union_add_nodup acc b : NoDup acc -> NoDup (add_band acc b).
Proof.
  intros N. unfold add_band. destruct (vector_contains acc b) eqn:E; auto.
  assert (~ In b acc) as I by (intros I; apply vec_in in I; congruence).
  apply NoDup_Add with (a := b) (l := acc); [|auto]. rewrite <- (app_nil_r acc) at 1. apply Add_app.
Qed.
Lemma union_bands bands : forall acc x, In x (fold_left add_band bands acc) <-> In x acc \/ In x bands.
Proof.
  induction bands as [|b bands IH]; intros acc x; cbn [fold_left]; [cbn; tauto|].
  rewrite IH, union_add. cbn. intuition congruence.
Qed.
Lemma union_bands_nodup bands : forall acc, NoDup acc -> NoDup (fold_left add_band bands acc).
Proof. induction bands as [|b bands IH]; intros acc N; cbn [fold_left]; auto. apply IH. now apply union_add_nodup. Qed.
Lemma union_all names : forall acc x, In x (fold_left (fun acc bands => fold_left add_band bands acc) names acc) <-> In x acc \/ exists bs, In bs names /\ In x bs.
Proof.
  induction names as [|bs names IH]; intros acc x; cbn [fold_left].
  - split; [tauto|]. intros [I|(bs & [] & _)]; auto.
  - rewrite IH, union_bands. split.
    + intros [[I|I]|(bs' & I & J)]; [tauto|right; exists bs; cbn; auto|right; exists bs'; cbn; auto].
    + intros [I|(bs' & [<- |I] & J)]; [tauto|tauto|right; eauto].
Qed.
Lemma union_all_nodup names : forall acc, NoDup acc -> NoDup (fold_left (fun acc bands => fold_left add_band bands acc) names acc).
Proof. induction names as [|b names IH]; intros acc N; cbn [fold_left]; auto. apply IH. now apply union_bands_nodup. Qed.

(** The tables after the loop. *)
Lemma load_ok defs : forall sensors s table done, zlen done = s -> Forall2 (fun n bs => defs n = Some bs) sensors table ->
  load_all defs sensors s (done ++ repeat [] (length sensors)) 0 = Ret (done ++ table, 0).
Proof.
  induction sensors as [|n sensors IH]; intros s table done L F; inversion F as [|? bs ? rest D F']; subst; cbn [load_all length repeat].
  - reflexivity.
  - rewrite D. assert (set_at (done ++ ([] : list (list Z)) :: repeat [] (length sensors)) (zlen done) bs = Some (done ++ bs :: repeat [] (length sensors))) as ->.
    { rewrite set_at_some.
      - f_equal. unfold zlen. rewrite Nat2Z.id. clear. induction done; cbn [app list_set length]; congruence.
      - unfold zlen. rewrite app_length. cbn [length]. lia. }
    cbn [of_option bind].
    replace (done ++ bs :: repeat [] (length sensors)) with ((done ++ [bs]) ++ repeat [] (length sensors)) by (now rewrite <- app_assoc).
    rewrite (IH _ rest) by (auto; unfold zlen; rewrite app_length; cbn [length]; lia). now rewrite <- app_assoc.
Qed.

Lemma load_errors defs : forall sensors s table errors t e, load_all defs sensors s table errors = Ret (t, e) ->
  errors <= e /\ (e = errors -> forall n, In n sensors -> defs n <> None).
Proof.
  induction sensors as [|n sensors IH]; intros s table errors t e; cbn [load_all].
  - intros [= <- <-]. split; [lia|]. intros _ n [].
  - destruct (defs n) as [bs|] eqn:D.
    + destruct (set_at table s bs); cbn [of_option bind]; [|discriminate]. intros E. destruct (IH _ _ _ _ _ E) as (I1 & I2). split; auto.
      intros Q m [<- |I]; [congruence|auto].
    + intros E. destruct (IH _ _ _ _ _ E) as (I1 & I2). split; [lia|]. lia.
Qed.

Lemma load_defined defs : forall sensors s table errors, 0 <= s -> s + zlen sensors <= zlen table -> exists t e, load_all defs sensors s table errors = Ret (t, e).
Proof.
  induction sensors as [|n sensors IH]; intros s table errors S L; cbn [load_all]; [eauto|]. rewrite zlen_c in L. pose proof (zlen_nonneg sensors).
  destruct (defs n) as [bs|].
  - rewrite set_at_some by lia. cbn [of_option bind]. apply IH; [lia|]. assert (zlen (list_set table (Z.to_nat s) bs) = zlen table) as ->; [|lia].
    unfold zlen. now rewrite length_list_set.
  - apply IH; lia.
Qed.

(** One sensor more than the tables have room for. *)
Lemma load_overflow defs extra bs : defs extra = Some bs -> forall sensors s table errors, s + zlen sensors = zlen table -> 0 <= s ->
  load_all defs (sensors ++ [extra]) s table errors = UB.
Proof.
  intros D. induction sensors as [|n sensors IH]; intros s table errors L S; cbn [app load_all].
  - rewrite D. destruct (set_at table s bs) as [t|] eqn:E; [|reflexivity]. apply set_at_inv in E. unfold zlen in *. cbn [length] in L. lia.
  - rewrite zlen_c in L. destruct (defs n) as [b|].
    + destruct (set_at table s b) as [t|] eqn:E; [|reflexivity]. cbn [of_option bind]. apply set_at_length in E. apply IH; lia.
    + apply IH; lia.
Qed.
