From Verif Require Import Base BaseFacts Loops LoopsFacts CatModel CatSpec.

(** last_valid of the reversed prefix of length f = value of the closest valid
    predecessor. *)
Lemma last_valid_some nodata p : forall w, last_valid nodata (rev p) = Some w ->
  exists g, value nodata p g w /\ forall h, g < h < zlen p -> get_at p h = Some nodata.
Proof.
  induction p as [|x p IH] using rev_ind; intros w E; [discriminate|].
  rewrite rev_app_distr in E. cbn [rev app last_valid] in E.
  assert (zlen (p ++ [x]) = zlen p + 1) as L by (unfold zlen; rewrite app_length; cbn; lia).
  assert (get_at (p ++ [x]) (zlen p) = Some x) as LX.
  { unfold get_at, zlen. replace (Z.of_nat (length p) <? 0) with false by lia.
    rewrite Nat2Z.id, nth_error_app2, Nat.sub_diag by lia. reflexivity. }
  assert (forall h, h < zlen p -> get_at (p ++ [x]) h = get_at p h) as LP.
  { intros h H. unfold get_at. destruct (Z.ltb_spec h 0); auto.
    apply nth_error_app1. unfold zlen in H; lia. }
  destruct (Z.eqb_spec x nodata) as [->|NE].
  - destruct (IH w E) as (g & (G1 & G2) & G3). pose proof (get_at_inv _ _ _ G1) as GB.
    exists g. split; [split; auto; rewrite LP by lia; auto|].
    intros h H. destruct (Z.eq_dec h (zlen p)) as [->|HN]; auto.
    rewrite LP by lia. apply G3. lia.
  - inversion E; subst. exists (zlen p). split; [split; auto|]. intros h H. lia.
Qed.

Lemma last_valid_none nodata p : last_valid nodata (rev p) = None ->
  forall g v, get_at p g = Some v -> v = nodata.
Proof.
  induction p as [|x p IH] using rev_ind; intros E g v G.
  - unfold get_at in G. destruct (g <? 0); [discriminate|]. now destruct (Z.to_nat g).
  - rewrite rev_app_distr in E. cbn [rev app last_valid] in E.
    destruct (Z.eqb_spec x nodata) as [->|NE]; [|discriminate].
    unfold get_at in G. destruct (Z.ltb_spec g 0); [discriminate|].
    destruct (Nat.ltb_spec (Z.to_nat g) (length p)) as [A|A].
    + rewrite nth_error_app1 in G by auto. apply (IH E g v). unfold get_at. now rewrite (proj2 (Z.ltb_ge g 0)) by lia.
    + rewrite nth_error_app2 in G by lia. destruct (Z.to_nat g - length p)%nat as [|[|n]]; cbn in G; congruence.
Qed.

Lemma get_at_prefix {A} (p q : list A) h : h < zlen p -> get_at (p ++ q) h = get_at p h.
Proof.
  intros H. unfold get_at. destruct (Z.ltb_spec h 0); auto. apply nth_error_app1. unfold zlen in H; lia.
Qed.
Lemma get_at_mid {A} (p q : list A) c : get_at (p ++ c :: q) (zlen p) = Some c.
Proof.
  unfold get_at, zlen. replace (Z.of_nat (length p) <? 0) with false by lia.
  rewrite Nat2Z.id, nth_error_app2, Nat.sub_diag by lia. reflexivity.
Qed.

(** drop at the end of the prefix. *)
Lemma drop_at nodata p v q d : drop nodata (p ++ v :: q) (zlen p) d <->
  v <> nodata /\ exists w, last_valid nodata (rev p) = Some w /\ d = w - v.
Proof.
  split.
  - intros (g & v' & w & (V1 & V2) & (W1 & W2) & G & -> & H).
    rewrite get_at_mid in V1; inversion V1; subst v'. split; auto. exists w; split; auto.
    rewrite get_at_prefix in W1 by lia.
    destruct (last_valid nodata (rev p)) as [w'|] eqn:E.
    + destruct (last_valid_some nodata p w' E) as (g' & (G1 & G2) & G3).
      pose proof (get_at_inv _ _ _ G1). pose proof (get_at_inv _ _ _ W1).
      destruct (Z.lt_trichotomy g g') as [L|[->|L]].
      * specialize (H g' ltac:(lia)). rewrite get_at_prefix in H by lia. congruence.
      * congruence.
      * specialize (G3 g ltac:(lia)). congruence.
    + exfalso. apply W2. exact (last_valid_none nodata p E g w W1).
  - intros (V & w & E & ->). destruct (last_valid_some nodata p w E) as (g & (G1 & G2) & G3).
    pose proof (get_at_inv _ _ _ G1) as GB.
    exists g, v, w. split; [split; [apply get_at_mid|auto]|].
    split; [split; [rewrite get_at_prefix by lia; auto|auto]|]. split; [lia|]. split; auto.
    intros h H. rewrite get_at_prefix by lia. apply G3; lia.
Qed.

(** Invariant of the scan without penalty. *)
Lemma cat_scan_spec nodata : forall l p best,
  let ser := p ++ l in
  (forall f d, drop nodata ser f d -> SHRT_MIN < d) ->
  (best = (SHRT_MIN, 0) /\ (forall f d, f < zlen p -> ~ drop nodata ser f d) \/
   drop nodata ser (snd best) (fst best) /\ snd best < zlen p /\
   (forall f d, f < zlen p -> drop nodata ser f d -> d <= fst best /\ (f < snd best -> d < fst best))) ->
  let r := cat_scan nodata false (rev p) l (zlen p) best in
  r = (SHRT_MIN, 0) /\ (forall f d, ~ drop nodata ser f d) \/
  drop nodata ser (snd r) (fst r) /\
   (forall f d, drop nodata ser f d -> d <= fst r /\ (f < snd r -> d < fst r)).
Proof.
  induction l as [|v l IH]; intros p best ser BIG INV; cbn [cat_scan].
  - cbv zeta. assert (forall f d, drop nodata ser f d -> f < zlen p) as LT.
    { intros f d (g & v & w & (V & _) & _). apply get_at_inv in V. unfold ser in V. rewrite app_nil_r in V. lia. }
    destruct INV as [[E N]|(D & L & M)].
    + left; split; auto. intros f d X. apply (N f d); eauto.
    + right; split; auto. intros f d X. apply M; eauto.
  - assert (zlen p + 1 = zlen (p ++ [v])) as K by (unfold zlen; rewrite app_length; cbn; lia).
    assert (v :: rev p = rev (p ++ [v])) as RV by (rewrite rev_app_distr; reflexivity).
    assert (ser = (p ++ [v]) ++ l) as SE by (unfold ser; now rewrite <- app_assoc).
    assert (forall f d, drop nodata ser f d -> f < zlen (p ++ [v]) -> f < zlen p \/
      f = zlen p /\ v <> nodata /\ exists w, last_valid nodata (rev p) = Some w /\ d = w - v) as CASE.
    { intros f d D L. rewrite <- K in L. destruct (Z.eq_dec f (zlen p)) as [->|NE]; [right|left; lia].
      split; auto. exact (proj1 (drop_at nodata p v l d) D). }
    (* no drop at this band *)
    assert ((v = nodata \/ last_valid nodata (rev p) = None) ->
      let r := cat_scan nodata false (v :: rev p) l (zlen p + 1) best in
      r = (SHRT_MIN, 0) /\ (forall f d, ~ drop nodata ser f d) \/
      drop nodata ser (snd r) (fst r) /\
      (forall f d, drop nodata ser f d -> d <= fst r /\ (f < snd r -> d < fst r))) as SKIP.
    { intros NOD. cbv zeta. rewrite K, RV. rewrite SE in *. apply IH; auto.
      destruct INV as [[E N]|(D & L & M)].
      - left; split; auto. intros f d L D. destruct (CASE f d D L) as [A|(_ & A & w & B & _)].
        + exact (N f d A D).
        + destruct NOD; congruence.
      - right; split; auto. split; [lia|]. intros f d LF DF.
        destruct (CASE f d DF LF) as [A|(_ & A & w & B & _)]; [exact (M f d A DF)|destruct NOD; congruence]. }
    destruct (Z.eqb_spec v nodata) as [->|NE]; [apply SKIP; auto|].
    destruct (last_valid nodata (rev p)) as [w|] eqn:LV; [|apply SKIP; auto].
    rewrite andb_false_r. clear SKIP.
    assert (drop nodata ser (zlen p) (w - v)) as DV.
    { apply (proj2 (drop_at nodata p v l (w - v))). split; auto. exists w; auto. }
    pose proof (BIG _ _ DV) as BV.
    rewrite K, RV. rewrite SE in *. apply IH; auto. right.
    destruct INV as [[-> N]|(D & L & M)]; cbn [fst snd].
    + replace (w - v >? SHRT_MIN) with true by lia. cbn [fst snd]. split; [auto|]. split; [lia|].
      intros f d LF DF. destruct (CASE f d DF LF) as [A|(-> & _ & w' & B & ->)].
      * destruct (N f d A DF).
      * inversion B; subst. split; lia.
    + destruct (Z.gtb_spec (w - v) (fst best)) as [G|G]; cbn [fst snd].
      * split; [auto|]. split; [lia|].
        intros f d LF DF. destruct (CASE f d DF LF) as [A|(-> & _ & w' & B & ->)].
        -- destruct (M f d A DF). split; lia.
        -- inversion B; subst. split; lia.
      * split; [auto|]. split; [lia|].
        intros f d LF DF. destruct (CASE f d DF LF) as [A|(-> & _ & w' & B & ->)].
        -- exact (M f d A DF).
        -- inversion B; subst. split; lia.
Qed.

Lemma cat_pixel_spec nodata ser : (forall f d, drop nodata ser f d -> SHRT_MIN < d <= 32767) ->
  (cat_pixel nodata false ser = Ret None /\ forall f d, ~ drop nodata ser f d) \/
  exists r, cat_pixel nodata false ser = Ret (Some r) /\ drop nodata ser (cat_f r) (cat_change r) /\
    (forall f d, drop nodata ser f d -> d <= cat_change r /\ (f < cat_f r -> d < cat_change r)) /\
    part_total r = (0, zlen ser) /\ part_before r = (0, cat_f r - 1) /\ part_after r = (cat_f r, zlen ser).
Proof.
  intros B. unfold cat_pixel.
  pose proof (cat_scan_spec nodata ser [] (SHRT_MIN, 0)) as C. cbv zeta in C. cbn [app rev] in C.
  change (zlen (@nil Z)) with 0 in C.
  destruct C as [[E N]|(D & M)].
  - intros f d X; specialize (B f d X); lia.
  - left; split; auto. intros f d L (g & v & w & (V & _) & _). apply get_at_inv in V. lia.
  - rewrite E. left. auto.
  - destruct (cat_scan nodata false [] ser 0 (SHRT_MIN, 0)) as [change fc]. cbn [fst snd] in *.
    pose proof (B _ _ D) as BD. unfold SHRT_MIN in *.
    replace (change =? -32768) with false by lia.
    replace (in_shortb change) with true by (unfold in_shortb; lia).
    right. eexists; split; [reflexivity|]. cbn. auto.
Qed.

Lemma skipn_skipn {A} : forall a b (l : list A), skipn a (skipn b l) = skipn (a + b) l.
Proof.
  intros a b. revert a. induction b as [|b IH]; intros a l.
  - now rewrite Nat.add_0_r.
  - rewrite Nat.add_succ_r. destruct l as [|x l]; [now rewrite !skipn_nil|]. cbn [skipn]. apply IH.
Qed.

Lemma firstn_skipn_nth (ser : list Z) d : forall n lo, (lo + n <= length ser)%nat ->
  firstn n (skipn lo ser) = map (fun k => nth (lo + k) ser d) (seq 0 n).
Proof.
  induction n as [|n IH]; intros lo H; [reflexivity|].
  rewrite seq_S, map_app. cbn [map Nat.add].
  rewrite <- (IH lo) by lia.
  replace (firstn (S n) (skipn lo ser)) with (firstn n (skipn lo ser) ++ firstn 1 (skipn n (skipn lo ser))).
  - f_equal. rewrite skipn_skipn. replace (n + lo)%nat with (lo + n)%nat by lia.
    assert (forall (m : nat) (l : list Z), (m < length l)%nat -> firstn 1 (skipn m l) = [nth m l d]) as N.
    { induction m as [|m IHm]; intros [|x l] L; cbn in *; try lia; auto. apply IHm; lia. }
    apply N. lia.
  - replace (S n) with (n + 1)%nat by lia. generalize (skipn lo ser) as l. clear. intros l. revert n.
    induction l as [|x l IHl]; intros [|n]; cbn; auto. f_equal. apply IHl.
Qed.

Lemma part_values_between nodata ser lo hi : 0 <= lo -> hi <= zlen ser ->
  part_values nodata ser (lo, hi) = valid_between nodata ser lo hi.
Proof.
  intros L H. unfold part_values, valid_between, zrange; cbn [fst snd]. f_equal.
  rewrite map_map. replace (hi - 1 - lo + 1) with (hi - lo) by lia.
  destruct (Z.leb_spec (hi - lo) 0) as [A|A].
  - replace (Z.to_nat (hi - lo)) with 0%nat by lia. reflexivity.
  - rewrite (firstn_skipn_nth ser nodata) by (unfold zlen in H; lia).
    apply map_ext. intros k. f_equal. lia.
Qed.
