(** Proofs about path decomposition. *)
From Verif Require Import Base BaseFacts CStr StringProofs PathModel PathSpec.

Lemma strchr_spec c l : match strchr c l with
  | None => ~ In c l
  | Some k => exists a b, l = a ++ c :: b /\ length a = k /\ ~ In c a
  end.
Proof.
  induction l as [|x l IH]; cbn; auto. destruct (Z.eqb_spec x c).
  - subst. exists [], l. cbn. auto.
  - destruct (strchr c l) as [k|].
    + destruct IH as (a & b & -> & L & N). exists (x :: a), b. cbn. split; [auto|]. split; [lia|]. intros [?|?]; auto.
    + intros [?|?]; auto.
Qed.

Lemma strrchr_spec c l : match strrchr c l with
  | None => ~ In c l
  | Some k => exists a b, l = a ++ c :: b /\ length a = k /\ ~ In c b
  end.
Proof.
  induction l as [|x l IH]; cbn; auto. destruct (strrchr c l) as [k|].
  - destruct IH as (a & b & -> & L & N). exists (x :: a), b. cbn. split; [auto|]. split; [lia|auto].
  - destruct (Z.eqb_spec x c).
    + subst. exists [], l. auto.
    + intros [?|?]; auto.
Qed.

Lemma strip_spec t : forall fuel p c, c <> slash -> (t <= fuel)%nat ->
  strip_slashes fuel (p ++ c :: repeat slash t) (zlen (p ++ c :: repeat slash t)) = Ret (p ++ [c]).
Proof.
  induction t as [|t IH]; intros fuel p c Hc Hf.
  - assert (G: get_at (p ++ [c]) (zlen (p ++ [c]) - 1) = Some c).
    { rewrite get_at_app2 by (unfold zlen; rewrite app_length; cbn; lia).
      replace (zlen (p ++ [c]) - 1 - zlen p) with 0 by (unfold zlen; rewrite app_length; cbn; lia). reflexivity. }
    cbn [repeat]. destruct fuel; cbn [strip_slashes]; rewrite G; cbn [of_option bind]; destruct (Z.eqb_spec c slash); try contradiction; reflexivity.
  - destruct fuel as [|fuel]; [lia|].
    replace (p ++ c :: repeat slash (S t)) with ((p ++ c :: repeat slash t) ++ [slash])
      by (rewrite <- app_assoc; cbn [app]; do 2 f_equal; rewrite <- repeat_cons; reflexivity).
    set (q := p ++ c :: repeat slash t).
    assert (L: zlen (q ++ [slash]) - 1 = zlen q) by (unfold zlen; rewrite app_length; cbn; lia).
    cbn [strip_slashes]. rewrite L. rewrite get_at_app2 by lia. rewrite Z.sub_diag.
    change (get_at [slash] 0) with (Some slash). cbn [of_option bind]. rewrite Z.eqb_refl.
    replace (Z.to_nat (zlen q)) with (length q) by (unfold zlen; lia).
    rewrite firstn_app, Nat.sub_diag, firstn_all. cbn [firstn]. rewrite app_nil_r. apply IH; auto. lia.
Qed.

Lemma strip_only_slashes t : forall fuel, strip_slashes fuel (repeat slash t) (zlen (repeat slash t)) = UB.
Proof.
  induction t as [|t IH]; intros fuel.
  - destruct fuel; reflexivity.
  - assert (L: zlen (repeat slash (S t)) - 1 = zlen (repeat slash t)) by (unfold zlen; rewrite !repeat_length; lia).
    assert (G: get_at (repeat slash (S t)) (zlen (repeat slash t)) = Some slash).
    { change (S t) with (1 + t)%nat. rewrite Nat.add_comm, repeat_app. rewrite get_at_app2 by lia. rewrite Z.sub_diag. reflexivity. }
    destruct fuel as [|fuel]; cbn [strip_slashes]; rewrite L, G; cbn [of_option bind]; rewrite Z.eqb_refl; [reflexivity|].
    replace (firstn (Z.to_nat (zlen (repeat slash t))) (repeat slash (S t))) with (repeat slash t); [apply IH|].
    unfold zlen. rewrite Nat2Z.id, repeat_length. change (S t) with (1 + t)%nat. rewrite Nat.add_comm, repeat_app.
    rewrite firstn_app, repeat_length, Nat.sub_diag, firstn_all2 by (rewrite repeat_length; lia). cbn. rewrite app_nil_r. reflexivity.
Qed.

Lemma slashes_or_component path : (exists t, path = repeat 47 t) \/ (exists p c t, path = p ++ c :: repeat 47 t /\ c <> 47).
Proof.
  induction path as [|x path IH] using rev_ind.
  - left. exists O. reflexivity.
  - destruct (Z.eq_dec x 47) as [->|N].
    + destruct IH as [(t & ->)|(p & c & t & -> & N)].
      * left. exists (S t). cbn. rewrite <- repeat_cons. reflexivity.
      * right. exists p, c, (S t). split; auto. rewrite <- app_assoc. cbn. rewrite <- repeat_cons. reflexivity.
    + right. exists path, x, O. auto.
Qed.

Lemma basename_spec p c t size : c <> 47 ->
  exists front base, p ++ [c] = front ++ base /\ component base /\ base <> [] /\ (front = [] \/ exists f, front = f ++ [47]) /\
    basename_with_ext (p ++ c :: repeat 47 t) size = (b <- copy_string size base ;; Ret (p ++ [c], b)).
Proof.
  intros Hc. unfold basename_with_ext. change 47 with slash.
  rewrite (strip_spec t (length (p ++ c :: repeat slash t)) p c Hc) by (rewrite app_length; cbn [length]; rewrite repeat_length; lia).
  cbn [bind]. pose proof (strrchr_spec slash (p ++ [c])) as R. destruct (strrchr slash (p ++ [c])) as [k|].
  - destruct R as (a & b & E & L & N). exists (a ++ [47]), b. rewrite E. split; [rewrite <- app_assoc; reflexivity|].
    split; [exact N|]. split.
    { intros ->. apply app_inj_tail in E as [_ E]. contradiction. }
    split; [eauto|]. replace (skipn (S k) (a ++ slash :: b)) with b; [reflexivity|].
    replace (a ++ slash :: b) with ((a ++ [slash]) ++ b) by (rewrite <- app_assoc; reflexivity).
    rewrite skipn_app. replace (S k) with (length (a ++ [slash])) by (rewrite app_length; cbn; lia).
    rewrite skipn_all, Nat.sub_diag. reflexivity.
  - exists [], (p ++ [c]). split; [reflexivity|]. split; [exact R|]. split; [destruct p; discriminate|]. split; auto.
Qed.

Lemma last_component_unique path b1 b2 : last_component path b1 -> last_component path b2 -> b1 = b2.
Proof.
  intros (C1 & N1 & f1 & t1 & E1 & F1) (C2 & N2 & f2 & t2 & E2 & F2).
  assert (W: forall f b t g d u, component b -> b <> [] -> component d -> d <> [] ->
    f ++ b ++ repeat 47 t = g ++ d ++ repeat 47 u -> t = u /\ f ++ b = g ++ d).
  { clear. intros f b t g d. revert t. intros t u Cb Nb Cd Nd. revert u.
    destruct (exists_last Nb) as (b' & x & ->). destruct (exists_last Nd) as (d' & y & ->).
    assert (x <> 47) by (intros ->; apply Cb; apply in_or_app; right; left; auto).
    assert (y <> 47) by (intros ->; apply Cd; apply in_or_app; right; left; auto).
    induction t as [|t IH]; intros [|u] E.
    - rewrite !app_nil_r in E. auto.
    - exfalso. cbn [repeat] in E. rewrite app_nil_r in E. rewrite repeat_cons in E. rewrite !app_assoc in E.
      apply app_inj_tail in E as [_ E]. contradiction.
    - exfalso. cbn [repeat] in E. rewrite app_nil_r in E. rewrite repeat_cons in E. rewrite !app_assoc in E.
      apply app_inj_tail in E as [_ E]. congruence.
    - cbn [repeat] in E. rewrite !repeat_cons, !app_assoc in E. apply app_inj_tail in E as [E _].
      rewrite <- !app_assoc in E. destruct (IH u) as [-> E2]; [rewrite <- !app_assoc; exact E|]. auto. }
  rewrite E1 in E2. destruct (W _ _ _ _ _ _ C1 N1 C2 N2 E2) as [_ E]. clear - E C1 C2 N1 N2 F1 F2.
  assert (X: forall f b d, component d -> (f ++ [47]) ++ b = d -> False).
  { intros f b d Cd E0. apply Cd. rewrite <- E0. apply in_or_app. left. apply in_or_app. right. left. auto. }
  destruct F1 as [->|(f & ->)], F2 as [->|(g & ->)]; cbn [app] in E; auto.
  - exfalso. eapply X; [exact C1|symmetry; exact E].
  - exfalso. eapply X; [exact C2|exact E].
  - assert (Y: forall b d : list Z, component b -> component d -> forall f g, (f ++ [47]) ++ b = (g ++ [47]) ++ d -> b = d).
    { clear. induction b as [|x b IH] using rev_ind; intros d Cb Cd f g E.
      - destruct d as [|y d _] using rev_ind; auto. rewrite app_nil_r, app_assoc in E. apply app_inj_tail in E as [_ <-].
        exfalso; apply Cd; apply in_or_app; right; left; auto.
      - destruct d as [|y d _] using rev_ind.
        + rewrite app_nil_r, app_assoc in E. apply app_inj_tail in E as [_ ->]. exfalso; apply Cb; apply in_or_app; right; left; auto.
        + rewrite !app_assoc in E. apply app_inj_tail in E as [E ->]. f_equal. eapply IH; eauto.
          * intros H; apply Cb; apply in_or_app; auto.
          * intros H; apply Cd; apply in_or_app; auto. }
    eapply Y; eauto.
Qed.

Lemma fits size l : zlen l < size -> copy_string size l = Ret l.
Proof. intros H. unfold copy_string. destruct (Z.geb_spec (zlen l) size); [lia|auto]. Qed.

Lemma first_dot b : exists stem ext, first_dot_split b stem ext /\
  (match strchr dot b with Some k => firstn k b | None => b end) = stem /\
  (match strchr dot b with Some k => skipn k b | None => [] end) = ext.
Proof.
  pose proof (strchr_spec dot b) as D. destruct (strchr dot b) as [k|].
  - destruct D as (u & v & -> & L & N). exists u, (dot :: v). subst k. split; [|split].
    + repeat split; auto. right; eauto.
    + rewrite firstn_app, Nat.sub_diag, firstn_all. apply app_nil_r.
    + rewrite skipn_app, Nat.sub_diag, skipn_all. reflexivity.
  - exists b, []. repeat split; auto. rewrite app_nil_r; auto.
Qed.

Lemma last_dot b : exists stem ext, last_dot_split b stem ext /\
  (match strrchr dot b with Some k => skipn k b | None => [] end) = ext.
Proof.
  pose proof (strrchr_spec dot b) as D. destruct (strrchr dot b) as [k|].
  - destruct D as (u & v & -> & L & N). exists u, (dot :: v). subst k. split.
    + split; auto. right; exists v; auto.
    + rewrite skipn_app, Nat.sub_diag, skipn_all. reflexivity.
  - exists b, []. repeat split; auto. rewrite app_nil_r; auto.
Qed.
