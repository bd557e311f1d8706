(** Proofs about band selection. *)
From Coq Require Import Sorted.
From Verif Require Import Base BaseFacts Loops LoopsFacts CStr StringModel StringProofs AllocModel BandModel BandSpec.

(** The elements of l whose flag is set. *)
Fixpoint keep {A} (use : list bool) (l : list A) : list A :=
  match use, l with
  | u :: use', a :: l' => if u then a :: keep use' l' else keep use' l'
  | _, _ => []
  end.

Lemma keep_map {A B} (f : A -> B) : forall use l, keep use (map f l) = map f (keep use l).
Proof. induction use as [|u use IH]; intros [|a l]; cbn; auto. destruct u; cbn; rewrite IH; auto. Qed.

Lemma keep_length {A B} : forall use (l : list A) (m : list B), length l = length m ->
  length (keep use l) = length (keep use m).
Proof.
  induction use as [|u use IH]; intros [|a l] [|b m] H; cbn in *; auto; try discriminate.
  destruct u; cbn; auto.
Qed.

Lemma keep_filter {A} (f : A -> bool) : forall l, keep (map f l) l = filter f l.
Proof. induction l as [|a l IH]; cbn; auto. rewrite IH. reflexivity. Qed.

Lemma shift_split {A} cp (mid : list A) : forall pre x junk b n_used,
  Forall (fun y => cp y = Ret y) mid ->
  zlen pre = b -> n_used = b + 1 + zlen mid ->
  exists y, shift_left cp (pre ++ x :: mid ++ junk) b n_used = Ret (pre ++ mid ++ y :: junk).
Proof.
  unfold shift_left. induction mid as [|m mid IH]; intros pre x junk b n_used Hcp Hb Hn.
  - cbn in Hn. rewrite zrange_nil by (unfold zlen in *; cbn in *; lia). exists x. reflexivity.
  - assert (zlen (m :: mid) = 1 + zlen mid) as L by (unfold zlen; cbn [length]; lia).
    pose proof (zlen_nonneg mid). pose proof (Forall_inv Hcp) as Hm. pose proof (Forall_inv_tail Hcp) as Hmid. cbv beta in Hm. subst b n_used.
    rewrite zrange_cons by lia. cbn [ofold].
    assert (get_at (pre ++ x :: (m :: mid) ++ junk) (zlen pre + 1) = Some m) as ->.
    { rewrite get_at_app2 by lia. replace (zlen pre + 1 - zlen pre) with 1 by lia. reflexivity. }
    cbn [of_option bind].
    rewrite Hm. cbn [bind].
    rewrite set_at_some.
    2:{ unfold zlen. rewrite app_length. cbn [length]. lia. }
    cbn [of_option bind].
    replace (Z.to_nat (zlen pre)) with (length pre + 0)%nat by (unfold zlen; lia).
    rewrite list_set_app_r by lia. replace (length pre + 0 - length pre)%nat with 0%nat by lia. cbn [list_set].
    replace (pre ++ m :: (m :: mid) ++ junk) with ((pre ++ [m]) ++ m :: mid ++ junk)
      by (rewrite <- app_assoc; reflexivity).
    destruct (IH (pre ++ [m]) m junk (zlen pre + 1) (zlen pre + 1 + zlen (m :: mid))) as [y E]; auto.
    + unfold zlen. rewrite app_length. cbn. lia.
    + lia.
    + exists y. replace (zlen pre + 1 + 1) with (zlen pre + 1 + 1) by lia.
      rewrite E. rewrite <- app_assoc. reflexivity.
Qed.

(** l starts with pre followed by rest. *)
Definition starts {A} (pre rest l : list A) : Prop := exists junk, l = pre ++ rest ++ junk.

Lemma shift_starts {A} cp (pre : list A) x mid l b n_used :
  Forall (fun y => cp y = Ret y) mid -> starts pre (x :: mid) l ->
  zlen pre = b -> n_used = b + 1 + zlen mid ->
  exists l', shift_left cp l b n_used = Ret l' /\ starts pre mid l' /\ length l' = length l.
Proof.
  intros Hcp [junk E] Hb Hn. subst l.
  destruct (shift_split cp mid pre x junk b n_used Hcp Hb Hn) as [y E].
  exists (pre ++ mid ++ y :: junk). split; [exact E|]. split.
  - exists (y :: junk). reflexivity.
  - rewrite !app_length. cbn [length app]. rewrite ?app_length. cbn [length]. lia.
Qed.

Lemma shift_rows : forall pres rests rows b n_used,
  Forall2 (fun pr l => starts (fst pr) (snd pr) l) (combine pres rests) rows ->
  length pres = length rests ->
  Forall (fun p => zlen p = b) pres -> Forall (fun r => r <> [] /\ n_used = b + zlen r) rests ->
  exists rows', omap (fun row => shift_left Ret row b n_used) rows = Ret rows' /\
    Forall2 (fun pr l => starts (fst pr) (snd pr) l) (combine pres (map (fun r => tl r) rests)) rows' /\
    map (fun l => length l) rows' = map (fun l => length l) (rows : list (list Z)).
Proof.
  induction pres as [|p pres IH]; intros [|r rests] rows b n_used H L Hp Hr; try discriminate L; cbn in H.
  - inversion H; subst. exists []. cbn. auto.
  - inversion H as [|? y ? rows0 Hs Hrest]; subst. pose proof (Forall_inv Hp) as Hp1. pose proof (Forall_inv_tail Hp) as Hp2.
    destruct (Forall_inv Hr) as [Hr1 Hr2]. pose proof (Forall_inv_tail Hr) as Hr3. cbv beta in Hp1. subst b n_used.
    destruct r as [|x mid]; [congruence|].
    destruct (shift_starts Ret p x mid y (zlen p) (zlen p + zlen (x :: mid))) as (l' & E & S' & L'); auto.
    + apply Forall_forall; auto.
    + unfold zlen; cbn [length]; lia.
    + destruct (IH rests rows0 (zlen p) (zlen p + zlen (x :: mid))) as (rows' & E2 & S2 & L2); auto.
      exists (l' :: rows'). cbn [omap]. rewrite E. cbn [bind]. rewrite E2. cbn [bind]. split; [reflexivity|].
      split; [constructor; auto|]. cbn [map]. rewrite L', L2. reflexivity.
Qed.

Definition okrow (pr : list Z * list Z) (l : list Z) : Prop := starts (fst pr) (snd pr) l.

Lemma starts_snoc {A} (pre : list A) x rest l : starts pre (x :: rest) l <-> starts (pre ++ [x]) rest l.
Proof. unfold starts. split; intros [j E]; exists j; rewrite <- ?app_assoc in *; cbn in *; auto. Qed.

Lemma get_starts {A} (pre : list A) x rest l : starts pre (x :: rest) l -> get_at l (zlen pre) = Some x.
Proof.
  intros [j ->]. rewrite get_at_app2 by lia. rewrite Z.sub_diag. reflexivity.
Qed.

Lemma copy_name_id names : Forall (fun nm : list Z => zlen nm < 1024) names ->
  Forall (fun y => copy_string NPOW_10 y = Ret y) names.
Proof.
  apply Forall_impl. intros nm H. unfold copy_string, NPOW_10. destruct (Z.geb_spec (zlen nm) 1024); [lia|reflexivity].
Qed.

Lemma drop_spec : forall rf fuel pf use pn rn names pres rests rows b n_used,
  (length rf <= fuel)%nat ->
  zlen pf = b -> zlen pn = b -> Forall (fun p => zlen p = b) pres ->
  length rn = length rf -> Forall (fun r => length r = length rf) rests ->
  length pres = length rests ->
  n_used = b + zlen rf ->
  Forall (fun nm : list Z => zlen nm < 1024) rn ->
  starts pf rf use -> starts pn rn names ->
  Forall2 okrow (combine pres rests) rows ->
  exists names' rows', drop_unused fuel b n_used use names rows =
      Ret (b + zlen (keep rf rn), names', rows') /\
    starts (pn ++ keep rf rn) [] names' /\ length names' = length names /\
    Forall2 okrow (combine (map (fun pr => fst pr ++ keep rf (snd pr)) (combine pres rests)) (map (fun _ => []) rests)) rows' /\
    map (fun l => length l) rows' = map (fun l => length l) rows.
Proof.
  induction rf as [|u rf IH]; intros fuel pf use pn rn names pres rests rows b n_used
    Hfuel Hpf Hpn Hpres Lrn Lrests Lpr Hn Hnm Suse Snames Srows.
  - destruct rn; [|discriminate]. exists names, rows.
    assert (E: n_used = b) by (unfold zlen in Hn; cbn in Hn; lia).
    assert (drop_unused fuel b n_used use names rows = Ret (n_used, names, rows)) as ->.
    { destruct fuel; cbn [drop_unused]; (destruct (Z.ltb_spec b n_used); [lia|]); reflexivity. }
    split; [do 3 f_equal; unfold zlen; cbn; lia|].
    split; [rewrite app_nil_r; exact Snames|]. split; [reflexivity|]. split; [|reflexivity].
    assert (E2: map (fun _ : list Z => @nil Z) rests = rests).
    { clear - Lrests. induction rests as [|r rests IH]; cbn; auto. inversion Lrests; subst.
      destruct r; [|discriminate]. f_equal; auto. }
    rewrite E2. replace (map (fun pr => fst pr ++ keep [] (snd pr)) (combine pres rests)) with pres; [exact Srows|].
    clear - Lpr. revert rests Lpr. induction pres as [|p pres IH]; intros [|r rests] L; cbn in *; auto; try discriminate.
    rewrite app_nil_r. f_equal; auto.
  - destruct fuel as [|fuel]; [cbn in Hfuel; lia|]. destruct rn as [|nm rn]; [discriminate|].
    assert (zlen (u :: rf) = 1 + zlen rf) as Lz by (unfold zlen; cbn [length]; lia).
    pose proof (zlen_nonneg rf).
    cbn [drop_unused]. destruct (Z.ltb_spec b n_used); [|lia]. cbn [negb].
    assert (get_at use b = Some u) as -> by (rewrite <- Hpf; eapply get_starts; eauto). cbn [of_option bind].
    pose proof (Forall_inv_tail Hnm) as Hnm'. subst b n_used. cbn in Lrn, Hfuel.
    destruct u.
    + (* keep *)
      destruct (IH fuel (pf ++ [true]) use (pn ++ [nm]) rn names
                   (map (fun pr => fst pr ++ firstn 1 (snd pr)) (combine pres rests))
                   (map (fun r => tl r) rests) rows (zlen pf + 1) (zlen pf + zlen (true :: rf))) as (names' & rows' & E & S1 & L1 & S2 & L2).
      * lia.
      * unfold zlen. rewrite app_length. cbn. lia.
      * unfold zlen. rewrite app_length. cbn [length]. unfold zlen in Hpn. lia.
      * clear - Hpres Lrests Lpr. revert rests Lrests Lpr. induction pres as [|p pres IHp]; intros [|r rests] F L; cbn; auto; try discriminate.
        inversion F; subst. inversion Hpres; subst. constructor; auto.
        destruct r; [discriminate|]. cbn [fst snd firstn]. unfold zlen in *. rewrite app_length. cbn [length]. lia.
      * lia.
      * apply Forall_map. revert Lrests. apply Forall_impl. intros [|x r] Hr; cbn in *; [discriminate|lia].
      * rewrite !map_length, combine_length, Lpr. lia.
      * lia.
      * auto.
      * apply starts_snoc; auto.
      * apply starts_snoc; auto.
      * clear - Srows Lrests Lpr. revert rests rows Lrests Lpr Srows. induction pres as [|p pres IHp]; intros [|r rests] rows F L S; cbn in *; auto; try discriminate.
        inversion F; subst. inversion S; subst. destruct r as [|x r]; [discriminate|]. constructor.
        { unfold okrow in *; cbn [fst snd firstn tl] in *. apply starts_snoc; auto. }
        apply IHp; auto.
      * exists names', rows'. rewrite E. cbn [keep]. split.
        { do 3 f_equal. unfold zlen. cbn [length]. lia. }
        split; [rewrite <- app_assoc in S1; exact S1|]. split; [exact L1|]. split; [|exact L2].
        revert S2. clear - Lrests Lpr. revert rests rows' Lrests Lpr. induction pres as [|p pres IHp]; intros [|r rests] rows' F L S; cbn in *; auto; try discriminate.
        inversion F; subst. inversion S; subst. destruct r as [|x r]; [discriminate|]. constructor.
        { unfold okrow in *; cbn [fst snd firstn tl] in *. rewrite <- app_assoc in H3. exact H3. }
        apply IHp; auto.
    + (* drop *)
      destruct (shift_starts Ret pf false rf use (zlen pf) (zlen pf + zlen (false :: rf))) as (use' & Eu & Su & _); auto.
      { apply Forall_forall; auto. } { lia. }
      destruct (shift_starts (copy_string NPOW_10) pn nm rn names (zlen pf) (zlen pf + zlen (false :: rf))) as (names1 & En & Sn & Ln); auto.
      { apply copy_name_id; auto. } { unfold zlen in *. lia. }
      destruct (shift_rows pres rests rows (zlen pf) (zlen pf + zlen (false :: rf))) as (rows1 & Er & Sr & Lr); auto.
      { revert Lrests. apply Forall_impl. intros [|x r] Hr; [discriminate|]. split; [discriminate|]. unfold zlen in *. cbn [length] in *. lia. }
      cbn [bind]. rewrite Eu. cbn [bind]. rewrite En. cbn [bind]. rewrite Er. cbn [bind].
      destruct (IH fuel pf use' pn rn names1 pres (map (fun r => tl r) rests) rows1 (zlen pf) (zlen pf + zlen (false :: rf) - 1)) as (names' & rows' & E & S1 & L1 & S2 & L2); auto; try lia.
      * apply Forall_map. revert Lrests. apply Forall_impl. intros [|x r] Hr; cbn in *; [discriminate|lia].
      * rewrite map_length. lia.
      * exists names', rows'. rewrite E. cbn [keep]. split; [reflexivity|].
        split; [exact S1|]. split; [congruence|]. split; [|congruence].
        revert S2. clear - Lrests Lpr. revert rests rows' Lrests Lpr. induction pres as [|p pres IHp]; intros [|r rests] rows' F L S; cbn in *; auto; try discriminate.
        inversion F; subst. inversion S; subst. destruct r as [|x r]; [discriminate|]. constructor.
        { exact H3. }
        apply IHp; auto.
Qed.

Lemma zupto_nth_map {A} (l : list A) d : l = map (fun b => nth (Z.to_nat b) l d) (zupto (zlen l)).
Proof.
  unfold zupto, zlen. rewrite Nat2Z.id, map_map.
  rewrite (map_ext _ (fun b => nth b l d)) by (intros; rewrite Nat2Z.id; reflexivity).
  induction l as [|a l IH]; cbn; auto. f_equal. rewrite <- seq_shift, map_map. exact IH.
Qed.

Lemma get_at_map {A B} (f : A -> B) l j : get_at (map f l) j = option_map f (get_at l j).
Proof. unfold get_at. destruct (j <? 0); auto. apply nth_error_map. Qed.

(** Positions of the flagged bands. *)
Definition flagged (use : list bool) : list Z := keep use (zupto (zlen use)).

Lemma keep_flagged {A} (use : list bool) (l : list A) d : length l = length use ->
  keep use l = map (fun b => nth (Z.to_nat b) l d) (flagged use).
Proof.
  intros L. unfold flagged. rewrite <- keep_map. f_equal.
  replace (zlen use) with (zlen l) by (unfold zlen; lia). apply zupto_nth_map.
Qed.

Lemma keep_In {A} : forall use (l : list A) a, In a (keep use l) <-> exists j, nth_error use j = Some true /\ nth_error l j = Some a.
Proof.
  induction use as [|u use IH]; intros [|x l] a; cbn.
  - split; [tauto|]. intros ([|j] & H & _); discriminate.
  - split; [tauto|]. intros ([|j] & H & _); discriminate.
  - split; [tauto|]. intros ([|j] & _ & H); discriminate.
  - specialize (IH l a). destruct u; cbn; rewrite IH; split.
    + intros [->|(j & H1 & H2)]; [exists O; auto|exists (S j); auto].
    + intros ([|j] & H1 & H2); cbn in *; [left; congruence|right; eauto].
    + intros (j & H1 & H2). exists (S j); auto.
    + intros ([|j] & H1 & H2); cbn in *; [discriminate|eauto].
Qed.

Lemma flagged_In use b : In b (flagged use) <-> get_at use b = Some true.
Proof.
  unfold flagged. rewrite keep_In. split.
  - intros (j & H1 & H2). unfold zupto in H2. rewrite nth_error_map in H2.
    destruct (nth_error (seq 0 (Z.to_nat (zlen use))) j) as [x|] eqn:E; [|discriminate].
    cbn in H2. inversion H2; subst. assert (x = j) as ->.
    { assert (j < length use)%nat by (apply nth_error_Some; congruence).
      rewrite (nth_error_nth' _ 0%nat) in E by (rewrite seq_length; unfold zlen; lia).
      rewrite seq_nth in E by (unfold zlen; lia). inversion E. lia. }
    rewrite get_at_nat. exact H1.
  - intros H. pose proof (get_at_inv _ _ _ H) as R. exists (Z.to_nat b). split.
    + unfold get_at in H. destruct (Z.ltb_spec b 0); [lia|auto].
    + unfold zupto. rewrite nth_error_map. rewrite (nth_error_nth' _ 0%nat) by (rewrite seq_length; lia).
      rewrite seq_nth by lia. cbn. f_equal. lia.
Qed.

Lemma keep_sorted use : forall l, StronglySorted Z.lt l -> StronglySorted Z.lt (keep use l).
Proof.
  induction use as [|u use IH]; intros [|a l] H; cbn; try constructor. inversion H; subst.
  destruct u; auto. constructor; auto. apply Forall_forall. intros x Hx. apply keep_In in Hx as (j & _ & Hx).
  apply nth_error_In in Hx. eapply Forall_forall in H3; eauto.
Qed.

Lemma flagged_sorted use : StronglySorted Z.lt (flagged use).
Proof. apply keep_sorted. rewrite zupto_zrange. apply zrange_sorted. Qed.

(** Shrinking reallocations. *)
Lemma re_alloc_shrink {A} (zero undef : A) (l : list A) o n : length l = o -> (0 < n)%nat -> (n <= o)%nat ->
  re_alloc zero undef l o n = Ret (firstn n l).
Proof.
  intros L P Le. unfold re_alloc. destruct (Nat.eqb_spec o n).
  - subst. rewrite firstn_all. reflexivity.
  - unfold realloc. destruct n as [|n]; [lia|]. cbn [bind]. destruct (Nat.ltb_spec o (S n)); [lia|].
    replace (S n - length l)%nat with 0%nat by lia. cbn [repeat]. rewrite app_nil_r. reflexivity.
Qed.

Lemma resize_rows_shrink o n : (0 < n)%nat -> (n <= o)%nat -> forall rows i n1, Forall (fun r : list Z => length r = o) rows ->
  (i + length rows <= n1)%nat ->
  resize_rows 0 0 (map Some rows) i n1 o n = Ret (map (fun r => firstn n r) rows).
Proof.
  intros P Le. induction rows as [|r rows IH]; intros i n1 F L; cbn [map resize_rows]; auto.
  inversion F; subst. cbn in L. destruct (Nat.leb_spec n1 i); [lia|].
  rewrite re_alloc_shrink by auto. cbn [bind]. rewrite IH by (auto; lia). reflexivity.
Qed.

Lemma re_alloc_2D_shrink (a : list (list Z)) n1 o n : length a = n1 -> Forall (fun r : list Z => length r = o) a ->
  (0 < n)%nat -> (n <= o)%nat ->
  re_alloc_2D 0 0 a n1 o n1 n = Ret (map (fun r => firstn n r) a).
Proof.
  intros L F P Le. unfold re_alloc_2D. rewrite Nat.eqb_refl. cbn [andb].
  destruct (Nat.eqb_spec o n).
  - subst. f_equal. rewrite <- (map_id a) at 1. apply map_ext_in. intros r Hr.
    eapply Forall_forall in F; eauto. subst. rewrite firstn_all. reflexivity.
  - unfold re_alloc. rewrite Nat.eqb_refl. cbn [bind]. apply resize_rows_shrink; auto. lia.
Qed.

Lemma starts_firstn {A} (pre l : list A) : starts pre [] l -> firstn (length pre) l = pre.
Proof. intros [j ->]. cbn. rewrite firstn_app, Nat.sub_diag, firstn_all. cbn. apply app_nil_r. Qed.

Lemma rows_firstn rf : forall rests rows n,
  Forall (fun r : list Z => length (keep rf r) = n) rests ->
  Forall2 okrow (combine (map (fun pr => fst pr ++ keep rf (snd pr)) (combine (repeat [] (length rests)) rests)) (map (fun _ => []) rests)) rows ->
  map (fun r => firstn n r) rows = map (keep rf) rests.
Proof.
  induction rests as [|r rests IH]; intros rows n F S; cbn in S; inversion S; subst; auto.
  inversion F; subst. cbn [map]. f_equal; [|auto].
  cbn in H1. apply starts_firstn in H1. exact H1.
Qed.

Lemma remove_keep s use : sen_ok s -> length use = length (sn_names s) -> keep use (sn_names s) <> [] ->
  remove_unused_bands use s =
    Ret (MkSen (sn_n s) (zlen (keep use (sn_names s))) (keep use (sn_names s)) (map (keep use) (sn_number s)) (sn_adjust s)).
Proof.
  intros (H1 & H2 & H3 & H4) L NE. unfold remove_unused_bands.
  assert (Lr: Forall (fun r => length r = length use) (sn_number s)).
  { revert H3. apply Forall_impl. intros r Hr. unfold zlen in *. lia. }
  destruct (drop_spec use (Z.to_nat (sn_bands s)) [] use [] (sn_names s) (sn_names s)
              (repeat [] (length (sn_number s))) (sn_number s) (sn_number s) 0 (sn_bands s)) as (names' & rows' & E & S1 & L1 & S2 & L2).
  - unfold zlen in *; lia.
  - reflexivity.
  - reflexivity.
  - apply Forall_forall. intros x Hx. apply repeat_spec in Hx. subst. reflexivity.
  - auto.
  - auto.
  - apply repeat_length.
  - unfold zlen in *; lia.
  - auto.
  - exists []. rewrite app_nil_r. reflexivity.
  - exists []. rewrite app_nil_r. reflexivity.
  - clear. induction (sn_number s) as [|r l IH]; cbn; constructor; auto.
    exists []. cbn. rewrite app_nil_r. reflexivity.
  - rewrite E. cbn [bind]. rewrite Z.add_0_l. cbn [app] in S1.
    assert (Z.to_nat (zlen (keep use (sn_names s))) = length (keep use (sn_names s))) as EL by (unfold zlen; lia).
    assert (length (keep use (sn_names s)) <= length (sn_names s))%nat as Le.
    { rewrite <- L1. destruct S1 as [j ->]. rewrite !app_length. lia. }
    assert (0 < length (keep use (sn_names s)))%nat as P by (destruct (keep use (sn_names s)); [congruence|cbn; lia]).
    rewrite EL. rewrite re_alloc_2D_shrink; auto.
    + cbn [bind]. rewrite re_alloc_shrink; auto.
      * cbn [bind]. rewrite starts_firstn by exact S1. f_equal. f_equal.
        apply rows_firstn; auto. revert Lr. apply Forall_impl. intros r Hr. apply keep_length. lia.
      * rewrite L1. unfold zlen in *; lia.
      * unfold zlen in *; lia.
    + assert (length rows' = length (sn_number s)) by (rewrite <- (map_length (fun l => length l)), L2, map_length; auto).
      unfold zlen in *; lia.
    + clear - L2 H3. revert rows' L2. induction (sn_number s) as [|r l IH]; intros [|r' l'] L2; try discriminate; constructor.
      * inversion L2. inversion H3; subst. unfold zlen in *; lia.
      * inversion L2. inversion H3; subst. auto.
    + unfold zlen in *; lia.
Qed.

Lemma remove_nothing_left s use : sen_ok s -> length use = length (sn_names s) -> keep use (sn_names s) = [] ->
  sn_n s <> 0 -> sn_bands s <> 0 -> remove_unused_bands use s = Exit.
Proof.
  intros (H1 & H2 & H3 & H4) L NE Nn Nb. unfold remove_unused_bands.
  assert (Lr: Forall (fun r => length r = length use) (sn_number s)).
  { revert H3. apply Forall_impl. intros r Hr. unfold zlen in *. lia. }
  destruct (drop_spec use (Z.to_nat (sn_bands s)) [] use [] (sn_names s) (sn_names s)
              (repeat [] (length (sn_number s))) (sn_number s) (sn_number s) 0 (sn_bands s)) as (names' & rows' & E & S1 & L1 & S2 & L2).
  - unfold zlen in *; lia.
  - reflexivity.
  - reflexivity.
  - apply Forall_forall. intros x Hx. apply repeat_spec in Hx. subst. reflexivity.
  - auto.
  - auto.
  - apply repeat_length.
  - unfold zlen in *; lia.
  - auto.
  - exists []. rewrite app_nil_r. reflexivity.
  - exists []. rewrite app_nil_r. reflexivity.
  - clear. induction (sn_number s) as [|r l IH]; cbn; constructor; auto.
    exists []. cbn. rewrite app_nil_r. reflexivity.
  - rewrite E. cbn [bind]. rewrite NE. change (0 + zlen (@nil (list Z))) with 0. change (Z.to_nat 0) with 0%nat.
    pose proof (zlen_nonneg (sn_names s)). pose proof (zlen_nonneg (sn_number s)).
    unfold re_alloc_2D. rewrite Nat.eqb_refl. cbn [andb].
    destruct (Nat.eqb_spec (Z.to_nat (sn_bands s)) 0); [lia|].
    unfold re_alloc at 1. rewrite Nat.eqb_refl. cbn [bind].
    destruct rows' as [|r rows']. { exfalso. destruct (sn_number s); [unfold zlen in *; cbn in *; lia|discriminate]. }
    cbn [map resize_rows]. destruct (Nat.leb_spec (Z.to_nat (sn_n s)) 0); [unfold zlen in *; lia|].
    unfold re_alloc at 1. destruct (Nat.eqb_spec (Z.to_nat (sn_bands s)) 0); [lia|]. reflexivity.
Qed.

(** ** Flagging *)

Lemma flag_first_spec names req : forall bands use, length use = length names ->
  Forall (fun b => 0 <= b < zlen names) bands ->
  exists found use', flag_first names use bands req = Ret (found, use') /\
    length use' = length use /\
    (found = true <-> exists b, In b bands /\ get_at names b = Some req) /\
    (NoDup names -> forall b, 0 <= b < zlen names ->
       get_at use' b = if (existsb (Z.eqb b) bands && match get_at names b with Some nm => streq nm req | None => false end)%bool
                       then Some true else get_at use b).
Proof.
  induction bands as [|a bands IH]; intros use L F.
  - exists false, use. cbn. repeat split; auto; try discriminate. intros (b & [] & _).
  - inversion F; subst. destruct (get_at_some names a H1) as [nm E]. cbn [flag_first]. rewrite E. cbn [of_option bind].
    destruct (streq nm req) eqn:Q.
    + apply streq_spec in Q. subst nm. rewrite set_at_some by (unfold zlen in *; lia). cbn [of_option bind].
      assert (S': set_at use a true = Some (list_set use (Z.to_nat a) true)) by (apply set_at_some; unfold zlen in *; lia).
      exists true, (list_set use (Z.to_nat a) true). split; [reflexivity|]. split; [apply length_list_set|]. split.
      * split; auto. intros _. exists a. cbn; auto.
      * intros ND b Hb. cbn [existsb]. destruct (Z.eqb_spec b a).
        { subst b. cbn [orb andb]. rewrite E. rewrite (proj2 (streq_spec req req) eq_refl).
          eapply get_set_same; eauto. }
        { cbn [orb]. assert (match get_at names b with Some nm => streq nm req | None => false end = false) as ->.
          { destruct (get_at names b) as [m|] eqn:Em; auto. destruct (streq m req) eqn:Q; auto.
            apply streq_spec in Q. subst m. exfalso. apply n. rewrite NoDup_nth_error in ND.
            unfold get_at in E, Em. destruct (Z.ltb_spec a 0), (Z.ltb_spec b 0); try discriminate.
            assert (Z.to_nat b = Z.to_nat a); [|lia]. apply ND; [|congruence]. apply nth_error_Some. congruence. }
          rewrite andb_false_r. eapply get_set_other; eauto. }
    + destruct (IH use L H2) as (found & use' & E' & L' & Fd & U). exists found, use'. split; [exact E'|]. split; [auto|]. split.
      * rewrite Fd. split; intros (b & Hb & Eb); exists b; split; auto; [right; auto|].
        destruct Hb as [<-|Hb]; auto. rewrite E in Eb. inversion Eb; subst. rewrite (proj2 (streq_spec req req) eq_refl) in Q. discriminate.
      * intros ND b Hb. rewrite (U ND b Hb). cbn [existsb]. destruct (Z.eqb_spec b a); [|reflexivity].
        subst b. rewrite E, Q. rewrite !andb_false_r. reflexivity.
Qed.

Definition names_ok s := zlen (sn_names s) = sn_bands s.

(** Flags say: flagged already, or required. *)
Lemma check_spec s required : names_ok s -> forall use e0, length use = length (sn_names s) ->
  exists e use', ofold (fun '(err, use) req =>
           r <- flag_first (sn_names s) use (zupto (sn_bands s)) req ;;
           let '(found, use') := r in
           Ret (if found : bool then err else err + 1, use')) required (e0, use) = Ret (e, use') /\
    length use' = length use /\ e0 <= e /\
    (e = e0 <-> forall r, In r required -> In r (sn_names s)) /\
    (NoDup (sn_names s) -> forall b nm, get_at (sn_names s) b = Some nm ->
        (get_at use' b = Some true <-> get_at use b = Some true \/ In nm required)).
Proof.
  intros NO. induction required as [|r required IH]; intros use e0 L.
  - exists e0, use. cbn. split; [reflexivity|]. split; [reflexivity|]. split; [lia|]. split; [tauto|]. intros; tauto.
  - cbn [ofold]. destruct (flag_first_spec (sn_names s) r (zupto (sn_bands s)) use L) as (found & use1 & E & L1 & Fd & U).
    { apply Forall_forall. intros b Hb. apply zupto_In in Hb. unfold names_ok in NO. lia. }
    rewrite E. cbn [bind].
    assert (Fd': found = true <-> In r (sn_names s)).
    { rewrite Fd. split.
      - intros (b & _ & Hb). eapply get_at_In; eauto.
      - intros Hr. apply In_get_at in Hr as (b & R & Hb). exists b. split; auto. apply zupto_In. unfold names_ok in NO. lia. }
    destruct (IH use1 (if found then e0 else e0 + 1)) as (e & use2 & E2 & L2 & Le & He & U2); [congruence|].
    exists e, use2. split; [exact E2|]. split; [congruence|]. split; [destruct found; lia|]. split.
    + destruct found.
      * rewrite He. split; intros H q; [|intros Hq; apply H; right; auto].
        intros [<-|Hq]; [apply Fd'; auto|auto].
      * split; [lia|]. intros H. exfalso. assert (In r (sn_names s)) as Hr by (apply H; left; auto).
        apply Fd' in Hr. discriminate.
    + intros ND b nm Hb. rewrite (U2 ND b nm Hb). pose proof (get_at_inv _ _ _ Hb) as R. rewrite (U ND b R), Hb.
      assert (existsb (Z.eqb b) (zupto (sn_bands s)) = true) as ->.
      { apply existsb_exists. exists b. split; [apply zupto_In; unfold names_ok in NO; lia|apply Z.eqb_refl]. }
      cbn [andb]. pose proof (streq_spec nm r) as Q. destruct (streq nm r).
      * assert (nm = r) by (apply Q; auto). subst. split; intros _; [right; left; auto|left; auto].
      * cbn [In]; split; [tauto|]. intros [H|[<-|H]]; auto. assert (false = true) by (apply Q; auto). discriminate.
Qed.

Lemma contains_In names i : vector_contains names i = true <-> In i names.
Proof.
  unfold vector_contains. rewrite existsb_exists. split.
  - intros (x & H & E). apply streq_spec in E. congruence.
  - intros H. exists i. split; auto. apply streq_spec. reflexivity.
Qed.

Lemma omap_names (names : list (list Z)) : Forall (fun nm => zlen nm < 1024) names ->
  omap (copy_string NPOW_10) names = Ret names.
Proof.
  intros H. apply copy_name_id in H. induction names as [|n l IH]; cbn [omap]; auto. inversion H; subst.
  rewrite H2. cbn [bind]. rewrite IH by auto. reflexivity.
Qed.

Lemma omap_ext {A B} (f g : A -> outcome B) l : (forall a, In a l -> f a = g a) -> omap f l = omap g l.
Proof. induction l as [|a l IH]; intros H; cbn [omap]; auto. rewrite H by (left; auto). rewrite IH by (intros; apply H; right; auto). auto. Qed.

Lemma omap_map {A B C} (g : A -> B) (f : B -> outcome C) l : omap f (map g l) = omap (fun a => f (g a)) l.
Proof. induction l as [|a l IH]; cbn [omap map]; auto. rewrite IH. reflexivity. Qed.

(** Names in the definitions and of indices fit their buffers. *)
Definition defs_fit (defs : list Z -> option (list (list Z))) : Prop :=
  forall i l, defs i = Some l -> Forall (fun nm => zlen nm < 1024) l.

Lemma required_spec defs s i : sen_ok s -> defs_fit defs ->
  exists q, get_required_bands defs s i = Ret q /\
    match q with
    | None => ~ (In i (sn_names s) \/ i = lit "SMA" \/ defs i <> None)
    | Some l => (In i (sn_names s) \/ i = lit "SMA" \/ defs i <> None) /\ forall m, In m l <-> needs defs (sn_names s) i m
    end.
Proof.
  intros (H1 & H2 & H3 & H4) DF. unfold get_required_bands.
  replace (Z.to_nat (sn_bands s)) with (length (sn_names s)) by (unfold zlen in *; lia). rewrite firstn_all.
  pose proof (contains_In (sn_names s) i) as C. destruct (vector_contains (sn_names s) i).
  - assert (In i (sn_names s)) as Hi by (apply C; auto).
    assert (zlen i < 1024) as Li by (eapply Forall_forall in H4; eauto).
    exists (Some [i]). split.
    { unfold copy_string, NPOW_10. destruct (Z.geb_spec (zlen i) 1024); [lia|]. reflexivity. }
    split; [auto|]. intros m. split.
    + intros [<-|[]]. constructor; auto.
    + intros N. inversion N; subst; cbn; auto; contradiction.
  - assert (~ In i (sn_names s)) as Hi by (intros Q; apply C in Q; discriminate).
    pose proof (streq_spec i (lit "SMA")) as Q. destruct (streq i (lit "SMA")).
    + assert (i = lit "SMA") by (apply Q; auto). subst i. exists (Some (sn_names s)). split.
      { rewrite <- H1. rewrite (omap_ext _ (fun b => copy_string NPOW_10 (nth (Z.to_nat b) (sn_names s) []))).
        - rewrite <- (omap_map (fun b => nth (Z.to_nat b) (sn_names s) [])). rewrite <- zupto_nth_map.
          rewrite omap_names by auto. reflexivity.
        - intros b Hb. apply zupto_In in Hb. unfold get_at. destruct (Z.ltb_spec b 0); [lia|].
          rewrite (nth_error_nth' _ []) by (unfold zlen in *; lia). reflexivity. }
      split; [auto|]. intros m. split; [intros; constructor; auto|]. intros N. inversion N; subst; auto; contradiction.
    + assert (i <> lit "SMA") as Ni by (intros E; apply Q in E; discriminate).
      destruct (defs i) as [l|] eqn:D.
      * exists (Some l). split; [rewrite omap_names by (eapply DF; eauto); reflexivity|].
        split; [right; right; congruence|]. intros m. split.
        { intros Hm. eapply needs_def; eauto. }
        { intros N. inversion N; subst; try contradiction. congruence. }
      * exists None. split; [reflexivity|]. intros [?|[?|?]]; auto.
Qed.

Lemma flags_spec defs s : sen_ok s -> defs_fit defs -> forall indices use e0, length use = length (sn_names s) ->
  exists e use', ofold (fun '(err, use) index =>
                q <- get_required_bands defs s index ;;
                match q with
                | None => Ret (err + 1, use)
                | Some required =>
                  c <- check_available_bands s required use ;;
                  let '(e, use') := c in
                  Ret (if e >? 0 then err + 1 else err, use')
                end) indices (e0, use) = Ret (e, use') /\
    length use' = length use /\ e0 <= e /\
    (e = e0 <-> forall i, In i indices -> served defs (sn_names s) i) /\
    (e = e0 -> NoDup (sn_names s) -> forall b nm, get_at (sn_names s) b = Some nm ->
       (get_at use' b = Some true <-> get_at use b = Some true \/ exists i, In i indices /\ needs defs (sn_names s) i nm)).
Proof.
  intros SO DF. pose proof SO as (H1 & _). induction indices as [|i indices IH]; intros use e0 L.
  - exists e0, use. cbn. split; [reflexivity|]. split; [reflexivity|]. split; [lia|]. split; [split; [intros _ i []|auto]|].
    intros _ _ b nm _. split; auto. intros [H|(i & [] & _)]; auto.
  - cbn [ofold]. destruct (required_spec defs s i SO DF) as (q & Eq & Hq). rewrite Eq. cbn [bind].
    destruct q as [l|].
    + destruct Hq as [D Hl]. destruct (check_spec s l H1 use 0 L) as (e1 & use1 & E1 & L1 & P1 & Z1 & U1).
      unfold check_available_bands. rewrite E1. cbn [bind].
      destruct (IH use1 (if e1 >? 0 then e0 + 1 else e0)) as (e & use2 & E2 & L2 & Le & He & U2); [congruence|].
      exists e, use2. split; [exact E2|]. split; [congruence|].
      assert (SV: e1 = 0 <-> served defs (sn_names s) i).
      { rewrite Z1. unfold served. split.
        - intros H. split; auto. intros m Hm. apply H. apply Hl. auto.
        - intros [_ H] r Hr. apply H. apply Hl. auto. }
      destruct (Z.gtb_spec e1 0).
      * split; [lia|]. split; [|lia]. split; [lia|]. intros HH. exfalso.
        assert (e1 = 0) by (apply SV; apply HH; left; auto). lia.
      * assert (e1 = 0) by lia. split; [lia|]. split.
        { rewrite He. split; intros HH j Hj; [|apply HH; right; auto]. destruct Hj as [<-|Hj]; [apply SV; auto|auto]. }
        { intros Ee ND b nm Hb. rewrite (U2 Ee ND b nm Hb). rewrite (U1 ND b nm Hb). rewrite Hl. split.
          - intros [[?|?]|(j & Hj & N)]; auto; right; [exists i|exists j]; cbn; auto.
          - intros [?|(j & [<-|Hj] & N)]; auto. right; exists j; auto. }
    + destruct (IH use (e0 + 1) L) as (e & use2 & E2 & L2 & Le & He & U2).
      exists e, use2. split; [exact E2|]. split; [auto|]. split; [lia|]. split; [|lia].
      split; [lia|]. intros H. exfalso. apply Hq. apply (H i). left; auto.
Qed.
