(** C36: band subsetting keeps names and numbers aligned. *)
From Coq Require Import Sorted.
From Verif Require Import Base BaseFacts Loops LoopsFacts CStr StringModel AllocModel BandModel BandSpec BandProofs.

(** Whatever is flagged: removal keeps exactly the flagged bands, in their order,
    each with the numbers it had for every sensor. *)
Theorem C36_removal : forall s use, sen_ok s -> zlen use = sn_bands s ->
  (exists b, get_at use b = Some true) ->
  exists s' pos, remove_unused_bands use s = Ret s' /\ sen_ok s' /\ taken s s' pos /\
    StronglySorted Z.lt pos /\ forall b, In b pos <-> get_at use b = Some true.
Proof.
  intros s use SO L (b0 & Hb0). pose proof SO as (H1 & H2 & H3 & H4).
  assert (Lu: length use = length (sn_names s)) by (unfold zlen in *; lia).
  assert (LN: forall l : list (list Z), length l = length use -> length (keep use l) = length (flagged use)).
  { intros l Hl. rewrite (keep_flagged use l (@nil Z)) by auto. apply map_length. }
  assert (LN2: forall l : list Z, length l = length use -> length (keep use l) = length (flagged use)).
  { intros l Hl. rewrite (keep_flagged use l 0) by auto. apply map_length. }
  assert (NE: keep use (sn_names s) <> []).
  { intros E. specialize (LN (sn_names s) ltac:(lia)). rewrite E in LN. cbn in LN.
    apply flagged_In in Hb0. destruct (flagged use); [destruct Hb0|discriminate]. }
  rewrite (remove_keep s use SO Lu NE).
  eexists. exists (flagged use). split; [reflexivity|]. split; [|split; [|split; [apply flagged_sorted|intros; apply flagged_In]]].
  - unfold sen_ok; cbn [sn_names sn_bands sn_n sn_number]. split; [reflexivity|].
    split; [unfold zlen in *; rewrite map_length; exact H2|]. split.
    + apply Forall_map. revert H3. apply Forall_impl. intros r Hr. unfold zlen in *. f_equal. rewrite LN by lia. apply LN2. lia.
    + apply Forall_forall. intros x Hx. apply keep_In in Hx as (j & _ & Hj). apply nth_error_In in Hj.
      eapply Forall_forall in H4; eauto.
  - unfold taken; cbn [sn_names sn_bands sn_n sn_number].
    split; [reflexivity|]. split; [unfold zlen; f_equal; apply LN; lia|]. split; [unfold zlen; f_equal; apply LN; lia|].
    split; [unfold zlen in *; rewrite map_length; exact H2|].
    intros j b Hj. assert (Hb: get_at use b = Some true) by (apply flagged_In; eapply get_at_In; eauto).
    apply get_at_inv in Hb. split.
    + rewrite (keep_flagged use (sn_names s) []) by lia. rewrite get_at_map, Hj. cbn [option_map].
      unfold get_at. destruct (Z.ltb_spec b 0); [lia|]. rewrite (nth_error_nth' _ []) by (unfold zlen in *; lia). reflexivity.
    + intros k Hk. unfold number_at; cbn [sn_number]. rewrite get_at_map.
      destruct (get_at_some (sn_number s) k ltac:(lia)) as [row Er]. rewrite Er. cbn [option_map].
      pose proof (Forall_get_at _ _ _ _ H3 Er) as Lr. cbv beta in Lr.
      assert (EB: get_at row b = Some (nth (Z.to_nat b) row 0)).
      { unfold get_at. destruct (Z.ltb_spec b 0); [lia|]. apply nth_error_nth'. unfold zlen in *; lia. }
      rewrite (keep_flagged use row 0) by (unfold zlen in *; lia). rewrite get_at_map, Hj. cbn [option_map].
      rewrite EB. split; congruence.
Qed.

Lemma keep_NoDup {A} : forall use (l : list A), NoDup l -> NoDup (keep use l).
Proof.
  induction use as [|u use IH]; intros [|a l] H; cbn; try constructor. inversion H; subst.
  destruct u; auto. constructor; auto. intros Hx. apply keep_In in Hx as (j & _ & Hx). apply nth_error_In in Hx. auto.
Qed.

Lemma taken_names_In s s' pos : taken s s' pos -> forall m, In m (sn_names s') <-> exists b, In b pos /\ get_at (sn_names s) b = Some m.
Proof.
  intros (_ & _ & L & _ & T) m. split.
  - intros H. apply In_get_at in H as (j & R & Hj). destruct (get_at_some pos j ltac:(lia)) as [b Hb].
    exists b. split; [eapply get_at_In; eauto|]. destruct (T j b Hb) as [E _]. congruence.
  - intros (b & Hb & Hm). apply In_get_at in Hb as (j & R & Hj). destruct (T j b Hj) as [E _].
    apply (get_at_In _ j). congruence.
Qed.

(** With the bands not needed for a spectral adjustment, the call succeeds when
    every index is served and something is needed at all; then exactly the needed
    bands remain, in their original order, and every sensor maps a remaining
    name to the same band number as before.  An index that is not served ends the
    program. *)
Theorem C36_selection : forall defs indices s,
  sen_ok s -> NoDup (sn_names s) -> defs_fit defs -> sn_adjust s = false ->
  (exists i m, In i indices /\ needs defs (sn_names s) i m) ->
  ((forall i, In i indices -> served defs (sn_names s) i) ->
     exists s' pos, retrieve_indices defs indices s = Ret s' /\ sen_ok s' /\
       taken s s' pos /\ StronglySorted Z.lt pos /\
       (forall m, In m (sn_names s') <-> exists i, In i indices /\ needs defs (sn_names s) i m) /\
       (forall k b b' m, 0 <= k < sn_n s -> get_at (sn_names s) b = Some m -> get_at (sn_names s') b' = Some m ->
          number_at s' k b' = number_at s k b)) /\
  (~ (forall i, In i indices -> served defs (sn_names s) i) -> retrieve_indices defs indices s = Exit).
Proof.
  intros defs indices s SO ND DF AD (i0 & m0 & Hi0 & N0).
  pose proof SO as (H1 & H2 & H3 & H4).
  unfold retrieve_indices.
  destruct (flags_spec defs s SO DF indices (repeat false (Z.to_nat (sn_bands s))) 0) as (e & use & E & L & Le & He & U).
  { rewrite repeat_length. unfold zlen in *; lia. }
  rewrite E. cbn [bind]. rewrite repeat_length in L. split.
  - intros SV. assert (e = 0) as E0 by (apply He; auto). rewrite E0. cbn [Z.gtb Z.compare]. rewrite AD.
    specialize (U E0 ND).
    assert (RF: forall b, get_at (repeat false (Z.to_nat (sn_bands s))) b <> Some true).
    { intros b Hb. apply get_at_In, repeat_spec in Hb. discriminate. }
    assert (In m0 (sn_names s)) as Hm0 by (apply (proj2 (SV i0 Hi0)); auto).
    apply In_get_at in Hm0 as (b0 & R0 & Hb0).
    destruct (C36_removal s use SO ltac:(unfold zlen in *; lia)) as (s' & pos & Er & SO' & T & Sd & P).
    { exists b0. apply (U b0 m0 Hb0). right. eauto. }
    exists s', pos. split; [exact Er|]. split; [auto|]. split; [auto|]. split; [auto|]. split.
    + intros m. rewrite (taken_names_In s s' pos T m). split.
      * intros (b & Hb & Hm). apply P in Hb. apply (U b m Hm) in Hb as [Hb|?]; auto. exfalso; eapply RF; eauto.
      * intros (i & Hi & N). assert (In m (sn_names s)) as Hm by (apply (proj2 (SV i Hi)); auto).
        apply In_get_at in Hm as (b & R & Hb). exists b. split; auto. apply P. apply (U b m Hb). right; eauto.
    + intros k b b' m Hk Hb Hb'. destruct T as (_ & _ & Lp & _ & T).
      pose proof (get_at_inv _ _ _ Hb') as R'. destruct (get_at_some pos b' ltac:(lia)) as [c Hc].
      destruct (T b' c Hc) as [En Ec]. destruct (Ec k Hk) as [-> _]. f_equal.
      rewrite Hb' in En. symmetry in En. rewrite NoDup_nth_error in ND.
      unfold get_at in Hb, En. destruct (Z.ltb_spec b 0), (Z.ltb_spec c 0); try discriminate.
      assert (Z.to_nat c = Z.to_nat b); [|lia]. apply ND; [|congruence]. apply nth_error_Some. congruence.
  - intros NS. destruct (Z.gtb_spec e 0); [reflexivity|]. exfalso. apply NS. apply He. lia.
Qed.

(** With spectral adjustment nothing is removed. *)
Theorem C36_adjusted : forall defs indices s s', sn_adjust s = true ->
  retrieve_indices defs indices s = Ret s' -> s' = s.
Proof.
  intros defs indices s s' A. unfold retrieve_indices.
  match goal with |- bind ?x _ = _ -> _ => destruct x as [[e use]| |]; cbn [bind]; try discriminate end.
  destruct (e >? 0); try discriminate. rewrite A. congruence.
Qed.

(** Nothing flagged at all: the reallocation to no element ends the program. *)
Theorem C36_nothing : forall s use, sen_ok s -> zlen use = sn_bands s -> sn_n s <> 0 -> sn_bands s <> 0 ->
  (forall b, get_at use b <> Some true) -> remove_unused_bands use s = Exit.
Proof.
  intros s use SO L N1 N2 H. pose proof SO as (H1 & _). apply remove_nothing_left; auto.
  - unfold zlen in *; lia.
  - destruct (keep use (sn_names s)) as [|x l] eqn:E; auto. exfalso.
    assert (In x (keep use (sn_names s))) as Hx by (rewrite E; left; auto).
    apply keep_In in Hx as (j & Hj & _). apply (H (Z.of_nat j)). rewrite get_at_nat. exact Hj.
Qed.

(** Two sensors, four bands; the index needs the last and the second. *)
Definition ex_sen : sen := MkSen 2 4 [` "BLUE"; ` "RED"; ` "GREEN"; ` "NIR"] [[1; 3; 2; 4]; [2; 4; 3; 8]] false.
Definition ex_defs (i : list Z) : option (list (list Z)) :=
  if streq i (` "NDVI") then Some [` "NIR"; ` "RED"] else None.
Example C36_example :
  sen_ok ex_sen /\ NoDup (sn_names ex_sen) /\ defs_fit ex_defs /\
  served ex_defs (sn_names ex_sen) (` "NDVI") /\ needs ex_defs (sn_names ex_sen) (` "NDVI") (` "RED") /\
  retrieve_indices ex_defs [` "NDVI"] ex_sen =
    Ret (MkSen 2 2 [` "RED"; ` "NIR"] [[3; 4]; [4; 8]] false) /\
  retrieve_indices ex_defs [` "NDVI"; ` "NBR"] ex_sen = Exit.
Proof.
  assert (B: forall m, needs ex_defs (sn_names ex_sen) (` "NDVI") m <-> m = ` "NIR" \/ m = ` "RED").
  { intros m. split.
    - intros N. inversion N; subst.
      + exfalso. cbn in H. repeat destruct H as [H|H]; try discriminate H. destruct H.
      + match goal with D : ex_defs _ = Some _ |- _ => vm_compute in D; inversion D; subst end.
        match goal with D : In m _ |- _ => destruct D as [<-|[<-|[]]]; [left|right]; reflexivity end.
    - intros H. eapply needs_def with (l := [` "NIR"; ` "RED"]); try reflexivity.
      + cbn. intros Q. repeat destruct Q as [Q|Q]; try discriminate Q. destruct Q.
      + discriminate.
      + cbn. intuition. }
  split; [|split; [|split; [|split; [|split; [|split]]]]].
  - unfold sen_ok. cbn. repeat split; repeat constructor.
  - cbn. repeat constructor; cbn; intros Q; repeat destruct Q as [Q|Q]; try discriminate Q; destruct Q.
  - intros i l. unfold ex_defs. destruct (streq i (` "NDVI")); [|discriminate]. intros Q. inversion Q; subst. repeat constructor.
  - split; [right; right; vm_compute; discriminate|]. intros m N. apply B in N as [-> | ->]; cbn; auto.
  - apply B. auto.
  - vm_compute. reflexivity.
  - vm_compute. reflexivity.
Qed.

Print Assumptions C36_removal.
Print Assumptions C36_selection.
Print Assumptions C36_adjusted.
Print Assumptions C36_nothing.
