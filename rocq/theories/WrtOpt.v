(** Proofs about the GDAL options file. *)
From Verif Require Import Base BaseFacts CStr CStrFacts Loops LoopsFacts StringModel StringSpec StringProofs
  CubeDefModel WrtModel WrtSpec.
From Verif Require WrtProofs.

Definition row_ok (r : list Z * list Z) : Prop :=
  chars_ok (fst r) /\ chars_ok (snd r) /\ fst r <> [] /\ snd r <> [].

Lemma skip_while_ok s l : chars_ok l -> chars_ok (skip_while s l).
Proof. induction l as [|c l IH]; intros H; cbn [skip_while]; auto. inversion H; subst. destruct (memz c s); auto. Qed.
Lemma take_drop_ok s l : chars_ok l -> chars_ok (take_until s l) /\ chars_ok (drop_until s l).
Proof. intros H. rewrite <- (take_drop_until s l) in H. apply Forall_app in H. exact H. Qed.
Lemma strtok_ok s l t r : chars_ok l -> strtok s l = Some (t, r) -> chars_ok t /\ chars_ok r.
Proof.
  intros H E. unfold strtok in E. pose proof (skip_while_ok s l H) as K.
  destruct (skip_while s l) as [|c l']; [discriminate|]. apply (f_equal (fun o => match o with Some p => p | None => (t, r) end)) in E.
  apply pair_equal_spec in E. destruct E as (<- & <-).
  destruct (take_drop_ok s (c :: l') K) as (A & B). split; [exact A|].
  destruct (drop_until s (c :: l')); cbn [tl]; auto. inversion B; auto.
Qed.

Lemma tagvalue_rows f : forall file acc rows, chars_ok file -> Forall row_ok acc ->
  tagvalue_loop f file acc = Ret (Some rows) -> Forall row_ok rows.
Proof.
  assert (forall fuel file acc rows, chars_ok file -> Forall row_ok acc ->
    tagvalue_loop fuel file acc = Ret (Some rows) -> Forall row_ok rows) as G; [|exact (G f)].
  induction fuel as [|fuel IH]; intros file acc rows C A E; cbn [tagvalue_loop] in E.
  - destruct (fgets 65536 file) as [(line, rest)|] eqn:FG; [discriminate|]. inversion E; subst; auto.
  - destruct (fgets 65536 file) as [(line, rest)|] eqn:FG; [|inversion E; subst; auto].
    assert (chars_ok line /\ chars_ok rest) as (CL & CR).
    { unfold fgets in FG. destruct file as [|c file]; [discriminate|].
      pose proof (take_line_split (Z.to_nat (65536 - 1)) (c :: file)) as SP.
      destruct (take_line (Z.to_nat (65536 - 1)) (c :: file)) as (a, b). inversion FG; subst a b.
      cbn [fst snd] in SP. rewrite <- SP in C. apply Forall_app in C. exact C. }
    cbv zeta in E. set (l := take_until [13; 10] line) in *.
    assert (chars_ok l) as CLL by (apply take_drop_ok; auto).
    destruct (strtok (` " =") l) as [(tag, save)|] eqn:S1; [|discriminate].
    destruct (strtok_ok _ _ _ _ CLL S1) as (OT & OS).
    destruct (strtok_token _ _ _ _ S1) as (NT & _).
    unfold copy_string in E. destruct (zlen tag >=? 1024); [discriminate|]. cbn [bind] in E.
    destruct (strtok (` " =") save) as [(val, more)|] eqn:S2; [|discriminate].
    destruct (strtok_ok _ _ _ _ OS S2) as (OV & _).
    destruct (strtok_token _ _ _ _ S2) as (NV & _).
    destruct (zlen val >=? 1024); [discriminate|]. cbn [bind] in E.
    apply (IH rest (acc ++ [(tag, val)]) rows CR); auto.
    apply Forall_app. split; auto. constructor; auto. unfold row_ok. cbn. auto.
Qed.

Lemma read_rows file rows : chars_ok file -> read_tagvalue (Some file) = Ret (Some rows) -> Forall row_ok rows.
Proof.
  intros C E. unfold read_tagvalue in E.
  destruct (tagvalue_loop (length file) file []) as [r| |] eqn:T; try discriminate. cbn [bind] in E.
  destruct r as [[|x l]|]; try discriminate. inversion E; subst rows.
  eapply tagvalue_rows; eauto.
Qed.

Fixpoint numbered (o : nat) (l : list (list Z)) : list (nat * list Z) :=
  match l with [] => [] | s :: t => (o, s) :: numbered (S o) t end.

Definition last_value (key : list Z) (rows : list (list Z * list Z)) (d : option (list Z)) : option (list Z) :=
  fold_left (fun acc r => if streq (fst r) key then Some (snd r ++ [0]) else acc) rows d.

Lemma gdal_rows_spec rows : forall o drv ext tags vals tags' vals', Forall row_ok rows ->
  fill_all tags (numbered o (map fst (option_rows rows))) = Ret tags' ->
  fill_all vals (numbered o (map snd (option_rows rows))) = Ret vals' ->
  gdal_rows rows o drv ext tags vals =
    Ret (last_value (` "DRIVER") rows drv, last_value (` "EXTENSION") rows ext, tags', vals').
Proof.
  induction rows as [|(t, v) rows IH]; intros o drv ext tags vals tags' vals' OK FT FV;
    cbn [gdal_rows option_rows filter map numbered fill_all fst snd] in *.
  - inversion FT; inversion FV; subst. reflexivity.
  - inversion OK as [|? ? (OT & OV & NT & NV) OK']; subst. cbn [fst snd] in *.
    unfold last_value. cbn [fold_left fst snd]. fold (last_value (` "DRIVER") rows). fold (last_value (` "EXTENSION") rows).
    destruct (streq t (` "DRIVER")) eqn:D.
    + cbn [negb andb] in FT, FV.
      destruct (fill_string_spec v OV) as [(Q & _) | (_ & ->)]; [contradiction|]. cbn [bind].
      rewrite (IH o (Some (v ++ [0])) ext tags vals tags' vals' OK' FT FV).
      assert (streq t (` "EXTENSION") = false) as ->; [|reflexivity].
      apply streq_spec in D. subst t. reflexivity.
    + destruct (streq t (` "EXTENSION")) eqn:X.
      * cbn [negb andb] in FT, FV.
        destruct (fill_string_spec v OV) as [(Q & _) | (_ & ->)]; [contradiction|]. cbn [bind].
        apply (IH o drv (Some (v ++ [0])) tags vals tags' vals' OK' FT FV).
      * cbn [negb andb map numbered fill_all fst snd] in FT, FV.
        destruct (fill_string_vector tags o t) as [tg| |]; try discriminate. cbn [bind] in FT |- *.
        destruct (fill_string_vector vals o v) as [vl| |]; try discriminate. cbn [bind] in FV |- *.
        apply (IH (S o) drv ext tg vl tags' vals' OK' FT FV).
Qed.

Lemma last_value_one key rows v : filter (fun r => streq (fst r) key) rows = [(key, v)] ->
  last_value key rows None = Some (v ++ [0]).
Proof.
  assert (forall l d, filter (fun r : list Z * list Z => streq (fst r) key) l = [] -> last_value key l d = d) as N.
  { induction l as [|r l IH]; intros d H; cbn in *; auto. unfold last_value in *. cbn [fold_left].
    destruct (streq (fst r) key); [discriminate|]. apply IH; auto. }
  induction rows as [|r rows IH]; intros H; cbn [filter] in H; [discriminate|].
  unfold last_value. cbn [fold_left]. fold (last_value key rows).
  destruct (streq (fst r) key) eqn:E.
  - inversion H; subst. cbn [snd]. apply N. assumption.
  - apply IH; auto.
Qed.

Lemma numbered_in o l p s : In (p, s) (numbered o l) -> exists k, p = (o + k)%nat /\ nth_error l k = Some s.
Proof.
  revert o. induction l as [|a l IH]; intros o H; cbn in H; [contradiction|].
  destruct H as [H | H].
  - inversion H; subst. exists 0%nat. split; [lia|reflexivity].
  - destruct (IH _ H) as (k & -> & E). exists (S k). split; [lia|exact E].
Qed.
Lemma numbered_last : forall l o k s, nth_error l k = Some s -> last_written (numbered o l) (o + k) = s.
Proof.
  assert (forall l o p, (p < o)%nat -> existsb (fun q : nat * list Z => (fst q =? p)%nat) (numbered o l) = false) as N.
  { induction l as [|a l IH]; intros o p H; cbn [numbered existsb fst]; auto.
    assert ((o =? p)%nat = false) as -> by (apply Nat.eqb_neq; lia). apply IH. lia. }
  induction l as [|a l IH]; intros o [|k] s H; cbn in H; try discriminate; cbn [numbered last_written].
  - inversion H; subst. rewrite N by lia.
    assert ((o =? o + 0)%nat = true) as -> by (apply Nat.eqb_eq; lia). reflexivity.
  - assert (existsb (fun q : nat * list Z => (fst q =? o + S k)%nat) (numbered (S o) l) = true) as ->.
    { clear - H. revert o k H. induction l as [|b l IH]; intros o [|k] H; cbn in H; try discriminate; cbn [numbered existsb fst].
      - assert ((S o =? o + 1)%nat = true) as -> by (apply Nat.eqb_eq; lia). reflexivity.
      - rewrite orb_true_iff. right. replace (o + S (S k))%nat with (S o + S k)%nat by lia. apply IH. exact H. }
    replace (o + S k)%nat with (S o + k)%nat by lia. apply IH. exact H.
Qed.

Lemma count_rows rows :
  length rows = (length (filter (fun r => streq (fst r) (` "DRIVER")) rows) +
    length (filter (fun r => streq (fst r) (` "EXTENSION")) rows) + length (option_rows rows))%nat.
Proof.
  unfold option_rows. induction rows as [|r rows IH]; auto. cbn [filter length].
  destruct (streq (fst r) (` "DRIVER")) eqn:D, (streq (fst r) (` "EXTENSION")) eqn:X; cbn [negb andb length]; try lia.
  apply streq_spec in D, X. rewrite D in X. discriminate.
Qed.

Lemma max_len_pos f rows : (exists r, In r rows /\ f r <> []) -> (0 < max_len f rows)%nat.
Proof.
  unfold max_len.
  assert (forall l n, (n <= fold_left (fun n r => if (n <? length (f r))%nat then length (f r) else n) l n)%nat) as M.
  { induction l as [|r l IH]; intros n; cbn [fold_left]; [lia|]. etransitivity; [|apply IH].
    destruct (Nat.ltb_spec n (length (f r))); lia. }
  intros (r & I & NE).
  assert (forall n, (0 < fold_left (fun n r => if (n <? length (f r))%nat then length (f r) else n) rows n)%nat) as G; [|apply G].
  induction rows as [|a rows IH]; intros n; [contradiction|].
  cbn [fold_left]. destruct I as [-> | I]; [|apply IH; auto].
  eapply Nat.lt_le_trans; [|apply M]. destruct (f r) as [|c q]; [congruence|].
  destruct (Nat.ltb_spec n (length (c :: q))); cbn [length] in *; lia.
Qed.

Lemma option_rows_ok rows : Forall row_ok rows -> Forall row_ok (option_rows rows).
Proof.
  intros H. apply Forall_forall. intros r I. unfold option_rows in I. apply filter_In in I.
  rewrite Forall_forall in H. apply H. tauto.
Qed.

Lemma fill_numbered number len v l : alloc_string_vector number len = Ret v -> number = length l ->
  Forall chars_ok l ->
  exists v', fill_all v (numbered 0 l) = Ret v' /\ sv_number v' = length l /\
    forall k s, nth_error l k = Some s -> string_at v' k = Some s.
Proof.
  intros A N C. destruct (svec_alloc_inv _ _ _ A) as (I & NV & L).
  assert (Forall (fun o => chars_ok (snd o)) (numbered 0 l)) as F.
  { apply Forall_forall. intros (p, s) J. destruct (numbered_in _ _ _ _ J) as (k & _ & E).
    rewrite Forall_forall in C. apply C. eapply nth_error_In; eauto. }
  destruct (fill_all_spec (numbered 0 l) v (fun _ => []) I F) as (v' & E & I' & M & P & Q); auto.
  assert (sv_number v' = length l) as SN.
  { destruct (Nat.le_gt_cases (sv_number v') (length l)) as [LE | GT]; [lia|].
    destruct (Q (length l) GT) as [K | (q & (s & K) & LE)]; [lia|].
    destruct (numbered_in _ _ _ _ K) as (k & -> & E'). 
    assert (k < length l)%nat by (apply nth_error_Some; congruence). lia. }
  exists v'. split; [exact E|]. split; [exact SN|].
  destruct (svec_history _ _ _ _ A F) as (v2 & E2 & _ & _ & G). rewrite E in E2. inversion E2; subst v2.
  intros k s K. rewrite G.
  - f_equal. apply (numbered_last l 0 k s K).
  - rewrite SN. apply nth_error_Some. congruence.
Qed.

Lemma parse_ok file rows vd ve : chars_ok file -> read_tagvalue (Some file) = Ret (Some rows) ->
  filter (fun r => streq (fst r) (` "DRIVER")) rows = [(` "DRIVER", vd)] ->
  filter (fun r => streq (fst r) (` "EXTENSION")) rows = [(` "EXTENSION", ve)] ->
  option_rows rows <> [] ->
  exists g, parse_gdaloptions (Some file) = Ret g /\ cstr_of (go_driver g) = Some vd /\ cstr_of (go_ext g) = Some ve /\
    sv_number (go_tags g) = length (option_rows rows) /\ sv_number (go_vals g) = length (option_rows rows) /\
    forall k t v, nth_error (option_rows rows) k = Some (t, v) ->
      string_at (go_tags g) k = Some t /\ string_at (go_vals g) k = Some v.
Proof.
  intros C R FD FE NO. pose proof (read_rows file rows C R) as OK.
  unfold parse_gdaloptions. rewrite R. cbn [bind].
  pose proof (count_rows rows) as CNT. rewrite FD, FE in CNT. cbn [length] in CNT.
  assert (0 < length (option_rows rows))%nat as PO by (destruct (option_rows rows); [contradiction|cbn; lia]).
  assert (zlen rows - 2 <? 0 = false) as -> by (unfold zlen; lia).
  assert (Z.to_nat (zlen rows - 2) = length (option_rows rows)) as -> by (unfold zlen; lia).
  assert (exists r, In r rows) as (r0 & I0).
  { destruct rows as [|r rows]; [discriminate|]. exists r. left; auto. }
  assert (row_ok r0) as (_ & _ & N1 & N2) by (rewrite Forall_forall in OK; auto).
  assert (forall f, (0 < max_len f rows)%nat -> exists v, alloc_string_vector (length (option_rows rows)) (max_len f rows) = Ret v) as AL.
  { intros f M. unfold alloc_string_vector. destruct (Nat.eqb_spec (length (option_rows rows)) 0); [lia|].
    destruct (Nat.eqb_spec (max_len f rows) 0); [lia|]. eauto. }
  destruct (AL fst) as (tags & AT); [apply max_len_pos; eauto|].
  destruct (AL snd) as (vals & AV); [apply max_len_pos; eauto|].
  rewrite AT, AV. cbn [bind].
  pose proof (option_rows_ok rows OK) as OO.
  destruct (fill_numbered _ _ tags (map fst (option_rows rows)) AT) as (tags' & FT & NT & GT).
  { rewrite map_length. reflexivity. }
  { rewrite Forall_map. eapply Forall_impl; [|exact OO]. intros r (K & _). exact K. }
  destruct (fill_numbered _ _ vals (map snd (option_rows rows)) AV) as (vals' & FV & NV & GV).
  { rewrite map_length. reflexivity. }
  { rewrite Forall_map. eapply Forall_impl; [|exact OO]. intros r (_ & K & _). exact K. }
  rewrite (gdal_rows_spec rows 0 None None tags vals tags' vals' OK FT FV). cbn [bind].
  rewrite (last_value_one _ _ _ FD), (last_value_one _ _ _ FE).
  eexists. split; [reflexivity|]. cbn [go_driver go_ext go_tags go_vals].
  assert (forall key v, filter (fun r => streq (fst r) key) rows = [(key, v)] -> cstr_of (v ++ [0]) = Some v) as CS.
  { intros key v F. assert (In (key, v) rows) as I by (assert (In (key, v) [(key, v)]) as J by (left; auto); rewrite <- F in J; apply filter_In in J; tauto).
    rewrite Forall_forall in OK. destruct (OK _ I) as (_ & K & _). cbn [snd] in K.
    change [0] with (0 :: []). apply cstr_of_app. exact K. }
  split; [apply (CS _ _ FD)|]. split; [apply (CS _ _ FE)|].
  rewrite map_length in NT, NV. split; [exact NT|]. split; [exact NV|].
  intros k t v K. split.
  - apply GT. rewrite nth_error_map, K. reflexivity.
  - apply GV. rewrite nth_error_map, K. reflexivity.
Qed.

Lemma parse_minimal file rows : read_tagvalue (Some file) = Ret (Some rows) -> zlen rows <= 2 ->
  parse_gdaloptions (Some file) = Exit.
Proof.
  intros R L. unfold parse_gdaloptions. rewrite R. cbn [bind].
  destruct (zlen rows - 2 <? 0) eqn:E; [reflexivity|].
  assert (Z.to_nat (zlen rows - 2) = 0%nat) as -> by lia. reflexivity.
Qed.
