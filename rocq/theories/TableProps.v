(** C44: tables are read completely and regularly. *)
From Coq Require Import Reals Lra.
From Verif Require Import Base BaseFacts CStr CStrFacts Loops LoopsFacts StringModel StringProofs AllocModel AllocSpec AllocProofs
  StatsModel StatsSpec StatsProofs BandProofs TableModel TableSpec TableProofs.
#[local] Open Scope Z_scope.

(** * Statistics of a column *)
Section Stats.
#[local] Open Scope R_scope.
Definition state_after (l : list R) := fold_left stat_step l (0, mkVar 0 0, 32767, - (32768), 0).

Lemma state_var l : fst (fst (fst (state_after l))) = (INR (length l), run_var l) /\ snd (state_after l) = sum (fun x => x) l.
Proof.
  induction l as [|x l IH] using rev_ind; [split; reflexivity|].
  unfold state_after in *. rewrite fold_left_app. cbn [fold_left].
  destruct (fold_left stat_step l (0, mkVar 0 0, 32767, - (32768), 0)) as [[[[k v] lo] hi] sm]. cbn [fst snd] in IH. destruct IH as [E ES].
  injection E as -> ->. unfold stat_step. cbn [fst snd]. split.
  - rewrite app_length. cbn [length]. rewrite Nat.add_1_r, S_INR. f_equal.
    unfold run_var. rewrite feed_snoc. fold (run_var l). cbn [Nat.add].
    destruct (Req_EM_T (INR (length l) + 1) 1) as [Q|Q]; auto.
    destruct l as [|y l]; [|exfalso; cbn [length] in Q; rewrite S_INR in Q; pose proof (pos_INR (length l)); lra].
    unfold var_recurrence. cbn. f_equal; field.
  - rewrite sum_app, ES. cbn [sum]. lra.
Qed.

Lemma state_lo l : forall lo hi k v sm, let lo' := snd (fst (fst (fold_left stat_step l (k, v, lo, hi, sm)))) in
  (forall x, In x l -> lo' <= x) /\ lo' <= lo /\ (lo' = lo \/ In lo' l).
Proof.
  induction l as [|x l IH]; intros lo hi k v sm; cbn [fold_left]; [split; [intros y []|]; cbn; split; [lra|auto]|].
  unfold stat_step at 2. specialize (IH (if Rlt_dec x lo then x else lo) (if Rgt_dec x hi then x else hi) (k + 1)
    (if Req_EM_T (k + 1) 1 then mkVar x (r_vx v) else var_recurrence x v (k + 1)) (sm + x)).
  cbv zeta in IH. set (lo' := snd (fst (fst (fold_left stat_step l _)))) in *. destruct IH as (A & B & C).
  assert (M: (if Rlt_dec x lo then x else lo) <= x /\ (if Rlt_dec x lo then x else lo) <= lo) by (destruct (Rlt_dec x lo); lra).
  split; [|split].
  - intros y [<-|Hy]; [lra|auto].
  - lra.
  - destruct C as [C|C]; [|right; right; auto]. destruct (Rlt_dec x lo); [right; left; auto|left; auto].
Qed.

Lemma state_hi l : forall lo hi k v sm, let hi' := snd (fst (fold_left stat_step l (k, v, lo, hi, sm))) in
  (forall x, In x l -> x <= hi') /\ hi <= hi' /\ (hi' = hi \/ In hi' l).
Proof.
  induction l as [|x l IH]; intros lo hi k v sm; cbn [fold_left]; [split; [intros y []|]; cbn; split; [lra|auto]|].
  unfold stat_step at 2. specialize (IH (if Rlt_dec x lo then x else lo) (if Rgt_dec x hi then x else hi) (k + 1)
    (if Req_EM_T (k + 1) 1 then mkVar x (r_vx v) else var_recurrence x v (k + 1)) (sm + x)).
  cbv zeta in IH. set (hi' := snd (fst (fold_left stat_step l _))) in *. destruct IH as (A & B & C).
  assert (M: x <= (if Rgt_dec x hi then x else hi) /\ hi <= (if Rgt_dec x hi then x else hi)) by (destruct (Rgt_dec x hi); lra).
  split; [|split].
  - intros y [<-|Hy]; [lra|auto].
  - lra.
  - destruct C as [C|C]; [|right; right; auto]. destruct (Rgt_dec x hi); [right; left; auto|left; auto].
Qed.

Lemma col_stats_spec l : l <> [] -> let cs := col_stats l in
  cs_mean cs = mean l /\ cs_sd cs = sqrt (dev 2 l / (size l - 1)) /\ cs_sum cs = sum (fun x => x) l /\
  ((exists x, In x l /\ x <= 32767) -> least l (cs_min cs)) /\ ((exists x, In x l /\ -32768 <= x) -> greatest l (cs_max cs)) /\
  ((forall x, In x l -> 32767 < x) -> cs_min cs = 32767) /\ ((forall x, In x l -> x < -32768) -> cs_max cs = -32768).
Proof.
  intros Hl. unfold col_stats. destruct (state_var l) as [E ES]. unfold state_after in *.
  pose proof (state_lo l 32767 (- (32768)) 0 (mkVar 0 0) 0) as Lo. pose proof (state_hi l 32767 (- (32768)) 0 (mkVar 0 0) 0) as Hi. cbv zeta in Lo, Hi.
  destruct (fold_left stat_step l (0, mkVar 0 0, 32767, - (32768), 0)) as [[[[k v] lo] hi] sm]. cbn [fst snd] in *.
  injection E as -> ->. cbn [cs_mean cs_sd cs_sum cs_min cs_max].
  destruct (run_var_spec l Hl) as [M V]. split; [exact M|]. split; [unfold standdev, variance; rewrite V; reflexivity|]. split; [exact ES|].
  destruct Lo as (L1 & L2 & L3). destruct Hi as (H1 & H2 & H3).
  split; [|split; [|split]].
  - intros (x & Hx & Lx). split; auto. destruct L3 as [-> |]; auto. specialize (L1 x Hx). replace 32767 with x by lra. auto.
  - intros (x & Hx & Lx). split; auto. destruct H3 as [-> |]; auto. specialize (H1 x Hx). replace (- (32768)) with x by lra. auto.
  - intros A. destruct L3 as [|I]; auto. specialize (A _ I). lra.
  - intros A. destruct H3 as [|I]; auto. specialize (A _ I). lra.
Qed.
End Stats.

Lemma column_values rows n (atof : list Z -> R) j : rows_ok n rows -> (j < n)%nat ->
  omap (fun row => r <- of_option (get_at (table_data atof rows) row) ;; of_option (get_at r (Z.of_nat j))) (zupto (zlen rows)) =
  Ret (map (fun r => atof (nth j (snd r) [])) rows).
Proof.
  intros R Hj. set (f := fun r : list Z * list (list Z) => atof (nth j (snd r) [])).
  rewrite (zupto_nth_map (map f rows) (0%R)). replace (zlen (map f rows)) with (zlen rows) by (unfold zlen; rewrite map_length; reflexivity).
  assert (Q: forall l, (forall i, In i l -> 0 <= i < zlen rows) ->
    omap (fun row => r <- of_option (get_at (table_data atof rows) row) ;; of_option (get_at r (Z.of_nat j))) l =
    Ret (map (fun b => nth (Z.to_nat b) (map f rows) 0%R) l)).
  { induction l as [|i l IH]; intros B; [reflexivity|]. cbn [omap map]. specialize (B i (or_introl eq_refl)) as Bi.
    unfold table_data. rewrite get_at_map. destruct (get_at_some rows i Bi) as [r Er]. rewrite Er. cbn [option_map of_option bind].
    rewrite get_at_map, get_at_nat. pose proof (Forall_get_at _ _ _ _ R Er) as [Lr _].
    rewrite (nth_error_nth_some (snd r) j []) by lia. cbn [option_map of_option bind].
    fold (table_data atof rows). rewrite IH by (intros; apply B; right; auto). cbn [bind]. f_equal. f_equal.
    unfold get_at in Er. destruct (Z.ltb_spec i 0); [lia|]. pose proof (map_nth_error f _ _ Er) as Em.
    apply (nth_error_nth _ _ 0%R) in Em. rewrite Em. reflexivity. }
  apply Q. intros i Hi. apply zupto_In in Hi. exact Hi.
Qed.

(** * Reading *)
(** A regular table is read completely and in order, for every number of rows and
    columns. *)
Theorem C44_regular : forall {D} (zero undef : D) atof (rn cn : bool) corner (hdr : list (list Z)) n (rows : list (list Z * list (list Z))) text,
  (cn = true -> length hdr = n) -> Forall (fun w => zlen w < 1024) hdr ->
  (0 < n)%nat -> rows <> [] -> Forall (fun r => length (snd r) = n /\ zlen (fst r) < 1024) rows -> zlen rows < 500000000 ->
  text_of text ((if cn then [if rn then corner :: hdr else hdr] else []) ++ map (fun r => if rn then fst r :: snd r else snd r) rows) ->
  read_table zero undef atof rn cn (Some text) =
    Ret (mkTable (zlen rows) (Z.of_nat n) (map (fun r => map atof (snd r)) rows) (if rn then map fst rows else []) (if cn then hdr else [])).
Proof.
  intros D zero undef atof rn cn corner hdr n rows text Hh F Hn Hne R B T.
  rewrite (read_regular zero undef atof rn cn corner hdr n rows text); auto.
  - unfold table_data, fit. destruct cn; auto. rewrite <- (Hh eq_refl), firstn_all, Nat.sub_diag. cbn [repeat]. rewrite app_nil_r. reflexivity.
  - intros Q. specialize (Hh Q). intros ->. cbn in Hh. lia.
Qed.

(** A row with another number of values than the first is rejected. *)
Theorem C44_irregular : forall {D} (zero undef : D) atof (rn cn : bool) corner (hdr : list (list Z)) n (rows : list (list Z * list (list Z))) name vals more text,
  (cn = true -> hdr <> []) -> Forall (fun w => zlen w < 1024) hdr ->
  (0 < n)%nat -> rows <> [] -> Forall (fun r => length (snd r) = n /\ zlen (fst r) < 1024) rows -> zlen rows < 400000000 ->
  length vals <> n -> vals <> [] -> zlen name < 1024 ->
  text_of text ((if cn then [if rn then corner :: hdr else hdr] else []) ++ map (fun r => if rn then fst r :: snd r else snd r) rows ++
                (if rn then name :: vals else vals) :: more) ->
  read_table zero undef atof rn cn (Some text) = Exit.
Proof. intros. eapply (read_irregular zero undef atof rn cn corner hdr n rows name vals more); eauto. Qed.

(** A header with another number of names is not: names are dropped or empty. *)
Theorem C44_header_refuted : forall {D} (zero undef : D) atof (rn : bool) corner (hdr : list (list Z)) n (rows : list (list Z * list (list Z))) text,
  hdr <> [] -> Forall (fun w => zlen w < 1024) hdr -> length hdr <> n ->
  (0 < n)%nat -> rows <> [] -> Forall (fun r => length (snd r) = n /\ zlen (fst r) < 1024) rows -> zlen rows < 500000000 ->
  text_of text ([if rn then corner :: hdr else hdr] ++ map (fun r => if rn then fst r :: snd r else snd r) rows) ->
  exists t, read_table zero undef atof rn true (Some text) = Ret t /\ tb_ncol t = Z.of_nat n /\
    tb_cols t = firstn n hdr ++ repeat [] (n - length hdr).
Proof.
  intros. eexists. split; [apply (read_regular zero undef atof rn true corner hdr n rows text); auto|]. split; reflexivity.
Qed.

(** Columns are found by name: the first one with that name, or -1. *)
Theorem C44_find : forall {D} (t : @table D) cn name, let k := find_table_col cn t name in
  (k = -1 /\ (cn = true -> ~ In name (tb_cols t))) \/
  (0 <= k < zlen (tb_cols t) /\ get_at (tb_cols t) k = Some name /\ forall j, 0 <= j < k -> get_at (tb_cols t) j <> Some name).
Proof.
  intros D t cn name. cbv zeta. unfold find_table_col. destruct cn; [|left; split; [reflexivity|discriminate]].
  assert (Q: forall names k0, (find_name name names k0 = -1 /\ ~ In name names) \/
    (exists i, find_name name names k0 = k0 + Z.of_nat i /\ nth_error names i = Some name /\ forall j, (j < i)%nat -> nth_error names j <> Some name)).
  { induction names as [|x names IH]; intros k0; cbn [find_name]; [left; auto|].
    destruct (streq x name) eqn:E.
    - apply streq_spec in E. right. exists 0%nat. split; [lia|]. split; [cbn; congruence|intros; lia].
    - assert (N: x <> name) by (intros Q; apply streq_spec in Q; congruence).
      destruct (IH (k0 + 1)) as [[A B]|(i & A & B & C)].
      + left. split; auto. intros [?|?]; auto.
      + right. exists (S i). split; [lia|]. split; [exact B|]. intros [|j] Hj; [cbn; congruence|]. apply C. lia. }
  destruct (Q (tb_cols t) 0) as [[A B]|(i & A & B & C)]; [left; auto|right]. rewrite A.
  assert (i < length (tb_cols t))%nat by (apply nth_error_Some; congruence).
  split; [unfold zlen; lia|]. split; [change (0 + Z.of_nat i) with (Z.of_nat i); rewrite get_at_nat; exact B|].
  intros j Hj. replace j with (Z.of_nat (Z.to_nat j)) by lia. rewrite get_at_nat. apply C. lia.
Qed.

(** The statistics of column j are those of its values; minimum and maximum only
    if some value is at most 32767 resp. at least -32768. *)
Theorem C44_statistics_partial : forall (atof : list Z -> R) n (rows : list (list Z * list (list Z))) nrn ncn, (0 < n)%nat -> rows <> [] ->
  Forall (fun r => length (snd r) = n /\ zlen (fst r) < 1024) rows ->
  exists st, table_stats (mkTable (zlen rows) (Z.of_nat n) (map (fun r => map atof (snd r)) rows) nrn ncn) = Ret st /\
    length st = n /\ forall j cs, nth_error st j = Some cs ->
    let l := map (fun r => atof (nth j (snd r) [])) rows in
    cs_mean cs = mean l /\ cs_sd cs = sqrt (dev 2 l / (size l - 1)) /\ cs_sum cs = sum (fun x => x) l /\
    ((exists x, In x l /\ x <= 32767)%R -> least l (cs_min cs)) /\ ((exists x, In x l /\ -32768 <= x)%R -> greatest l (cs_max cs)).
Proof.
  intros atof n rows nrn ncn Hn Hne R.
  exists (map (fun c => col_stats (map (fun r => atof (nth (Z.to_nat c) (snd r) [])) rows)) (zupto (Z.of_nat n))). split; [|split].
  - unfold table_stats. cbn [tb_nrow tb_ncol tb_data]. fold (table_data atof rows).
    assert (Q: forall cols, (forall c, In c cols -> 0 <= c < Z.of_nat n) ->
      omap (fun col => l <- omap (fun row => r <- of_option (get_at (table_data atof rows) row) ;; of_option (get_at r col)) (zupto (zlen rows)) ;; Ret (col_stats l)) cols
      = Ret (map (fun c => col_stats (map (fun r => atof (nth (Z.to_nat c) (snd r) [])) rows)) cols)).
    { induction cols as [|c cols IH]; intros B; [reflexivity|]. cbn [omap map]. specialize (B c (or_introl eq_refl)) as Bc.
      pose proof (column_values rows n atof (Z.to_nat c) R ltac:(lia)) as E. rewrite Z2Nat.id in E by lia. rewrite E. cbn [bind].
      rewrite IH by (intros; apply B; right; auto). reflexivity. }
    apply Q. intros c Hc. apply zupto_In in Hc. exact Hc.
  - rewrite map_length. unfold zupto. rewrite map_length, seq_length. lia.
  - intros j cs E l. apply nth_error_In in E as E0. unfold zupto in E. rewrite map_map, nth_error_map in E.
    destruct (nth_error (seq 0 (Z.to_nat (Z.of_nat n))) j) as [q|] eqn:Eq; [|discriminate]. cbn [option_map] in E.
    assert (q = j). { apply (nth_error_nth _ _ 0%nat) in Eq as Eq'. assert (j < length (seq 0 (Z.to_nat (Z.of_nat n))))%nat by (apply nth_error_Some; congruence).
      rewrite seq_length in *. rewrite seq_nth in Eq' by auto. lia. } subst q. rewrite Nat2Z.id in E. injection E as <-. fold l.
    destruct (col_stats_spec l) as (A & B & C & E1 & E2 & _); [unfold l; apply map_nonnil; auto|]. auto.
Qed.

(** Otherwise they are constants that are no values of the column. *)
Theorem C44_minimum_refuted : forall l, l <> [] -> (forall x, In x l -> 32767 < x)%R ->
  cs_min (col_stats l) = 32767%R /\ ~ least l (cs_min (col_stats l)).
Proof.
  intros l Hl A. destruct (col_stats_spec l Hl) as (_ & _ & _ & _ & _ & M & _). rewrite (M A). split; auto.
  intros [I _]. specialize (A _ I). lra.
Qed.
Theorem C44_maximum_refuted : forall l, l <> [] -> (forall x, In x l -> x < -32768)%R ->
  cs_max (col_stats l) = (-32768)%R /\ ~ greatest l (cs_max (col_stats l)).
Proof.
  intros l Hl A. destruct (col_stats_spec l Hl) as (_ & _ & _ & _ & _ & _ & M). rewrite (M A). split; auto.
  intros [I _]. specialize (A _ I). lra.
Qed.

(** A table with names, read. *)
Definition ex_text : list Z := ` "id,class, count" ++ [13; 10] ++ ` "a 1 20" ++ [10] ++ ` "b,2, 30" ++ [10].
Lemma words_ok w : forallb (fun c => negb (memz c [32; 44; 9; 10; 13])) w = true -> w <> [] -> word w.
Proof.
  intros F N. split; auto. apply Forall_forall. intros c Hc. rewrite forallb_forall in F. specialize (F c Hc).
  apply negb_true_iff, memz_false in F. unfold word_char, gap_char. cbn [In] in F.
  repeat split; intros Q; apply F; destruct Q as [Q|[Q|Q]] || idtac; auto 10.
Qed.
Example C44_example :
  text_of ex_text ([` "id" :: [` "class"; ` "count"]] ++ map (fun r => fst r :: snd r) [(` "a", [` "1"; ` "20"]); (` "b", [` "2"; ` "30"])]) /\
  read_table 0 0 (fun t => atoi_val t) true true (Some ex_text) =
    Ret (mkTable 2 2 [[1; 20]; [2; 30]] [` "a"; ` "b"] [` "class"; ` "count"]).
Proof.
  split; [|vm_compute; reflexivity].
  assert (W: forall w, forallb (fun c => negb (memz c [32; 44; 9; 10; 13])) w = true -> w <> [] -> word w) by exact words_ok.
  unfold ex_text. cbn [map app fst snd].
  apply (text_line (` "id,class, count") _ [13]); [|reflexivity|auto|].
  - apply (written_word [] (` "id") 44); [constructor|apply W; [reflexivity|discriminate]|unfold gap_char; auto|].
    apply (written_word [] (` "class") 44); [constructor|apply W; [reflexivity|discriminate]|unfold gap_char; auto|].
    apply (written_last [32] (` "count")); [constructor; [unfold gap_char; auto|constructor]|apply W; [reflexivity|discriminate]].
  - apply (text_line (` "a 1 20") _ []); [|reflexivity|auto|].
    + apply (written_word [] (` "a") 32); [constructor|apply W; [reflexivity|discriminate]|unfold gap_char; auto|].
      apply (written_word [] (` "1") 32); [constructor|apply W; [reflexivity|discriminate]|unfold gap_char; auto|].
      apply (written_last [] (` "20")); [constructor|apply W; [reflexivity|discriminate]].
    + apply (text_line (` "b,2, 30") _ []); [|reflexivity|auto|constructor].
      apply (written_word [] (` "b") 44); [constructor|apply W; [reflexivity|discriminate]|unfold gap_char; auto|].
      apply (written_word [] (` "2") 44); [constructor|apply W; [reflexivity|discriminate]|unfold gap_char; auto|].
      apply (written_last [32] (` "30")); [constructor; [unfold gap_char; auto|constructor]|apply W; [reflexivity|discriminate]].
Qed.

(** A header with two names over three columns is accepted. *)
Example C44_header_example :
  read_table 0 0 (fun t => atoi_val t) false true (Some (` "class,count" ++ [10] ++ ` "1,20,3" ++ [10])) =
    Ret (mkTable 1 3 [[1; 20; 3]] [] [` "class"; ` "count"; []]) /\
  read_table 0 0 (fun t => atoi_val t) false true (Some (` "id,class,count" ++ [10] ++ ` "1,20" ++ [10])) =
    Ret (mkTable 1 2 [[1; 20]] [] [` "id"; ` "class"]) /\
  read_table 0 0 (fun t => atoi_val t) false true (Some (` "class,count" ++ [10] ++ ` "1,20" ++ [10] ++ ` "1,20,3" ++ [10])) = Exit.
Proof. repeat split; vm_compute; reflexivity. Qed.
Example C44_minimum_example : cs_min (col_stats [40000%R; 50000%R]) = 32767%R.
Proof. apply C44_minimum_refuted; [discriminate|]. intros x [<-|[<-|[]]]; lra. Qed.

Print Assumptions C44_regular.
Print Assumptions C44_irregular.
Print Assumptions C44_header_refuted.
Print Assumptions C44_find.
Print Assumptions C44_statistics_partial.
Print Assumptions C44_minimum_refuted.
Print Assumptions C44_maximum_refuted.
