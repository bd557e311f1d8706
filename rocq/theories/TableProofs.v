(** Proofs about reading tables. *)
From Coq Require Import Reals.
From Verif Require Import Base BaseFacts CStr CStrFacts Loops LoopsFacts StringModel StringProofs AllocModel AllocSpec AllocProofs TableModel TableSpec.
#[local] Open Scope Z_scope.

(** * Words of a line. *)
Lemma gap_memz c : gap_char c -> memz c separator = true.
Proof. intros [-> | [-> | ->]]; reflexivity. Qed.
Lemma word_memz c : word_char c -> memz c separator = false.
Proof. intros (N & _). apply memz_false. intros [<-|[<-|[<-|[]]]]; apply N; unfold gap_char; auto. Qed.
Lemma word_clean w : word w -> Forall (fun c => memz c separator = false) w.
Proof. intros [_ F]. eapply Forall_impl; [|exact F]. apply word_memz. Qed.

Lemma skip_gap g l : Forall gap_char g -> skip_while separator (g ++ l) = skip_while separator l.
Proof. induction 1 as [|c g H F IH]; auto. cbn [app skip_while]. rewrite gap_memz by auto. exact IH. Qed.

Lemma strtok_gap g l : Forall gap_char g -> strtok separator (g ++ l) = strtok separator l.
Proof. intros F. unfold strtok. rewrite skip_gap by auto. reflexivity. Qed.

Lemma written_tokens l ws : written l ws -> tokens separator l = ws.
Proof.
  induction 1 as [g F|g w F W|g w c l ws F W C H IH]; rewrite tokens_unfold.
  - rewrite <- (app_nil_r g), strtok_gap by auto. reflexivity.
  - rewrite strtok_gap by auto. rewrite <- (app_nil_r w) at 1.
    rewrite (strtok_clean separator w []); [reflexivity|apply W|apply word_clean; auto|auto].
  - rewrite strtok_gap by auto. rewrite (strtok_clean separator w (c :: l)); [|apply W|apply word_clean; auto|right; exists c, l; split; auto; apply gap_memz; auto].
    cbn [tl]. rewrite IH. reflexivity.
Qed.

Lemma written_chars l ws : written l ws -> Forall (fun c => c <> 10 /\ c <> 13) l.
Proof.
  assert (G: forall g, Forall gap_char g -> Forall (fun c => c <> 10 /\ c <> 13) g).
  { intros g F. eapply Forall_impl; [|exact F]. intros c [-> | [-> | ->]]; lia. }
  assert (W': forall w, word w -> Forall (fun c => c <> 10 /\ c <> 13) w).
  { intros w [_ F]. eapply Forall_impl; [|exact F]. intros c (_ & A & B). auto. }
  induction 1 as [g F|g w F W|g w c l ws F W C H IH]; auto.
  - apply Forall_app; auto.
  - apply Forall_app; split; auto. apply Forall_app; split; auto. constructor; auto.
    destruct C as [-> | [-> | ->]]; lia.
Qed.

Lemma written_count l ws : written l ws -> (length ws <= length l)%nat.
Proof.
  assert (W': forall w, word w -> (1 <= length w)%nat) by (intros [|c w] [N _]; [congruence|cbn; lia]).
  induction 1 as [g F|g w F W|g w c l ws F W C H IH]; rewrite ?app_length; cbn [length] in *; rewrite ?app_length; cbn [length]; try apply W' in W; lia.
Qed.

(** The current token and those to come. *)
Definition curtoks (cur : option (list Z * list Z)) : list (list Z) :=
  match cur with None => [] | Some (t, s) => t :: tokens separator s end.
Lemma curtoks_tokens l : curtoks (strtok separator l) = tokens separator l.
Proof. rewrite tokens_unfold. reflexivity. Qed.

Section P.
Context {D : Type} (zero undef : D) (atof : list Z -> D) (rn cn : bool).
Notation cell := (cell2 zero).

(** * The buffers *)
Definition cells_ok (nb : Z) (c : @cells D) : Prop :=
  shape2 (c_data c) (Z.to_nat nb) (Z.to_nat (c_cols c)) /\ 0 < c_cols c <= 131072 /\
  (cn = true -> zlen (c_names c) = c_cols c).

(** Reading outside the buffer gives zero in the specification. *)
Lemma cell_out (a : list (list D)) n1 n2 i j : shape2 a n1 n2 -> (n1 <= i)%nat \/ (n2 <= j)%nat -> cell a i j = zero.
Proof.
  intros [L R] [H|H]; unfold cell2.
  - rewrite (nth_overflow a) by lia. destruct j; reflexivity.
  - destruct (Nat.ltb_spec i (length a)).
    + apply nth_overflow. rewrite (R i (nth i a [])); [lia|]. apply nth_error_nth_some; auto.
    + rewrite (nth_overflow a) by lia. destruct j; reflexivity.
Qed.

Lemma grow_same (a a' : list (list D)) o1 o2 n1 n2 : shape2 a o1 o2 -> resized2 zero a o1 o2 n1 n2 a' -> (o1 <= n1)%nat -> (o2 <= n2)%nat ->
  forall i j, cell a' i j = cell a i j.
Proof.
  intros Sa [Sa' C] L1 L2 i j.
  destruct (Nat.ltb_spec i n1) as [Hi|Hi]; [destruct (Nat.ltb_spec j n2) as [Hj|Hj]|].
  - rewrite C by auto. destruct (Nat.ltb_spec i o1); [destruct (Nat.ltb_spec j o2)|]; cbn [andb]; auto; symmetry; eapply cell_out; eauto; lia.
  - rewrite (cell_out a' n1 n2), (cell_out a o1 o2) by (auto; lia). reflexivity.
  - rewrite (cell_out a' n1 n2), (cell_out a o1 o2) by (auto; lia). reflexivity.
Qed.

Lemma grow_names (l : list (list Z)) o n : length l = o -> (o <= n)%nat -> (0 < n)%nat ->
  exists l', re_alloc [] [] l o n = Ret l' /\ length l' = n /\ forall j, nth j l' [] = nth j l [].
Proof.
  intros L Le P. rewrite re_alloc_eq by auto. eexists. split; [reflexivity|]. rewrite firstn_all2 by lia. split.
  - rewrite app_length, repeat_length. lia.
  - intros j. destruct (Nat.ltb_spec j (length l)); [apply app_nth1; auto|].
    rewrite app_nth2, (nth_overflow l) by lia. apply nth_repeat.
Qed.

Lemma grow_cols_ok nb col c : 0 < nb -> cells_ok nb c -> 0 <= col <= c_cols c -> col <= 65536 ->
  exists c', grow_cols zero undef cn nb col c = Ret c' /\ cells_ok nb c' /\ col < c_cols c' /\
    (forall i j, cell (c_data c') i j = cell (c_data c) i j) /\
    (forall j, nth j (c_names c') [] = nth j (c_names c) []) /\ (cn = false -> c_names c' = c_names c).
Proof.
  intros Hn (Sh & Hc & Hnm) Hcol Hb. unfold grow_cols. destruct (Z.geb_spec col (c_cols c)).
  2:{ exists c. repeat (split; auto); lia. }
  rewrite chk_int_ok by (unfold in_int; lia). cbn [bind].
  destruct (re_alloc_2D_spec zero undef (c_data c) _ _ (Z.to_nat nb) (Z.to_nat (c_cols c * 2)) Sh) as (d' & E & Rz); [lia|lia|].
  destruct cn eqn:Ec.
  - destruct (grow_names (c_names c) (Z.to_nat (c_cols c)) (Z.to_nat (c_cols c * 2))) as (l' & El & Ll & Nl); try lia.
    { specialize (Hnm eq_refl). unfold zlen in Hnm. lia. }
    rewrite El. cbn [bind]. rewrite E. cbn [bind]. eexists. split; [reflexivity|]. cbn [c_data c_names c_cols].
    split; [split; [apply Rz|split; [cbn [c_cols]; lia|intros _; cbn [c_names c_cols]; unfold zlen; lia]]|]. split; [lia|]. split.
    + eapply grow_same; eauto; lia.
    + split; [exact Nl|discriminate].
  - cbn [bind]. rewrite E. cbn [bind]. eexists. split; [reflexivity|]. cbn [c_data c_names c_cols].
    split; [split; [apply Rz|split; [cbn [c_cols]; lia|intros Q; congruence]]|]. split; [lia|]. split.
    + eapply grow_same; eauto; lia.
    + split; auto.
Qed.

Lemma nth_list_set {A} (l : list A) n v d k : (n < length l)%nat -> nth k (list_set l n v) d = if (k =? n)%nat then v else nth k l d.
Proof.
  revert n k. induction l as [|x l IH]; intros [|n] [|k] H; cbn [length list_set nth Nat.eqb] in *; try lia; auto. apply IH. lia.
Qed.

(** Writing one cell. *)
Lemma put_cell nb c row col v : 0 <= row < nb -> cells_ok nb c -> 0 <= col < c_cols c ->
  exists r r' data, get_at (c_data c) row = Some r /\ set_at r col v = Some r' /\ set_at (c_data c) row r' = Some data /\
    cells_ok nb (mkCells data (c_names c) (c_cols c)) /\
    forall i j, cell data i j = if (i =? Z.to_nat row)%nat && (j =? Z.to_nat col)%nat then v else cell (c_data c) i j.
Proof.
  intros Hr ((L & Sh) & Hc & Hn) Hcol.
  assert (E: nth_error (c_data c) (Z.to_nat row) = Some (nth (Z.to_nat row) (c_data c) [])) by (apply nth_error_nth_some; lia).
  pose proof (Sh _ _ E) as Lr. set (r := nth (Z.to_nat row) (c_data c) []) in *.
  exists r, (list_set r (Z.to_nat col) v), (list_set (c_data c) (Z.to_nat row) (list_set r (Z.to_nat col) v)).
  split; [unfold get_at; destruct (Z.ltb_spec row 0); [lia|exact E]|].
  split; [apply set_at_some; unfold zlen; lia|]. split; [apply set_at_some; unfold zlen; lia|].
  split.
  - split; [|split; auto]. cbn [c_data]. split; [rewrite length_list_set; auto|].
    intros i q Hq. destruct (Nat.eq_dec i (Z.to_nat row)) as [-> |N].
    + rewrite nth_error_list_set_same in Hq by lia. inversion Hq. rewrite length_list_set. auto.
    + rewrite nth_error_list_set_other in Hq by auto. eauto.
  - intros i j. unfold cell2. rewrite nth_list_set by lia. destruct (Nat.eqb_spec i (Z.to_nat row)); cbn [andb]; auto. subst i.
    rewrite nth_list_set by lia. destruct (Nat.eqb_spec j (Z.to_nat col)); auto.
Qed.

(** * One row *)
Lemma data_tail nb row rows : 0 <= row < nb -> forall toks fuel cur col c,
  curtoks cur = toks -> (length toks <= fuel)%nat -> cells_ok nb c -> 0 <= col < c_cols c -> (rn = true -> 0 < col) ->
  col + zlen toks <= 65536 ->
  exists c', data_line zero undef atof rn cn fuel nb row cur col rows c = Ret (rows, c', col + zlen toks) /\ cells_ok nb c' /\
    col + zlen toks < c_cols c' /\
    (forall i j, cell (c_data c') i j =
       if (i =? Z.to_nat row)%nat && (Z.to_nat col <=? j)%nat && (j <? Z.to_nat col + length toks)%nat
       then atof (nth (j - Z.to_nat col) toks []) else cell (c_data c) i j) /\
    (forall j, nth j (c_names c') [] = nth j (c_names c) []) /\ (cn = false -> c_names c' = c_names c).
Proof.
  intros Hr. induction toks as [|tok toks IH]; intros fuel cur col c Ecur Hf Hc Hcol Hrn Hb.
  - destruct cur as [[? ?]|]; [discriminate|]. exists c. replace (col + zlen (@nil (list Z))) with col by (unfold zlen; cbn; lia).
    split; [destruct fuel; reflexivity|]. split; [auto|]. split; [lia|]. split; [|auto].
    intros i j. replace (_ && _ && _)%bool with false; auto. cbn [length]. lia.
  - destruct cur as [[t s]|]; [|discriminate]. cbn [curtoks] in Ecur. injection Ecur as -> Es.
    destruct fuel as [|fuel]; [cbn in Hf; lia|]. cbn [data_line].
    assert (H0: rn && (col =? 0) = false) by (destruct rn; auto; cbn [andb]; specialize (Hrn eq_refl); lia). rewrite H0. cbn [bind].
    destruct (put_cell nb c row col (atof tok) Hr Hc ltac:(lia)) as (r & r' & data & E1 & E2 & E3 & Ok1 & C1).
    rewrite E1. cbn [of_option bind]. rewrite E2. cbn [of_option bind]. rewrite E3. cbn [of_option bind].
    replace (zlen (tok :: toks)) with (1 + zlen toks) in * by (unfold zlen; cbn [length]; lia).
    destruct (grow_cols_ok nb (col + 1) _ ltac:(lia) Ok1) as (c1 & E4 & Ok2 & Lt & C2 & N2 & N2'); [cbn [c_cols]; lia|unfold zlen in *; lia|].
    rewrite E4. cbn [bind].
    destruct (IH fuel (strtok separator s) (col + 1) c1) as (c' & E5 & Ok3 & Lt3 & C3 & N3 & N3'); auto; try lia.
    { rewrite curtoks_tokens. exact Es. } { cbn in Hf. lia. }
    exists c'. rewrite E5. split; [f_equal; f_equal; lia|]. split; [auto|]. split; [lia|]. split; [|split].
    + intros i j. rewrite C3, C2. cbn [c_data]. rewrite C1. replace (Z.to_nat (col + 1)) with (S (Z.to_nat col)) by lia. cbn [length].
      destruct (Nat.eqb_spec i (Z.to_nat row)); cbn [andb]; auto.
      destruct (Nat.eqb_spec j (Z.to_nat col)) as [-> |Nj].
      * rewrite Nat.leb_refl. replace (S (Z.to_nat col) <=? Z.to_nat col)%nat with false by lia. cbn [andb].
        replace (Z.to_nat col <? Z.to_nat col + S (length toks))%nat with true by lia. rewrite Nat.sub_diag. reflexivity.
      * destruct (Nat.leb_spec (S (Z.to_nat col)) j).
        -- replace (Z.to_nat col <=? j)%nat with true by lia. cbn [andb].
           replace (j <? Z.to_nat col + S (length toks))%nat with (j <? S (Z.to_nat col) + length toks)%nat by lia.
           destruct (j <? S (Z.to_nat col) + length toks)%nat; auto.
           replace (j - Z.to_nat col)%nat with (S (j - S (Z.to_nat col))) by lia. reflexivity.
        -- cbn [andb]. replace (Z.to_nat col <=? j)%nat with false by lia. reflexivity.
    + intros j. rewrite N3, N2. reflexivity.
    + intros Q. rewrite N3', N2' by auto. reflexivity.
Qed.

(** What a row's line shows. *)
Definition row_words (name : list Z) (vals : list (list Z)) : list (list Z) := if rn then name :: vals else vals.

Lemma data_full nb row rows c l name vals : 0 <= row < nb -> written l (row_words name vals) -> vals <> [] -> zlen l < 65000 ->
  zlen name < 1024 -> cells_ok nb c -> (rn = true -> zlen rows = nb) ->
  exists rows' c', data_line zero undef atof rn cn (S (length l)) nb row (strtok separator l) 0 rows c = Ret (rows', c', zlen vals) /\
    cells_ok nb c' /\ zlen vals < c_cols c' /\
    (forall i j, cell (c_data c') i j =
       if (i =? Z.to_nat row)%nat && (j <? length vals)%nat then atof (nth j vals []) else cell (c_data c) i j) /\
    (forall j, nth j (c_names c') [] = nth j (c_names c) []) /\ (cn = false -> c_names c' = c_names c) /\
    zlen rows' = zlen rows /\ (rn = false -> rows' = rows) /\
    (rn = true -> forall i, nth i rows' [] = if (i =? Z.to_nat row)%nat then name else nth i rows []).
Proof.
  intros Hr W Hv Hl Hname Hc Hrows. pose proof (written_count _ _ W) as Cnt. pose proof (written_tokens _ _ W) as T. rewrite <- curtoks_tokens in T.
  destruct Hc as (Sh & Hc & Hn). unfold row_words in *. destruct rn eqn:Ern.
  - destruct (strtok separator l) as [[t s]|] eqn:E0; [|discriminate]. cbn [curtoks] in T. injection T as -> Ts.
    cbn [length] in Cnt. rewrite <- curtoks_tokens in Ts.
    destruct (strtok separator s) as [[t2 s2]|] eqn:E2; [|cbn in Ts; congruence].
    destruct vals as [|v vals]; [congruence|]. cbn [curtoks] in Ts. injection Ts as -> Ts.
    set (rows' := list_set rows (Z.to_nat row) name).
    specialize (Hrows eq_refl).
    destruct (put_cell nb c row 0 (atof v) Hr ltac:(repeat (split; auto)) ltac:(lia)) as (r & r' & data & F1 & F2 & F3 & Ok1 & C1).
    destruct (grow_cols_ok nb 1 _ ltac:(lia) Ok1) as (c1 & E4 & Ok2 & Lt & C2 & N2 & N2'); [cbn [c_cols]; lia|lia|].
    destruct (data_tail nb row rows' Hr vals (length l) (strtok separator s2) 1 c1) as (c' & E5 & Ok3 & Lt3 & C3 & N3 & N3'); auto; try lia.
    { rewrite curtoks_tokens. exact Ts. } { cbn [length] in Cnt. lia. } { unfold zlen in *. cbn [length] in Cnt. lia. }
    exists rows', c'. split.
    { cbn [data_line]. cbn [andb Z.eqb]. unfold copy_string. destruct (Z.geb_spec (zlen name) 1024); [lia|]. cbn [bind].
      rewrite set_at_some by (unfold zlen in *; lia). cbn [of_option bind]. rewrite E2. cbn [bind].
      rewrite F1. cbn [of_option bind]. rewrite F2. cbn [of_option bind]. rewrite F3. cbn [of_option bind].
      change (0 + 1) with 1. rewrite E4. cbn [bind]. rewrite Ern in E5. fold rows'. rewrite E5. f_equal. f_equal. unfold zlen. cbn [length]. lia. }
    split; [auto|]. split; [unfold zlen in *; cbn [length]; lia|]. split.
    { intros i j. rewrite C3, C2. cbn [c_data]. rewrite C1. cbn [length].
      destruct (Nat.eqb_spec i (Z.to_nat row)); cbn [andb]; auto. change (Z.to_nat 1) with 1%nat. change (Z.to_nat 0) with 0%nat.
      destruct j as [|j]; [reflexivity|]. cbn [Nat.eqb Nat.leb andb nth]. replace (S j <? 1 + length vals)%nat with (j <? length vals)%nat by reflexivity.
      replace (S j - 1)%nat with j by lia. reflexivity. }
    split; [intros j; rewrite N3, N2; reflexivity|]. split; [intros Q; rewrite N3', N2' by auto; reflexivity|].
    split; [unfold rows', zlen; rewrite length_list_set; reflexivity|]. split; [discriminate|].
    intros _ i. unfold rows'. apply nth_list_set. unfold zlen in *. lia.
  - destruct (data_tail nb row rows Hr vals (S (length l)) (strtok separator l) 0 c) as (c' & E5 & Ok3 & Lt3 & C3 & N3 & N3'); auto; try lia.
    { repeat (split; auto). } { rewrite Ern; discriminate. } { unfold zlen in *; lia. }
    exists rows, c'. rewrite Ern in E5. rewrite E5. split; [f_equal|]. split; [auto|]. split; [lia|]. split.
    { intros i j. rewrite C3. change (Z.to_nat 0) with 0%nat. cbn [Nat.leb]. rewrite andb_true_r, Nat.sub_0_r. reflexivity. }
    split; [auto|]. split; [auto|]. split; [auto|]. split; [auto|discriminate].
Qed.

(** * The column names *)
Lemma names_tail nb : cn = true -> 0 < nb -> forall toks fuel cur col c,
  curtoks cur = toks -> (length toks <= fuel)%nat -> cells_ok nb c -> 0 <= col < c_cols c -> (rn = true -> 0 < col) ->
  col + zlen toks <= 65536 -> Forall (fun w => zlen w < 1024) toks ->
  exists c', names_line zero undef rn cn fuel nb cur col c = Ret (c', col + zlen toks) /\ cells_ok nb c' /\
    (forall i j, cell (c_data c') i j = cell (c_data c) i j) /\
    (forall j, nth j (c_names c') [] =
       if (Z.to_nat col <=? j)%nat && (j <? Z.to_nat col + length toks)%nat then nth (j - Z.to_nat col) toks [] else nth j (c_names c) []).
Proof.
  intros Hcn Hnb. induction toks as [|tok toks IH]; intros fuel cur col c Ecur Hf Hc Hcol Hrn Hb F.
  - destruct cur as [[? ?]|]; [discriminate|]. exists c. replace (col + zlen (@nil (list Z))) with col by (unfold zlen; cbn; lia).
    split; [destruct fuel; reflexivity|]. split; [auto|]. split; [auto|].
    intros j. replace (_ && _)%bool with false; auto. cbn [length]. lia.
  - destruct cur as [[t s]|]; [|discriminate]. cbn [curtoks] in Ecur. injection Ecur as -> Es.
    destruct fuel as [|fuel]; [cbn in Hf; lia|]. cbn [names_line].
    assert (H0: rn && (col =? 0) = false) by (destruct rn; auto; cbn [andb]; specialize (Hrn eq_refl); lia). rewrite H0. cbn [bind].
    pose proof (Forall_inv F) as Ft. cbn beta in Ft. unfold copy_string. destruct (Z.geb_spec (zlen tok) 1024); [lia|]. cbn [bind].
    destruct Hc as (Sh & Hc & Hn). specialize (Hn Hcn).
    rewrite set_at_some by lia. cbn [of_option bind].
    replace (zlen (tok :: toks)) with (1 + zlen toks) in * by (unfold zlen; cbn [length]; lia).
    assert (Ok1: cells_ok nb (mkCells (c_data c) (list_set (c_names c) (Z.to_nat col) tok) (c_cols c))).
    { split; [exact Sh|]. split; [exact Hc|]. intros _. cbn [c_names c_cols]. unfold zlen in *. rewrite length_list_set. exact Hn. }
    destruct (grow_cols_ok nb (col + 1) _ ltac:(lia) Ok1) as (c1 & E4 & Ok2 & Lt & C2 & N2 & N2'); [cbn [c_cols]; lia|unfold zlen in *; lia|].
    rewrite E4. cbn [bind].
    destruct (IH fuel (strtok separator s) (col + 1) c1) as (c' & E5 & Ok3 & C3 & N3); auto; try lia.
    { rewrite curtoks_tokens. exact Es. } { cbn in Hf. lia. } { apply (Forall_inv_tail F). }
    exists c'. rewrite E5. split; [f_equal; f_equal; lia|]. split; [auto|]. split; [intros i j; rewrite C3, C2; reflexivity|].
    intros j. rewrite N3, N2. cbn [c_names]. rewrite nth_list_set by (unfold zlen in *; lia). replace (Z.to_nat (col + 1)) with (S (Z.to_nat col)) by lia. cbn [length].
    destruct (Nat.eqb_spec j (Z.to_nat col)) as [-> |Nj].
    + rewrite Nat.leb_refl. replace (S (Z.to_nat col) <=? Z.to_nat col)%nat with false by lia. cbn [andb].
      replace (Z.to_nat col <? Z.to_nat col + S (length toks))%nat with true by lia. rewrite Nat.sub_diag. reflexivity.
    + destruct (Nat.leb_spec (S (Z.to_nat col)) j).
      * replace (Z.to_nat col <=? j)%nat with true by lia. cbn [andb].
        replace (j <? Z.to_nat col + S (length toks))%nat with (j <? S (Z.to_nat col) + length toks)%nat by lia.
        destruct (j <? S (Z.to_nat col) + length toks)%nat; auto.
        replace (j - Z.to_nat col)%nat with (S (j - S (Z.to_nat col))) by lia. reflexivity.
      * cbn [andb]. replace (Z.to_nat col <=? j)%nat with false by lia. reflexivity.
Qed.

Lemma names_full nb c l corner hdr : cn = true -> 0 < nb -> written l (row_words corner hdr) -> hdr <> [] -> zlen l < 65000 ->
  Forall (fun w => zlen w < 1024) hdr -> cells_ok nb c ->
  exists c', names_line zero undef rn cn (S (length l)) nb (strtok separator l) 0 c = Ret (c', zlen hdr) /\ cells_ok nb c' /\
    (forall i j, cell (c_data c') i j = cell (c_data c) i j) /\
    (forall j, nth j (c_names c') [] = if (j <? length hdr)%nat then nth j hdr [] else nth j (c_names c) []).
Proof.
  intros Hcn Hnb W Hv Hl F Hok. pose proof (written_count _ _ W) as Cnt. pose proof (written_tokens _ _ W) as T. rewrite <- curtoks_tokens in T.
  pose proof Hok as (Sh & Hc & Hn). specialize (Hn Hcn). unfold row_words in *. destruct rn eqn:Ern.
  - destruct (strtok separator l) as [[t s]|] eqn:E0; [|discriminate]. cbn [curtoks] in T. injection T as -> Ts.
    cbn [length] in Cnt. rewrite <- curtoks_tokens in Ts.
    destruct (strtok separator s) as [[t2 s2]|] eqn:E2; [|cbn in Ts; congruence].
    destruct hdr as [|v hdr]; [congruence|]. cbn [curtoks] in Ts. injection Ts as -> Ts.
    pose proof (Forall_inv F) as Fv. cbn beta in Fv. pose proof (Forall_inv_tail F) as Fr.
    assert (Ok1: cells_ok nb (mkCells (c_data c) (list_set (c_names c) 0 v) (c_cols c))).
    { split; [exact Sh|]. split; [exact Hc|]. intros _. cbn [c_names c_cols]. unfold zlen in *. rewrite length_list_set. exact Hn. }
    destruct (grow_cols_ok nb 1 _ Hnb Ok1) as (c1 & E4 & Ok2 & Lt & C2 & N2 & N2'); [cbn [c_cols]; lia|lia|].
    destruct (names_tail nb Hcn Hnb hdr (length l) (strtok separator s2) 1 c1) as (c' & E5 & Ok3 & C3 & N3); auto; try lia.
    { rewrite curtoks_tokens. exact Ts. } { cbn [length] in Cnt. lia. } { unfold zlen in *. cbn [length] in Cnt. lia. }
    exists c'. split.
    { cbn [names_line]. cbn [andb Z.eqb]. rewrite E2. cbn [bind]. unfold copy_string. destruct (Z.geb_spec (zlen v) 1024); [lia|]. cbn [bind].
      rewrite set_at_some by lia. cbn [of_option bind]. change (Z.to_nat 0) with 0%nat.
      change (0 + 1) with 1. rewrite E4. cbn [bind]. rewrite Ern in E5. rewrite E5. f_equal. f_equal. unfold zlen. cbn [length]. lia. }
    split; [auto|]. split; [intros i j; rewrite C3, C2; reflexivity|].
    intros j. rewrite N3, N2. cbn [c_names length]. rewrite nth_list_set by (unfold zlen in *; lia). change (Z.to_nat 1) with 1%nat.
    destruct j as [|j]; [reflexivity|]. cbn [Nat.eqb Nat.leb andb nth]. change (S j <? 1 + length hdr)%nat with (j <? length hdr)%nat.
    change (S j <? S (length hdr))%nat with (j <? length hdr)%nat. replace (S j - 1)%nat with j by lia. reflexivity.
  - destruct (names_tail nb Hcn Hnb hdr (S (length l)) (strtok separator l) 0 c) as (c' & E5 & Ok3 & C3 & N3); auto; try lia.
    { rewrite Ern; discriminate. } { unfold zlen in *; lia. }
    exists c'. rewrite Ern in E5. rewrite E5. split; [f_equal|]. split; [auto|]. split; [auto|].
    intros j. rewrite N3. change (Z.to_nat 0) with 0%nat. cbn [Nat.leb andb]. rewrite Nat.sub_0_r. reflexivity.
Qed.
End P.

Section P2.
Context {D : Type} (zero undef : D) (atof : list Z -> D) (rn cn : bool).
Notation cell := (cell2 zero).

(** * The state after the header (if any) and some rows *)
Definition rows_ok (n : nat) (rows : list (list Z * list (list Z))) : Prop :=
  Forall (fun r => length (snd r) = n /\ zlen (fst r) < 1024) rows.
Definition table_data (rows : list (list Z * list (list Z))) : list (list D) := map (fun r => map atof (snd r)) rows.

Record inv (hdr : list (list Z)) (n : nat) (rows : list (list Z * list (list Z))) (s : @tstate D) : Prop := {
  i_row : t_row s = zlen rows;
  i_buf : t_row s < t_rowbuf s <= 2 * t_row s + 2;
  i_ncol : t_ncol s = if t_row s =? 0 then (if cn then zlen hdr else 0) else Z.of_nat n;
  i_line : t_line s = zlen rows + (if cn then 1 else 0);
  i_cells : cells_ok cn (t_rowbuf s) (t_cells s);
  i_cap : rows <> [] -> Z.of_nat n < c_cols (t_cells s);
  i_data : forall i j, cell (c_data (t_cells s)) i j = cell (table_data rows) i j;
  i_names : forall j, nth j (c_names (t_cells s)) [] = nth j (if cn then hdr else []) [];
  i_nonames : cn = false -> c_names (t_cells s) = [];
  i_rlen : rn = true -> zlen (t_rows s) = t_rowbuf s;
  i_rows : rn = true -> forall i, nth i (t_rows s) [] = nth i (map fst rows) [];
  i_norows : rn = false -> t_rows s = [] }.

Lemma cell_snoc rows r i j : cell (table_data (rows ++ [r])) i j =
  if (i =? length rows)%nat && (j <? length (snd r))%nat then atof (nth j (snd r) []) else cell (table_data rows) i j.
Proof.
  unfold table_data, cell2. rewrite map_app. destruct (Nat.eqb_spec i (length rows)) as [-> |N]; cbn [andb].
  - rewrite app_nth2 by (rewrite map_length; lia). rewrite map_length, Nat.sub_diag. cbn [map nth].
    rewrite (nth_overflow (map _ rows)) by (rewrite map_length; lia).
    destruct (Nat.ltb_spec j (length (snd r))).
    + rewrite (nth_indep _ zero (atof [])) by (rewrite map_length; auto). apply map_nth.
    + rewrite nth_overflow by (rewrite map_length; lia). destruct j; reflexivity.
  - destruct (Nat.ltb_spec i (length rows)).
    + rewrite app_nth1 by (rewrite map_length; lia). reflexivity.
    + rewrite (nth_overflow (_ ++ _)) by (rewrite app_length, map_length; cbn [length map]; lia).
      rewrite (nth_overflow (map _ rows)) by (rewrite map_length; lia). reflexivity.
Qed.

(** The header line. *)
Lemma header_step l corner hdr n : cn = true -> written l (row_words rn corner hdr) -> hdr <> [] -> zlen l < 65000 ->
  Forall (fun w => zlen w < 1024) hdr ->
  exists s, table_line zero undef atof rn cn l (table_start zero rn cn) = Ret s /\ inv hdr n [] s.
Proof.
  intros Hcn W Hh Hl F.
  assert (Ok0: cells_ok cn 1 (mkCells [[zero]] (if cn then [[]] else []) 1)).
  { split; [|split; [cbn [c_cols]; lia|intros ->; reflexivity]]. split; [reflexivity|].
    intros [|[|i]] r E; cbn in E; inversion E; reflexivity. }
  destruct (names_full zero undef atof rn cn 1 _ l corner hdr Hcn ltac:(lia) W Hh Hl F Ok0) as (c' & E & Ok & C & N).
  unfold table_line, table_start. cbn [t_row t_ncol t_rowbuf t_cells t_rows t_line]. cbn [Z.eqb andb].
  replace (cn && true) with true by (rewrite Hcn; reflexivity). rewrite E. cbn [bind fst snd].
  replace (negb cn || (0 >? 0)) with false by (rewrite Hcn; reflexivity). cbn [bind].
  cbv iota beta. change ((0 >? 0) && negb (zlen hdr =? zlen hdr)) with false. cbv iota.
  change (chk_int (0 + 1)) with (@Ret Z 1). cbn [bind].
  eexists. split; [reflexivity|]. constructor; cbn [t_row t_ncol t_rowbuf t_cells t_rows t_line].
  - reflexivity.
  - lia.
  - cbn [Z.eqb]. rewrite Hcn. reflexivity.
  - rewrite Hcn. reflexivity.
  - exact Ok.
  - congruence.
  - intros i j. rewrite C. cbn [c_data]. unfold cell2, table_data. destruct i as [|[|i]], j as [|[|j]]; reflexivity.
  - intros j. rewrite N, Hcn. cbn [c_names]. destruct (Nat.ltb_spec j (length hdr)); auto. rewrite (nth_overflow hdr) by lia.
    destruct j as [|[|j]]; reflexivity.
  - congruence.
  - intros ->. reflexivity.
  - intros ->. intros [|[|i]]; reflexivity.
  - intros ->. reflexivity.
Qed.

(** A further row: accepted if it has as many values as the first. *)
Lemma row_step hdr n rows s l name vals : inv hdr n rows s -> (cn = true -> hdr <> []) -> (0 < n)%nat ->
  written l (row_words rn name vals) -> vals <> [] -> zlen l < 65000 -> zlen name < 1024 -> zlen rows < 500000000 ->
  (rows = [] -> length vals = n) ->
  (length vals = n -> exists s', table_line zero undef atof rn cn l s = Ret s' /\ inv hdr n (rows ++ [(name, vals)]) s') /\
  (length vals <> n -> table_line zero undef atof rn cn l s = Exit).
Proof.
  intros I Hh Hn W Hv Hl Hname Hrows Hfirst. destruct I as [I1 I2 I3 I4 I5 I6 I7 I8 I9 I10 I11 I12].
  pose proof (zlen_nonneg rows) as Zr.
  destruct (data_full zero undef atof rn cn (t_rowbuf s) (t_row s) (t_rows s) (t_cells s) l name vals ltac:(lia) W Hv Hl Hname I5 I10)
    as (rows' & c' & E & Ok & Lt & C & N & N' & Lr & Nr & Rr).
  unfold table_line.
  assert (B: (t_row s =? 0) && cn && (t_ncol s =? 0) = false).
  { destruct cn eqn:Ec; [|rewrite andb_false_r; reflexivity]. rewrite andb_true_r, I3. destruct (Z.eqb_spec (t_row s) 0); cbn [andb]; auto.
    specialize (Hh eq_refl). destruct hdr; [congruence|]. unfold zlen. cbn [length]. lia. }
  rewrite B, E. cbn [bind].
  assert (B2: negb cn || (t_line s >? 0) = true).
  { destruct cn; auto. rewrite I4. cbn [negb orb]. lia. }
  rewrite B2. rewrite chk_int_ok by (unfold in_int; lia). cbn [bind].
  replace (t_row s + 1 >? 0) with true by lia. cbn [andb].
  assert (NC: (if t_row s =? 0 then zlen vals else t_ncol s) = if t_row s =? 0 then zlen vals else Z.of_nat n).
  { rewrite I3. destruct (t_row s =? 0); reflexivity. }
  rewrite NC.
  assert (Lv: zlen vals = Z.of_nat (length vals)) by reflexivity.
  assert (Z0: t_row s = 0 -> length vals = n) by (intros Q; apply Hfirst; destruct rows; auto; rewrite I1 in Q; unfold zlen in Q; cbn in Q; lia).
  split.
  2:{ intros Ne. destruct (Z.eqb_spec (t_row s) 0) as [Q|Q]; [apply Z0 in Q; congruence|].
      replace (zlen vals =? Z.of_nat n) with false by lia. reflexivity. }
  intros El. assert (NC2: (if t_row s =? 0 then zlen vals else Z.of_nat n) = Z.of_nat n) by (destruct (t_row s =? 0); lia). rewrite NC2.
  replace (zlen vals =? Z.of_nat n) with true by lia. cbn [negb].
  rewrite chk_int_ok by (unfold in_int; rewrite I4; destruct cn; lia). cbn [bind].
  assert (Zs: zlen (rows ++ [(name, vals)]) = zlen rows + 1) by (unfold zlen; rewrite app_length; cbn [length]; lia).
  assert (Dat: forall i j, cell (c_data c') i j = cell (table_data (rows ++ [(name, vals)])) i j).
  { intros i j. rewrite C, cell_snoc. cbn [snd]. replace (Z.to_nat (t_row s)) with (length rows) by (rewrite I1; unfold zlen; lia).
    destruct ((i =? length rows)%nat && (j <? length vals)%nat); auto. }
  assert (Nm: forall j, nth j (c_names c') [] = nth j (if cn then hdr else []) []) by (intros j; rewrite N; apply I8).
  assert (Nn: cn = false -> c_names c' = []) by (intros Q; rewrite N', I9 by auto; reflexivity).
  assert (Rw: rn = true -> forall i, nth i rows' [] = nth i (map fst (rows ++ [(name, vals)])) []).
  { intros Q i. rewrite Rr, map_app by auto. replace (Z.to_nat (t_row s)) with (length (map fst rows)) by (rewrite map_length, I1; unfold zlen; lia).
    destruct (Nat.eqb_spec i (length (map fst rows))) as [-> |Ni].
    - rewrite app_nth2, Nat.sub_diag by lia. reflexivity.
    - rewrite I11 by auto. destruct (Nat.ltb_spec i (length (map fst rows))).
      + rewrite app_nth1 by auto. reflexivity.
      + rewrite !nth_overflow; auto; rewrite ?app_length; cbn [map length fst]; lia. }
  assert (Ln: t_line s + 1 = zlen (rows ++ [(name, vals)]) + (if cn then 1 else 0)) by (rewrite Zs, I4; lia).
  destruct (Z.geb_spec (t_row s + 1) (t_rowbuf s)) as [G|G].
  - rewrite chk_int_ok by (unfold in_int; lia). cbn [bind].
    destruct Ok as (Sh & Hc & Hnm).
    destruct (re_alloc_2D_spec zero undef (c_data c') _ _ (Z.to_nat (t_rowbuf s * 2)) (Z.to_nat (c_cols c')) Sh) as (d' & Ed & Rz); [lia|lia|].
    rewrite Ed. cbn [bind].
    assert (RW: exists r2, (if rn then re_alloc [] [] rows' (Z.to_nat (t_rowbuf s)) (Z.to_nat (t_rowbuf s * 2)) else Ret rows') = Ret r2 /\
                 (rn = true -> zlen r2 = t_rowbuf s * 2 /\ forall i, nth i r2 [] = nth i rows' []) /\ (rn = false -> r2 = rows')).
    { destruct rn eqn:Er.
      - destruct (grow_names rows' (Z.to_nat (t_rowbuf s)) (Z.to_nat (t_rowbuf s * 2))) as (l' & El' & Ll & Nl); try lia.
        { specialize (I10 eq_refl). unfold zlen in *. lia. }
        exists l'. split; [exact El'|]. split; [intros _; split; [unfold zlen; lia|exact Nl]|discriminate].
      - exists rows'. split; [auto|]. split; [discriminate|auto]. }
    destruct RW as (r2 & Er2 & R2a & R2b). rewrite Er2. cbn [bind]. eexists. split; [reflexivity|].
    constructor; cbn [t_row t_ncol t_rowbuf t_cells t_rows t_line c_data c_names c_cols]; auto; try lia.
    + replace (t_row s + 1 =? 0) with false by lia. reflexivity.
    + split; [apply Rz|]. cbn [c_cols c_names]. split; auto.
    + intros i j. rewrite <- Dat. eapply grow_same; eauto; lia.
    + intros Q i. destruct (R2a Q) as [_ R2]. rewrite R2. auto.
    + intros Q. rewrite R2b, Nr, I12 by auto. reflexivity.
  - eexists. split; [reflexivity|].
    constructor; cbn [t_row t_ncol t_rowbuf t_cells t_rows t_line]; auto; try lia.
    + replace (t_row s + 1 =? 0) with false by lia. reflexivity.
    + intros Q. rewrite Nr, I12 by auto. reflexivity.
Qed.

(** One line of text. *)
Lemma line_step l ws cr t : written l ws -> zlen l < 65000 -> cr = [] \/ cr = [13] ->
  exists line, fgets 65536 (l ++ cr ++ 10 :: t) = Some (line, t) /\ take_until [13; 10] line = l.
Proof.
  intros W Hl Hcr. pose proof (written_chars _ _ W) as Ch.
  exists ((l ++ cr) ++ [10]). split.
  - rewrite app_assoc. apply fgets_newline.
    + apply Forall_app. split; [eapply Forall_impl; [|exact Ch]; cbn beta; lia|]. destruct Hcr as [-> | ->]; repeat constructor; discriminate.
    + unfold zlen in *. rewrite app_length. destruct Hcr as [-> | ->]; cbn [length]; lia.
  - rewrite <- app_assoc. assert (F: Forall (fun c => memz c [13; 10] = false) l).
    { eapply Forall_impl; [|exact Ch]. intros c [A B]. apply memz_false. intros [<-|[<-|[]]]; auto. }
    destruct Hcr as [-> | ->]; cbn [app]; apply take_until_app; auto.
Qed.

(** What the lines of a table show. *)
Definition row_lines (rows : list (list Z * list (list Z))) : list (list (list Z)) := map (fun r => row_words rn (fst r) (snd r)) rows.

Lemma rows_loop hdr n : (cn = true -> hdr <> []) -> (0 < n)%nat -> forall rows tail text done s fuel,
  text_of text (row_lines rows ++ tail) -> rows_ok n rows -> inv hdr n done s -> zlen done + zlen rows < 500000000 -> (length text <= fuel)%nat ->
  exists s' text' fuel', table_loop zero undef atof rn cn fuel text s = table_loop zero undef atof rn cn fuel' text' s' /\
    inv hdr n (done ++ rows) s' /\ text_of text' tail /\ (length text' <= fuel')%nat.
Proof.
  intros Hh Hn. induction rows as [|[name vals] rows IH]; intros tail text done s fuel T R I B Hf.
  - exists s, text, fuel. rewrite app_nil_r. auto.
  - cbn [row_lines map app] in T. inversion T as [|l ws cr t rest W Hl Hcr T' Et Er]; subst.
    pose proof (Forall_inv R) as [Rl Rn]. cbn [fst snd] in Rl, Rn. pose proof (Forall_inv_tail R) as Rt.
    destruct (line_step l _ cr t W Hl Hcr) as (line & E1 & E2).
    destruct fuel as [|fuel]; [rewrite !app_length in Hf; cbn [length] in Hf; lia|]. cbn [table_loop]. rewrite E1, E2.
    assert (Hv: vals <> []) by (intros ->; cbn in Rl; lia).
    assert (Zc: zlen ((name, vals) :: rows) = 1 + zlen rows) by (unfold zlen; cbn [length]; lia). pose proof (zlen_nonneg rows). pose proof (zlen_nonneg done).
    destruct (row_step hdr n done s l name vals I Hh Hn W Hv Hl Rn ltac:(lia) ltac:(auto)) as [Q _].
    destruct (Q Rl) as (s' & E3 & I'). rewrite E3. cbn [bind].
    destruct (IH tail t (done ++ [(name, vals)]) s' fuel) as (s2 & t2 & f2 & E4 & I2 & T2 & L2); auto.
    + assert (Z1: zlen (done ++ [(name, vals)]) = zlen done + 1) by (unfold zlen; rewrite app_length; cbn [length]; lia). lia.
    + rewrite !app_length in Hf. cbn [length] in Hf. lia.
    + exists s2, t2, f2. rewrite <- app_assoc in I2. auto.
Qed.

(** From the start to the rows. *)
Definition header_lines (corner : list Z) (hdr : list (list Z)) : list (list (list Z)) := if cn then [row_words rn corner hdr] else [].

Lemma start_loop corner hdr n tail text : (cn = true -> hdr <> []) -> Forall (fun w => zlen w < 1024) hdr ->
  text_of text (header_lines corner hdr ++ tail) ->
  exists s' text' fuel', table_loop zero undef atof rn cn (length text) text (table_start zero rn cn) = table_loop zero undef atof rn cn fuel' text' s' /\
    inv hdr n [] s' /\ text_of text' tail /\ (length text' <= fuel')%nat.
Proof.
  intros Hh F T. unfold header_lines in T. destruct cn eqn:Ec.
  - cbn [app] in T. inversion T as [|l ws cr t rest W Hl Hcr T' Et Er]; subst. rewrite <- Ec.
    destruct (line_step l _ cr t W Hl Hcr) as (line & E1 & E2).
    destruct (header_step l corner hdr n Ec W ltac:(auto) Hl F) as (s & E3 & I).
    exists s, t, (length (l ++ cr ++ t)). split.
    + replace (length (l ++ cr ++ 10 :: t)) with (S (length (l ++ cr ++ t))) by (rewrite !app_length; cbn [length]; lia).
      cbn [table_loop]. rewrite E1, E2, E3. reflexivity.
    + split; [auto|]. split; [auto|]. rewrite !app_length. lia.
  - rewrite <- Ec. exists (table_start zero rn cn), text, (length text). split; [reflexivity|]. split; [|auto].
    constructor; cbn [table_start t_row t_ncol t_rowbuf t_cells t_rows t_line c_data c_names c_cols]; try (rewrite Ec; reflexivity); try lia.
    + reflexivity.
    + split; [|split; [cbn [c_cols]; lia|intros Q; congruence]]. split; [reflexivity|].
      intros [|[|i]] r E; cbn in E; inversion E; reflexivity.
    + congruence.
    + intros i j. unfold cell2, table_data. destruct i as [|[|i]], j as [|[|j]]; reflexivity.
    + intros ->. reflexivity.
    + intros ->. intros [|[|i]]; reflexivity.
    + intros ->. reflexivity.
Qed.

(** * The result *)
Lemma data_ext (a b : list (list D)) n1 n2 : shape2 a n1 n2 -> shape2 b n1 n2 ->
  (forall i j, (i < n1)%nat -> (j < n2)%nat -> cell a i j = cell b i j) -> a = b.
Proof.
  intros [La Sa] [Lb Sb] C. apply (nth_ext a b [] []); [congruence|]. intros i Hi.
  assert (A1: length (nth i a []) = n2) by (apply (Sa i); apply nth_error_nth_some; auto).
  assert (B1: length (nth i b []) = n2) by (apply (Sb i); apply nth_error_nth_some; lia).
  apply (nth_ext _ _ zero zero); [congruence|]. intros j Hj. apply C; lia.
Qed.

Lemma names_ext (a b : list (list Z)) : length a = length b -> (forall i, (i < length a)%nat -> nth i a [] = nth i b []) -> a = b.
Proof. apply nth_ext. Qed.

Lemma table_shape n rows : rows_ok n rows -> shape2 (table_data rows) (length rows) n.
Proof.
  intros R. unfold table_data. split; [apply map_length|]. intros i r E. apply nth_error_In, in_map_iff in E as (x & <- & Hx).
  rewrite map_length. eapply Forall_forall in R; [apply R|auto].
Qed.

Definition fit (n : nat) (hdr : list (list Z)) : list (list Z) := firstn n hdr ++ repeat [] (n - length hdr).

Lemma fit_nth n hdr j : (j < n)%nat -> nth j (fit n hdr) [] = nth j hdr [].
Proof.
  intros H. unfold fit. destruct (Nat.ltb_spec j (length hdr)).
  - rewrite app_nth1 by (rewrite firstn_length; lia). apply nth_firstn; auto.
  - rewrite app_nth2 by (rewrite firstn_length; lia). rewrite nth_repeat, nth_overflow by lia. reflexivity.
Qed.

Lemma shrink_names (l : list (list Z)) o n : length l = o -> (0 < n <= o)%nat -> re_alloc [] [] l o n = Ret (firstn n l).
Proof. intros L P. rewrite re_alloc_eq by (auto; lia). replace (n - o)%nat with 0%nat by lia. cbn [repeat]. rewrite app_nil_r. reflexivity. Qed.

Lemma read_regular corner hdr n rows text : (cn = true -> hdr <> []) -> Forall (fun w => zlen w < 1024) hdr ->
  (0 < n)%nat -> rows <> [] -> rows_ok n rows -> zlen rows < 500000000 ->
  text_of text (header_lines corner hdr ++ row_lines rows) ->
  read_table zero undef atof rn cn (Some text) =
    Ret (mkTable (zlen rows) (Z.of_nat n) (table_data rows) (if rn then map fst rows else []) (if cn then fit n hdr else [])).
Proof.
  intros Hh F Hn Hne R B T. unfold read_table.
  destruct (start_loop corner hdr n (row_lines rows) text Hh F T) as (s1 & t1 & f1 & E1 & I1 & T1 & L1). rewrite E1.
  rewrite <- (app_nil_r (row_lines rows)) in T1.
  destruct (rows_loop hdr n Hh Hn rows [] t1 [] s1 f1 T1 R I1 ltac:(unfold zlen in *; cbn; lia) L1) as (s & t & f & E2 & I & T2 & L2). rewrite E2.
  inversion T2; subst. replace (table_loop zero undef atof rn cn f [] s) with (Ret s) by (destruct f; reflexivity). cbn [bind app] in *.
  destruct I as [J1 J2 J3 J4 J5 J6 J7 J8 J9 J10 J11 J12]. specialize (J6 Hne).
  assert (P: 0 < t_row s) by (rewrite J1; destruct rows; [congruence|unfold zlen; cbn [length]; lia]).
  replace (t_row s =? 0) with false in J3 by lia.
  replace (negb (t_row s =? t_rowbuf s)) with true by lia. cbn [orb].
  destruct J5 as (Sh & Hc & Hnm).
  destruct (re_alloc_2D_spec zero undef (c_data (t_cells s)) _ _ (Z.to_nat (t_row s)) (Z.to_nat (c_cols (t_cells s))) Sh) as (d1 & Ed1 & Sd1 & Cd1); [lia|lia|].
  rewrite Ed1. cbn [bind].
  destruct (re_alloc_2D_spec zero undef d1 _ _ (Z.to_nat (t_row s)) (Z.to_nat (t_ncol s)) Sd1) as (d2 & Ed2 & Sd2 & Cd2); [lia|lia|].
  rewrite Ed2. cbn [bind].
  assert (ED: d2 = table_data rows).
  { apply (data_ext _ _ (length rows) n).
    - replace (length rows) with (Z.to_nat (t_row s)) by (rewrite J1; unfold zlen; lia). replace n with (Z.to_nat (t_ncol s)) by lia. exact Sd2.
    - apply table_shape; auto.
    - intros i j Hi Hj. rewrite <- J7. assert (Z.to_nat (t_row s) = length rows) by (rewrite J1; unfold zlen; lia).
      rewrite Cd2 by lia. replace (i <? Z.to_nat (t_row s))%nat with true by lia. replace (j <? Z.to_nat (c_cols (t_cells s)))%nat with true by lia. cbn [andb].
      rewrite Cd1 by lia. replace (i <? Z.to_nat (t_rowbuf s))%nat with true by lia. replace (j <? Z.to_nat (c_cols (t_cells s)))%nat with true by lia. reflexivity. }
  assert (ER: (if rn then re_alloc [] [] (t_rows s) (Z.to_nat (t_rowbuf s)) (Z.to_nat (t_row s)) else Ret (t_rows s)) = Ret (if rn then map fst rows else [])).
  { destruct rn eqn:Er; [|rewrite J12 by auto; reflexivity]. specialize (J10 eq_refl). specialize (J11 eq_refl).
    rewrite shrink_names by (unfold zlen in *; lia). f_equal. apply names_ext.
    - rewrite firstn_length, map_length. rewrite J1. unfold zlen in *. lia.
    - intros i Hi. rewrite firstn_length in Hi. rewrite nth_firstn by lia. apply J11. }
  assert (EC: (if cn then re_alloc [] [] (c_names (t_cells s)) (Z.to_nat (c_cols (t_cells s))) (Z.to_nat (t_ncol s)) else Ret (c_names (t_cells s)))
              = Ret (if cn then fit n hdr else [])).
  { destruct cn eqn:Ec; [|rewrite J9 by auto; reflexivity]. specialize (Hnm eq_refl).
    rewrite shrink_names by (unfold zlen in *; lia). f_equal. apply names_ext.
    - unfold fit. rewrite app_length, repeat_length, !firstn_length. unfold zlen in *. lia.
    - intros i Hi. rewrite firstn_length in Hi. rewrite nth_firstn, fit_nth by lia. apply J8. }
  rewrite ER. cbn [bind]. rewrite EC. cbn [bind]. rewrite ED, J1, J3. reflexivity.
Qed.

Lemma read_irregular corner hdr n rows name vals more text : (cn = true -> hdr <> []) -> Forall (fun w => zlen w < 1024) hdr ->
  (0 < n)%nat -> rows <> [] -> rows_ok n rows -> zlen rows < 400000000 ->
  length vals <> n -> vals <> [] -> zlen name < 1024 ->
  text_of text (header_lines corner hdr ++ row_lines rows ++ row_words rn name vals :: more) ->
  read_table zero undef atof rn cn (Some text) = Exit.
Proof.
  intros Hh F Hn Hne R B Hl Hv Hnm T. unfold read_table.
  destruct (start_loop corner hdr n _ text Hh F T) as (s1 & t1 & f1 & E1 & I1 & T1 & L1). rewrite E1.
  destruct (rows_loop hdr n Hh Hn rows _ t1 [] s1 f1 T1 R I1 ltac:(unfold zlen in *; cbn; lia) L1) as (s & t & f & E2 & I & T2 & L2). rewrite E2.
  inversion T2 as [|l ws cr t' rest W Hll Hcr T' Et Er]; subst.
  destruct (line_step l _ cr t' W Hll Hcr) as (line & E3 & E4).
  destruct f as [|f]; [rewrite !app_length in L2; cbn [length] in L2; lia|]. cbn [table_loop]. rewrite E3, E4.
  destruct (row_step hdr n _ s l name vals I Hh Hn W Hv Hll Hnm ltac:(cbn [app]; lia) ltac:(cbn [app]; congruence)) as [_ Q].
  rewrite Q by auto. reflexivity.
Qed.
End P2.
