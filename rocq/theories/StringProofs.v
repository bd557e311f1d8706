From Verif Require Import Base BaseFacts CStr AllocModel AllocSpec AllocProofs StringModel StringSpec.


Lemma cstr_of_app s rest : chars_ok s -> cstr_of (s ++ 0 :: rest) = Some s.
Proof.
  induction 1 as [|c s N _ IH]; cbn; auto.
  destruct (Z.eqb_spec c 0); [congruence|]. now rewrite IH.
Qed.

Lemma cstr_of_inv buf s : cstr_of buf = Some s -> chars_ok s /\ holds buf s.
Proof.
  revert s; induction buf as [|c t IH]; intros s; cbn; [discriminate|].
  destruct (Z.eqb_spec c 0) as [->|N].
  - intros H; inversion H; split; [constructor|]. exists t; reflexivity.
  - destruct (cstr_of t) as [s'|]; [|discriminate]. intros H; inversion H; subst.
    destruct (IH s' eq_refl) as (C & r & ->). split; [constructor; auto|]. exists r; reflexivity.
Qed.

Lemma holds_cstr buf s : chars_ok s -> (cstr_of buf = Some s <-> holds buf s).
Proof.
  intros C; split; [apply cstr_of_inv|]. intros (r & ->). now apply cstr_of_app.
Qed.

Lemma strncpy_short dst src size : (length src < size)%nat -> (size <= length dst)%nat ->
  strncpy dst src size = Ret (src ++ repeat 0 (size - length src) ++ skipn size dst).
Proof.
  intros L D; unfold strncpy. replace (size <=? length dst)%nat with true by lia.
  rewrite firstn_all2 by lia. reflexivity.
Qed.

Lemma repeat_split {A} (x : A) n : (0 < n)%nat -> repeat x n = x :: repeat x (n - 1).
Proof. destruct n; [lia|]. intros _; cbn. now rewrite Nat.sub_0_r. Qed.

Lemma get_at_app1 {A} (l1 l2 : list A) i : i < zlen l1 -> get_at (l1 ++ l2) i = get_at l1 i.
Proof.
  unfold get_at, zlen; intros H. destruct (i <? 0) eqn:E; auto.
  apply nth_error_app1; lia.
Qed.
Lemma get_at_app2 {A} (l1 l2 : list A) i : zlen l1 <= i -> get_at (l1 ++ l2) i = get_at l2 (i - zlen l1).
Proof.
  unfold get_at, zlen; intros H. replace (i <? 0) with false by lia.
  replace (i - Z.of_nat (length l1) <? 0) with false by lia.
  rewrite nth_error_app2 by lia. f_equal; lia.
Qed.

Lemma copy_string_fits dst size src : (length src < size)%nat -> (size <= length dst)%nat ->
  copy_string_buf dst size src = Ret (src ++ repeat 0 (size - length src) ++ skipn size dst).
Proof.
  intros L D; unfold copy_string_buf; rewrite strncpy_short by auto; cbn [bind].
  rewrite get_at_app2 by (unfold zlen; lia).
  rewrite get_at_app1 by (unfold zlen; rewrite repeat_length; lia).
  unfold get_at, zlen. replace (Z.of_nat size - 1 - Z.of_nat (length src) <? 0) with false by lia.
  rewrite (nth_error_nth_some _ _ 0) by (rewrite repeat_length; lia).
  rewrite nth_repeat' by lia. reflexivity.
Qed.

Lemma copy_string_too_long dst size src : chars_ok src ->
  (0 < size)%nat -> (size <= length src)%nat -> (size <= length dst)%nat ->
  copy_string_buf dst size src = Exit.
Proof.
  intros C P L D; unfold copy_string_buf, strncpy.
  replace (size <=? length dst)%nat with true by lia; cbn [bind].
  rewrite get_at_app1 by (unfold zlen; rewrite firstn_length; lia).
  unfold get_at. replace (Z.of_nat size - 1 <? 0) with false by lia.
  replace (Z.to_nat (Z.of_nat size - 1)) with (size - 1)%nat by lia.
  rewrite (nth_error_nth_some _ _ 0) by (rewrite firstn_length; lia).
  rewrite nth_firstn by lia. cbn [of_option bind].
  assert (nth (size - 1) src 0 <> 0) as N.
  { unfold chars_ok in C. rewrite Forall_forall in C. apply C, nth_In. lia. }
  destruct (Z.eqb_spec (nth (size - 1) src 0) 0); [congruence|]. reflexivity.
Qed.

(** Everything copy_string can do. *)
Lemma copy_string_spec dst size src : chars_ok src -> (0 < size)%nat -> length dst = size ->
  (exists dst', copy_string_buf dst size src = Ret dst' /\ length dst' = size /\
     holds dst' src /\ (length src < size)%nat) \/
  (copy_string_buf dst size src = Exit /\ (size <= length src)%nat).
Proof.
  intros C P D. destruct (Nat.ltb_spec (length src) size) as [L|L].
  - left; eexists; split; [apply copy_string_fits; lia|].
    rewrite !app_length, repeat_length, skipn_length. split; [lia|]. split; auto.
    rewrite (repeat_split 0 (size - length src)) by lia. eexists; reflexivity.
  - right; split; auto. apply copy_string_too_long; auto; lia.
Qed.

(** The string-level abbreviation of CStr agrees with the buffer-level function. *)
Lemma copy_string_abbrev dst size src : chars_ok src -> (0 < size)%nat -> length dst = size ->
  copy_string (Z.of_nat size) src =
  match copy_string_buf dst size src with Ret d => of_option (cstr_of d) | UB => UB | Exit => Exit end.
Proof.
  intros C P D; unfold copy_string, zlen.
  destruct (copy_string_spec dst size src C P D) as [(d & -> & _ & H & L)|(-> & L)].
  - apply holds_cstr in H; auto. rewrite H.
    destruct (Z.of_nat (length src) >=? Z.of_nat size) eqn:E; auto; lia.
  - destruct (Z.of_nat (length src) >=? Z.of_nat size) eqn:E; auto; lia.
Qed.

Lemma snprintf_buf_spec dst size text : length dst = size ->
  (exists dst', snprintf_buf dst size text = Ret dst' /\ length dst' = size /\
     holds dst' text /\ (length text < size)%nat) \/
  (snprintf_buf dst size text = Exit /\ (size <= length text)%nat).
Proof.
  intros D; unfold snprintf_buf. destruct (Nat.leb_spec size (length text)) as [L|L].
  - right. rewrite D, Nat.leb_refl. auto.
  - left. replace (length text + 1 <=? length dst)%nat with true by lia.
    eexists; split; [reflexivity|]. rewrite !app_length, skipn_length. cbn [length].
    split; [lia|]. split; auto. eexists; reflexivity.
Qed.

Lemma concat2_spec dst size s1 s2 delim : length dst = size ->
  (exists dst', concat_string_2 dst size s1 s2 delim = Ret dst' /\ length dst' = size /\
     holds dst' (s1 ++ delim ++ s2) /\ (length (s1 ++ delim ++ s2) < size)%nat) \/
  (concat_string_2 dst size s1 s2 delim = Exit /\ (size <= length (s1 ++ delim ++ s2))%nat).
Proof. exact (snprintf_buf_spec dst size (s1 ++ delim ++ s2)). Qed.

Lemma concat3_spec dst size s1 s2 s3 delim : length dst = size ->
  (exists dst', concat_string_3 dst size s1 s2 s3 delim = Ret dst' /\ length dst' = size /\
     holds dst' (s1 ++ delim ++ s2 ++ delim ++ s3) /\
     (length (s1 ++ delim ++ s2 ++ delim ++ s3) < size)%nat) \/
  (concat_string_3 dst size s1 s2 s3 delim = Exit /\
   (size <= length (s1 ++ delim ++ s2 ++ delim ++ s3))%nat).
Proof. exact (snprintf_buf_spec dst size (s1 ++ delim ++ s2 ++ delim ++ s3)). Qed.

(** ** strstr *)
Lemma prefixb_spec p l : prefixb p l = true <-> exists post, l = p ++ post.
Proof.
  revert l; induction p as [|a p IH]; intros l; cbn.
  - split; eauto.
  - destruct l as [|b l]; [split; [discriminate|intros (x & H); discriminate]|].
    rewrite andb_true_iff, IH, Z.eqb_eq. split.
    + intros [-> (x & ->)]; eauto.
    + intros (x & H); inversion H; subst; eauto.
Qed.

Lemma occurs_0 search l : occurs_at search l 0 <-> exists post, l = search ++ post.
Proof.
  split.
  - intros (pre & post & -> & L). destruct pre; [|discriminate]. cbn; eauto.
  - intros (post & ->). exists [], post; auto.
Qed.

Lemma occurs_S search c l i : occurs_at search (c :: l) (S i) <-> occurs_at search l i.
Proof.
  split.
  - intros (pre & post & E & L). destruct pre as [|x pre]; [discriminate|].
    inversion E; subst. exists pre, post; split; auto. 
  - intros (pre & post & -> & L). exists (c :: pre), post; cbn; auto.
Qed.

Lemma strstr_spec search : forall l,
  match strstr l search with
  | Some i => first_at search l i
  | None => forall i, ~ occurs_at search l i
  end.
Proof.
  induction l as [|c l IH]; cbn [strstr].
  - destruct (prefixb search []) eqn:E.
    + split; [apply occurs_0, prefixb_spec, E|lia].
    + intros i (pre & post & Q & L). destruct pre; [|discriminate].
      destruct search; [discriminate|discriminate].
  - destruct (prefixb search (c :: l)) eqn:E.
    + split; [apply occurs_0, prefixb_spec, E|lia].
    + assert (~ occurs_at search (c :: l) 0) as N.
      { rewrite occurs_0, <- prefixb_spec. congruence. }
      destruct (strstr l search) as [i|].
      * destruct IH as [O F]; split; [apply occurs_S; auto|].
        intros [|j] J; auto. rewrite occurs_S. apply F; lia.
      * intros [|i]; auto. rewrite occurs_S. apply IH.
Qed.

Lemma occurs_split search l i : occurs_at search l i ->
  l = firstn i l ++ search ++ skipn (i + length search) l /\ (i + length search <= length l)%nat.
Proof.
  intros (pre & post & -> & <-). rewrite !app_length. split; [|lia].
  rewrite firstn_app, Nat.sub_diag, firstn_all, firstn_O, app_nil_r. f_equal.
  f_equal. rewrite app_assoc, skipn_app, app_length, Nat.sub_diag, skipn_O, skipn_all2; auto.
  rewrite app_length; lia.
Qed.

Lemma first_at_unique search l i j : first_at search l i -> first_at search l j -> i = j.
Proof.
  intros [Oi Fi] [Oj Fj]. destruct (Nat.lt_trichotomy i j) as [L|[E|L]]; auto.
  - exfalso; exact (Fj i L Oi).
  - exfalso; exact (Fi j L Oj).
Qed.

Lemma chars_ok_app a b : chars_ok (a ++ b) <-> chars_ok a /\ chars_ok b.
Proof. apply Forall_app. Qed.

Lemma replace_string_match buf source search replace len i :
  cstr_of buf = Some source -> chars_ok replace -> zlen buf = len -> len < 2 ^ 31 ->
  zlen replace < 2 ^ 31 ->
  first_at search source i ->
  let new := firstn i source ++ replace ++ skipn (i + length search) source in
  (zlen new < len -> exists buf', replace_string buf search replace len = Ret buf' /\
     zlen buf' = len /\ cstr_of buf' = Some new /\
     skipn (length new + 1) buf' = skipn (length new + 1) buf) /\
  (len <= zlen new -> replace_string buf search replace len = Exit).
Proof.
  intros C R B LB LR F new.
  destruct (cstr_of_inv _ _ C) as (CS & HB).
  assert (zlen source < len) as LS.
  { destruct HB as (rest & HB). rewrite <- B, HB. unfold zlen. rewrite app_length; cbn [length]. lia. }
  unfold replace_string; rewrite C; cbn [of_option bind].
  pose proof (strstr_spec search source) as S.
  destruct (strstr source search) as [k|]; [|exfalso; exact (S i (proj1 F))].
  assert (k = i) as -> by (eapply first_at_unique; eauto).
  destruct (occurs_split _ _ _ (proj1 F)) as (SP & SL).
  assert (zlen new = zlen source - zlen search + zlen replace) as LN.
  { unfold new, zlen. rewrite !app_length, firstn_length, skipn_length. lia. }
  assert ((zlen source - zlen search + zlen replace) mod 2 ^ 64 = zlen new) as ->.
  { rewrite LN. apply Z.mod_small. unfold zlen in *.
    change (2 ^ 64) with 18446744073709551616. change (2 ^ 31) with 2147483648 in *. lia. }
  split; intros Q.
  - pose proof (zlen_nonneg new). replace (zlen new >=? len) with false by lia. fold new.
    replace (zlen new + 1 >? 8 * len) with false by lia.
    replace (zlen new + 1 >? zlen buf) with false by lia.
    eexists; split; [reflexivity|].
    assert (chars_ok new) as CN.
    { unfold new. apply chars_ok_app; split; [|apply chars_ok_app; split; auto].
      - rewrite SP in CS. apply chars_ok_app in CS. apply CS.
      - rewrite SP in CS. apply chars_ok_app in CS. destruct CS as [_ CS].
        apply chars_ok_app in CS. apply CS. }
    split; [unfold zlen in *; rewrite !app_length, skipn_length; cbn [length]; lia|].
    split; [change ([0] ++ skipn (length new + 1) buf) with (0 :: skipn (length new + 1) buf);
            apply cstr_of_app; auto|].
    rewrite skipn_app, skipn_all2 by lia. cbn [app].
    replace (length new + 1 - length new)%nat with 1%nat by lia. reflexivity.
  - replace (zlen new >=? len) with true by lia. reflexivity.
Qed.

Lemma replace_string_nomatch buf source search replace len :
  cstr_of buf = Some source -> (forall i, ~ occurs_at search source i) ->
  replace_string buf search replace len =
  if (zlen source - zlen search + zlen replace) mod 2 ^ 64 >=? len then Exit else Ret buf.
Proof.
  intros C N; unfold replace_string; rewrite C; cbn [of_option bind].
  destruct (_ >=? _); auto.
  pose proof (strstr_spec search source) as S. destruct (strstr source search); auto.
  exfalso; exact (N n (proj1 S)).
Qed.

Lemma overwrite_spec buf source offset replace n :
  cstr_of buf = Some source -> chars_ok replace ->
  (n <= length replace)%nat -> (offset + n <= length source)%nat ->
  exists buf', overwrite_string_part buf offset replace n = Ret buf' /\ length buf' = length buf /\
    cstr_of buf' = Some (firstn offset source ++ firstn n replace ++ skipn (offset + n) source).
Proof.
  intros C R L1 L2; unfold overwrite_string_part; rewrite C; cbn [of_option bind].
  replace (length replace <? n)%nat with false by lia.
  replace (length source <? offset + n)%nat with false by lia.
  eexists; split; [reflexivity|].
  destruct (cstr_of_inv _ _ C) as (CS & rest & ->).
  split.
  { rewrite !app_length, !firstn_length, skipn_length, !app_length; cbn [length]; lia. }
  rewrite firstn_app. replace (offset - length source)%nat with 0%nat by lia.
  rewrite firstn_O, app_nil_r. rewrite skipn_app.
  replace (offset + n - length source)%nat with 0%nat by lia. rewrite skipn_O.
  assert (forall a b c d : list Z, a ++ b ++ c ++ d = (a ++ b ++ c) ++ d) as AS
    by (intros; now rewrite <- !app_assoc).
  rewrite AS, cstr_of_app; auto.
  - apply chars_ok_app; split; [|apply chars_ok_app; split].
    + rewrite <- (firstn_skipn offset source) in CS. apply chars_ok_app in CS. apply CS.
    + rewrite <- (firstn_skipn n replace) in R. apply chars_ok_app in R. apply R.
    + rewrite <- (firstn_skipn (offset + n) source) in CS. apply chars_ok_app in CS. apply CS.
Qed.

Lemma overwrite_rejects buf source offset replace n : cstr_of buf = Some source ->
  (length replace < n)%nat \/ (length source < offset + n)%nat ->
  overwrite_string_part buf offset replace n = Exit.
Proof.
  intros C H; unfold overwrite_string_part; rewrite C; cbn [of_option bind].
  destruct (Nat.ltb_spec (length replace) n); auto.
  replace (length source <? offset + n)%nat with true by lia. auto.
Qed.

(** ** string_t *)
Lemma fill_string_spec src : chars_ok src ->
  (src = [] /\ fill_string src = Exit) \/
  (src <> [] /\ fill_string src = Ret (src ++ [0])).
Proof.
  intros C; unfold fill_string, alloc_string. destruct src as [|c src]; [left; auto|right].
  split; [discriminate|]. set (s := c :: src) in *.
  replace (length s =? 0)%nat with false by (cbn; lia). cbn [bind].
  unfold alloc. rewrite copy_string_fits by (rewrite ?repeat_length; lia).
  replace (length s + 1 - length s)%nat with 1%nat by lia.
  rewrite skipn_all2 by (rewrite repeat_length; lia). reflexivity.
Qed.

(** ** string vectors *)
Definition row_holds (len : nat) (row s : list Z) : Prop :=
  (length s < len)%nat /\ chars_ok s /\ row = s ++ repeat 0 (len - length s).

Definition svec_inv (v : svec) (content : nat -> list Z) : Prop :=
  length (sv_rows v) = sv_number v /\
  forall p, (p < sv_number v)%nat -> row_holds (sv_length v) (nth p (sv_rows v) []) (content p).

Lemma nth_app_zeros (s : list Z) k j : nth j (s ++ repeat 0 k) 0 = nth j s 0.
Proof.
  destruct (Nat.ltb_spec j (length s)).
  - now apply app_nth1.
  - rewrite app_nth2 by lia. rewrite (nth_overflow s) by lia.
    destruct (Nat.ltb_spec (j - length s) k); [now apply nth_repeat'|].
    apply nth_overflow; rewrite repeat_length; auto.
Qed.

Lemma nth_ext0 (a b : list Z) : length a = length b -> (forall j, (j < length a)%nat -> nth j a 0 = nth j b 0) -> a = b.
Proof. intros L H; apply (nth_ext a b 0 0); auto. Qed.

Lemma resize_row o n row row' s : row_holds o row s -> length row' = n -> (o <= n)%nat ->
  (forall j, (j < n)%nat -> nth j row' 0 = if (j <? o)%nat then nth j row 0 else 0) ->
  row_holds n row' s.
Proof.
  intros (L & C & ->) LR LE H; split; [lia|]. split; auto.
  apply nth_ext0.
  - rewrite app_length, repeat_length; lia.
  - intros j J. rewrite H by lia. rewrite !nth_app_zeros.
    destruct (Nat.ltb_spec j o); auto. symmetry; apply nth_overflow; lia.
Qed.

Lemma re_alloc_svec v content number len : svec_inv v content ->
  (sv_number v <= number)%nat -> (sv_length v <= len + 1)%nat -> (0 < number)%nat -> (0 < len)%nat ->
  (forall p, (sv_number v <= p)%nat -> content p = []) ->
  exists v', re_alloc_string_vector v number len = Ret v' /\ sv_number v' = number /\
    sv_length v' = (len + 1)%nat /\ svec_inv v' content.
Proof.
  intros [L I] LN LL N0 L0 E; unfold re_alloc_string_vector.
  replace (number =? 0)%nat with false by lia. replace (len =? 0)%nat with false by lia.
  destruct (re_alloc_2D_spec 0 (-1) (sv_rows v) (sv_number v) (sv_length v) number (len + 1))
    as (rows & -> & SH & CE); try lia.
  { split; auto. intros i r H.
    assert (i < sv_number v)%nat by (rewrite <- L; apply nth_error_Some; congruence).
    destruct (I i ltac:(lia)) as (L1 & _ & Q).
    rewrite (nth_error_nth_some _ i []) in H by lia. inversion H; subst r.
    rewrite Q, app_length, repeat_length; lia. }
  cbn [bind]. eexists; split; [reflexivity|]. split; [auto|]. split; [auto|].
  destruct SH as [SL SR]. split; [auto|]. cbn [sv_number sv_rows sv_length].
  intros p P. assert (length (nth p rows []) = len + 1)%nat as LR.
  { apply (SR p). apply nth_error_nth_some; lia. }
  destruct (Nat.ltb_spec p (sv_number v)) as [B|B].
  - apply (resize_row (sv_length v) (len + 1) (nth p (sv_rows v) [])); auto.
    intros j J. specialize (CE p j P J). unfold cell2 in CE. rewrite CE.
    replace (p <? sv_number v)%nat with true by lia. reflexivity.
  - rewrite E by auto. split; [cbn; lia|]. split; [constructor|].
    apply nth_ext0; [cbn; rewrite repeat_length, LR; lia|].
    intros j J. specialize (CE p j P ltac:(lia)). unfold cell2 in CE. rewrite CE.
    replace (p <? sv_number v)%nat with false by lia. cbn [andb app].
    symmetry; apply nth_repeat'. cbn [length]; lia.
Qed.

Lemma nth_list_set_same {A} (l : list A) n v d : (n < length l)%nat -> nth n (list_set l n v) d = v.
Proof. revert n; induction l as [|x l IH]; intros [|n] H; cbn in *; try lia; auto. apply IH; lia. Qed.
Lemma nth_list_set_other {A} (l : list A) n m v d : n <> m -> nth m (list_set l n v) d = nth m l d.
Proof. revert n m; induction l as [|x l IH]; intros [|n] [|m] H; cbn in *; try lia; auto. Qed.

Definition update (c : nat -> list Z) (p : nat) (s : list Z) : nat -> list Z :=
  fun q => if (p =? q)%nat then s else c q.

Lemma fill_svec_spec v content pos s : svec_inv v content -> chars_ok s ->
  (0 < sv_length v \/ s <> [])%nat ->
  (forall p, (sv_number v <= p)%nat -> content p = []) ->
  exists v', fill_string_vector v pos s = Ret v' /\ svec_inv v' (update content pos s) /\
    (sv_number v <= sv_number v')%nat /\ (pos < sv_number v')%nat /\ (0 < sv_length v')%nat /\
    sv_number v' = Nat.max (sv_number v) (pos + 1).
Proof.
  intros I C NE E; unfold fill_string_vector.
  assert (0 < sv_length v \/ 0 < length s)%nat as NE'.
  { destruct NE as [NE|NE]; auto. right; destruct s; [congruence|cbn; lia]. }
  assert (exists v', (if (sv_number v <=? pos)%nat || (sv_length v <=? length s)%nat
         then re_alloc_string_vector v
                (if (sv_number v <=? pos)%nat then pos + 1 else sv_number v)
                (if (sv_length v <=? length s)%nat then length s else sv_length v)
         else Ret v)%nat = Ret v' /\ svec_inv v' content /\ (length s < sv_length v')%nat /\
         sv_number v' = Nat.max (sv_number v) (pos + 1)) as (v' & -> & I' & LS & NU).
  { destruct ((sv_number v <=? pos)%nat || (sv_length v <=? length s)%nat) eqn:B.
    - destruct (re_alloc_svec v content
        (if (sv_number v <=? pos)%nat then pos + 1 else sv_number v)
        (if (sv_length v <=? length s)%nat then length s else sv_length v)) as (v' & EQ & N' & L' & I');
        auto; try (destruct (Nat.leb_spec (sv_number v) pos), (Nat.leb_spec (sv_length v) (length s)); lia).
      exists v'; split; auto. split; auto. rewrite L', N'.
      destruct (Nat.leb_spec (sv_number v) pos), (Nat.leb_spec (sv_length v) (length s)); lia.
    - exists v; split; auto. split; auto. lia. }
  cbn [bind]. destruct I' as [LI RI].
  rewrite (nth_error_nth_some _ pos []) by lia. cbn [of_option bind].
  destruct (RI pos ltac:(lia)) as (L1 & C1 & Q1).
  rewrite copy_string_fits; [|lia|rewrite Q1, app_length, repeat_length; lia].
  cbn [bind]. eexists; split; [reflexivity|]. cbn [sv_number sv_length sv_rows].
  split; [|lia]. split; cbn [sv_number sv_length sv_rows].
  - now rewrite length_list_set.
  - intros p P. unfold update. destruct (Nat.eqb_spec pos p) as [->|N].
    + rewrite nth_list_set_same by lia. split; [lia|]. split; auto.
      rewrite skipn_all2; [now rewrite app_nil_r|]. rewrite Q1, app_length, repeat_length; lia.
    + rewrite nth_list_set_other by auto. apply RI; auto.
Qed.

Definition replay (ops : list (nat * list Z)) (c : nat -> list Z) : nat -> list Z :=
  fold_left (fun c o => update c (fst o) (snd o)) ops c.

Lemma replay_last ops : forall c p,
  replay ops c p = if existsb (fun o => (fst o =? p)%nat) ops then last_written ops p else c p.
Proof.
  induction ops as [|[q s] ops IH]; intros c p; cbn [replay fold_left existsb last_written fst snd]; auto.
  change (fold_left (fun c0 o => update c0 (fst o) (snd o)) ops (update c q s) p)
    with (replay ops (update c q s) p).
  rewrite IH; unfold update.
  destruct (existsb (fun o => (fst o =? p)%nat) ops); [now rewrite orb_true_r|].
  rewrite orb_false_r. destruct (q =? p)%nat; reflexivity.
Qed.


Lemma fill_all_spec ops : forall v c, svec_inv v c -> Forall (fun o => chars_ok (snd o)) ops ->
  (forall p, (sv_number v <= p)%nat -> c p = []) ->
  (0 < sv_length v \/ (exists p s r, ops = (p, s) :: r /\ s <> []) \/ ops = [])%nat ->
  exists v', fill_all v ops = Ret v' /\ svec_inv v' (replay ops c) /\
    (sv_number v <= sv_number v')%nat /\ (forall p, pos_in ops p -> (p < sv_number v')%nat) /\
    (forall p, (p < sv_number v')%nat -> (p < sv_number v)%nat \/ exists q, pos_in ops q /\ (p <= q)%nat).
Proof.
  induction ops as [|[q s] ops IH]; intros v c I F E NE; cbn [fill_all].
  - exists v; split; auto. split; auto. split; auto. split; auto. intros p (s & []).
  - inversion F as [|? ? Hs Hf]; subst; cbn [snd] in Hs.
    destruct (fill_svec_spec v c q s) as (v1 & -> & I1 & M1 & P1 & L1 & N1); auto.
    { destruct NE as [NE|[(p & s' & r & Q & NE)|NE]]; [auto| |discriminate]. inversion Q; subst; auto. }
    cbn [bind].
    destruct (IH v1 (update c q s)) as (v' & -> & I' & M' & P' & G'); auto.
    { intros p P; unfold update. destruct (Nat.eqb_spec q p); [lia|]. apply E; lia. }
    exists v'; split; auto. split; auto. split; [lia|]. split.
    + intros p (s' & [Q|Q]); [inversion Q; subst; lia|]. apply P'. exists s'; auto.
    + intros p P. destruct (G' p P) as [A|(q' & (s' & A) & B)].
      * destruct (Nat.ltb_spec p (sv_number v)); auto. right. exists q; split; [exists s; cbn; auto|lia].
      * right; exists q'; split; auto. exists s'; cbn; auto.
Qed.

Lemma svec_alloc_inv number len v : alloc_string_vector number len = Ret v ->
  svec_inv v (fun _ => []) /\ sv_number v = number /\ (0 < sv_length v)%nat.
Proof.
  unfold alloc_string_vector. destruct (Nat.eqb_spec number 0); [discriminate|].
  destruct (Nat.eqb_spec len 0); [discriminate|]. intros H; inversion H; subst; clear H.
  cbn [sv_number sv_length]. split; [|split; [auto|lia]]. split; cbn [sv_rows sv_number sv_length].
  - unfold alloc_2D; apply repeat_length.
  - intros p P. unfold alloc_2D, alloc. rewrite nth_repeat' by auto.
    split; [cbn; lia|]. split; [constructor|]. cbn [length app]. now rewrite Nat.sub_0_r.
Qed.


Lemma string_at_inv v c p : svec_inv v c -> (p < sv_number v)%nat -> string_at v p = Some (c p).
Proof.
  intros [L I] P; unfold string_at. rewrite (nth_error_nth_some _ p []) by lia.
  destruct (I p P) as (L1 & C1 & ->). rewrite (repeat_split 0 (sv_length v - length (c p))) by lia.
  now apply cstr_of_app.
Qed.

Lemma svec_history number len v ops : alloc_string_vector number len = Ret v ->
  Forall (fun o => chars_ok (snd o)) ops ->
  exists v', fill_all v ops = Ret v' /\ (number <= sv_number v')%nat /\
    (forall p, pos_in ops p -> (p < sv_number v')%nat) /\
    (forall p, (p < sv_number v')%nat -> string_at v' p = Some (last_written ops p)).
Proof.
  intros A F. destruct (svec_alloc_inv _ _ _ A) as (I & N & L).
  destruct (fill_all_spec ops v (fun _ => []) I F) as (v' & E & I' & M & P & _); auto.
  exists v'; split; auto. split; [lia|]. split; auto.
  intros p Q. rewrite (string_at_inv _ _ _ I' Q), replay_last.
  destruct (existsb (fun o => (fst o =? p)%nat) ops) eqn:X; auto.
  f_equal. clear -X. induction ops as [|[q s] ops IH]; cbn in *; auto.
  apply orb_false_elim in X. destruct X as [X1 X2]. rewrite X1, X2. auto.
Qed.

(** Starting from a zero-initialised struct, as the bricks do. *)
Lemma svec_history_null p0 s0 ops : s0 <> [] -> chars_ok s0 ->
  Forall (fun o => chars_ok (snd o)) ops ->
  let all := (p0, s0) :: ops in
  exists v', fill_all svec_null all = Ret v' /\
    (forall p, pos_in all p -> (p < sv_number v')%nat) /\
    (forall p, (p < sv_number v')%nat -> string_at v' p = Some (last_written all p)).
Proof.
  intros NE C F all.
  assert (svec_inv svec_null (fun _ => [])) as I by (split; [reflexivity|cbn; lia]).
  destruct (fill_all_spec all svec_null (fun _ => []) I) as (v' & E & I' & M & P & _); auto.
  { constructor; auto. }
  { right; left. exists p0, s0, ops; auto. }
  exists v'; split; auto. split; auto.
  intros p Q. rewrite (string_at_inv _ _ _ I' Q), replay_last.
  destruct (existsb (fun o => (fst o =? p)%nat) all) eqn:X; auto.
  f_equal. clear -X. induction all as [|[q s] ops' IH]; cbn in *; auto.
  apply orb_false_elim in X. destruct X as [X1 X2]. rewrite X1, X2. auto.
Qed.

Lemma streq_spec a b : streq a b = true <-> a = b.
Proof.
  revert b; induction a as [|x a IH]; intros [|y b]; cbn; try (split; [discriminate|discriminate]); [tauto|].
  rewrite andb_true_iff, Z.eqb_eq, IH. split; [intros [-> ->]; auto|intros H; inversion H; auto].
Qed.

Lemma contains_pos_spec vec target : forall i, 0 <= i ->
  (contains_pos vec i target = -1 /\ ~ In target vec) \/
  (exists k, contains_pos vec i target = i + Z.of_nat k /\ nth_error vec k = Some target /\
     forall j, (j < k)%nat -> nth_error vec j <> Some target).
Proof.
  induction vec as [|s vec IH]; intros i I; cbn [contains_pos].
  - left; auto.
  - destruct (streq s target) eqn:E.
    + apply streq_spec in E; subst. right; exists 0%nat. split; [lia|]. split; [auto|lia].
    + assert (s <> target) as N by (intros ->; rewrite (proj2 (streq_spec target target) eq_refl) in E; discriminate).
      destruct (IH (i + 1) ltac:(lia)) as [(A & B)|(k & A & B & D)].
      * left; split; auto. intros [Q|Q]; auto.
      * right; exists (S k). split; [lia|]. split; auto.
        intros [|j] J; cbn; [congruence|]. apply D; lia.
Qed.
