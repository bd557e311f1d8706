(** C10, C11, C12: strings. *)
From Verif Require Import Base BaseFacts CStr AllocModel StringModel StringSpec StringProofs.

(** C10: on a destination of exactly [size] bytes, either the whole source with
    its NUL is there, or the program exits; UB (write outside) never happens. *)
Theorem C10_copy_string : forall dst size src,
  chars_ok src -> (0 < size)%nat -> length dst = size ->
  (exists dst', copy_string_buf dst size src = Ret dst' /\ length dst' = size /\
     holds dst' src /\ (length src < size)%nat) \/
  (copy_string_buf dst size src = Exit /\ (size <= length src)%nat).
Proof. exact copy_string_spec. Qed.

Theorem C10_concat_string_2 : forall dst size s1 s2 delim, length dst = size ->
  (exists dst', concat_string_2 dst size s1 s2 delim = Ret dst' /\ length dst' = size /\
     holds dst' (s1 ++ delim ++ s2) /\ (length (s1 ++ delim ++ s2) < size)%nat) \/
  (concat_string_2 dst size s1 s2 delim = Exit /\ (size <= length (s1 ++ delim ++ s2))%nat).
Proof. exact concat2_spec. Qed.

Theorem C10_concat_string_3 : forall dst size s1 s2 s3 delim, length dst = size ->
  (exists dst', concat_string_3 dst size s1 s2 s3 delim = Ret dst' /\ length dst' = size /\
     holds dst' (s1 ++ delim ++ s2 ++ delim ++ s3) /\
     (length (s1 ++ delim ++ s2 ++ delim ++ s3) < size)%nat) \/
  (concat_string_3 dst size s1 s2 s3 delim = Exit /\
   (size <= length (s1 ++ delim ++ s2 ++ delim ++ s3))%nat).
Proof. exact concat3_spec. Qed.

Example C10_example_fits :
  copy_string_buf [9;9;9;9] 4 [65;66;67] = Ret [65;66;67;0] /\
  copy_string_buf [9;9;9;9] 4 [65;66;67;68] = Exit /\
  concat_string_2 [9;9;9;9;9] 5 [65] [66] [47] = Ret [65;47;66;0;9] /\
  concat_string_3 [9;9;9;9;9] 5 [65] [66] [67] [47] = Exit /\
  chars_ok [65;66;67].
Proof. repeat split; try reflexivity. repeat constructor; discriminate. Qed.

(** C11: if [search] occurs, exactly its first occurrence is replaced; if the
    result does not fit, the program exits.  Bytes behind the new terminator are
    untouched. *)
Theorem C11_replace_first_partial : forall buf source search replace len i,
  cstr_of buf = Some source -> chars_ok replace -> zlen buf = len -> len < 2 ^ 31 ->
  zlen replace < 2 ^ 31 ->
  first_at search source i ->
  let new := firstn i source ++ replace ++ skipn (i + length search) source in
  (zlen new < len -> exists buf', replace_string buf search replace len = Ret buf' /\
     zlen buf' = len /\ cstr_of buf' = Some new /\
     skipn (length new + 1) buf' = skipn (length new + 1) buf) /\
  (len <= zlen new -> replace_string buf search replace len = Exit).
Proof. exact replace_string_match. Qed.

(** Without an occurrence the buffer is left alone, but only if a size check that
    has no bearing on this case passes. *)
Theorem C11_no_occurrence_partial : forall buf source search replace len,
  cstr_of buf = Some source -> (forall i, ~ occurs_at search source i) ->
  replace_string buf search replace len =
  if (zlen source - zlen search + zlen replace) mod 2 ^ 64 >=? len then Exit else Ret buf.
Proof. exact replace_string_nomatch. Qed.

(** The full C11 is false: a string without occurrence terminates the program,
    e.g. when it is shorter than the search pattern (size_t wrap-around). *)
Theorem C11_leaves_others_alone_refuted : exists buf source search replace len,
  cstr_of buf = Some source /\ zlen buf = len /\ (forall i, ~ occurs_at search source i) /\
  zlen source + zlen search + zlen replace < len /\
  replace_string buf search replace len = Exit.
Proof.
  exists ([97;98;0] ++ repeat 0 97), [97;98], [97;98;99;100;101;102], [120], 100.
  split; [reflexivity|]. split; [reflexivity|]. split; [|split; reflexivity].
  intros i (pre & post & E & _). apply (f_equal (@length Z)) in E.
  rewrite !app_length in E. cbn [length] in E. lia.
Qed.

Theorem C11_overwrite_part : forall buf source offset replace n,
  cstr_of buf = Some source -> chars_ok replace ->
  (n <= length replace)%nat -> (offset + n <= length source)%nat ->
  exists buf', overwrite_string_part buf offset replace n = Ret buf' /\ length buf' = length buf /\
    cstr_of buf' = Some (firstn offset source ++ firstn n replace ++ skipn (offset + n) source).
Proof. exact overwrite_spec. Qed.

Theorem C11_overwrite_rejects : forall buf source offset replace n, cstr_of buf = Some source ->
  (length replace < n)%nat \/ (length source < offset + n)%nat ->
  overwrite_string_part buf offset replace n = Exit.
Proof. exact overwrite_rejects. Qed.

(** "xabab" with "ab" -> "Q": only the first one. *)
Example C11_example :
  replace_string ([120;97;98;97;98;0;7;7]) [97;98] [81] 8 = Ret [120;81;97;98;0;0;7;7] /\
  first_at [97;98] [120;97;98;97;98] 1 /\
  overwrite_string_part [48;49;50;51;0;7] 1 [65;66;67] 2 = Ret [48;65;66;51;0;7].
Proof.
  split; [reflexivity|]. split; [|reflexivity].
  exact (strstr_spec [97;98] [120;97;98;97;98]).
Qed.

(** C12: every history of fill_string_vector calls on an allocated vector. *)
Theorem C12_fill_history : forall number len v ops,
  alloc_string_vector number len = Ret v ->
  Forall (fun o => chars_ok (snd o)) ops ->
  exists v', fill_all v ops = Ret v' /\ (number <= sv_number v')%nat /\
    (forall p, pos_in ops p -> (p < sv_number v')%nat) /\
    (forall p, (p < sv_number v')%nat -> string_at v' p = Some (last_written ops p)).
Proof. exact svec_history. Qed.

(** The same from a zeroed struct, if the first string is not empty. *)
Theorem C12_fill_history_unallocated_partial : forall p0 s0 ops, s0 <> [] -> chars_ok s0 ->
  Forall (fun o => chars_ok (snd o)) ops ->
  let all := (p0, s0) :: ops in
  exists v', fill_all svec_null all = Ret v' /\
    (forall p, pos_in all p -> (p < sv_number v')%nat) /\
    (forall p, (p < sv_number v')%nat -> string_at v' p = Some (last_written all p)).
Proof. exact svec_history_null. Qed.

(** Writing an empty string first terminates the program instead. *)
Theorem C12_empty_first_refuted : exists p0 s0, chars_ok s0 /\
  fill_string_vector svec_null p0 s0 = Exit.
Proof. exists 0%nat, []. split; [constructor|reflexivity]. Qed.

Theorem C12_fill_string : forall src, chars_ok src ->
  (src = [] /\ fill_string src = Exit) \/
  (src <> [] /\ fill_string src = Ret (src ++ [0])).
Proof. exact fill_string_spec. Qed.

(** Look-up: the first position with the string, or -1 iff it is absent. *)
Theorem C12_lookup : forall vec target,
  (vector_contains_pos vec target = -1 /\ ~ In target vec) \/
  (exists k, vector_contains_pos vec target = Z.of_nat k /\ nth_error vec k = Some target /\
     forall j, (j < k)%nat -> nth_error vec j <> Some target).
Proof.
  intros vec target. exact (contains_pos_spec vec target 0 ltac:(lia)).
Qed.

Example C12_example : exists v v', alloc_string_vector 1 2 = Ret v /\
  fill_all v [(0%nat, [65]); (3%nat, [66;67;68;69;70]); (0%nat, [71;72])] = Ret v' /\
  string_at v' 0 = Some [71;72] /\ string_at v' 1 = Some [] /\ string_at v' 3 = Some [66;67;68;69;70] /\
  string_at v' 4 = None.
Proof. do 2 eexists; repeat split; reflexivity. Qed.

Print Assumptions C10_copy_string.
Print Assumptions C10_concat_string_2.
Print Assumptions C10_concat_string_3.
Print Assumptions C11_replace_first_partial.
Print Assumptions C11_no_occurrence_partial.
Print Assumptions C11_leaves_others_alone_refuted.
Print Assumptions C11_overwrite_part.
Print Assumptions C11_overwrite_rejects.
Print Assumptions C12_fill_history.
Print Assumptions C12_fill_history_unallocated_partial.
Print Assumptions C12_empty_first_refuted.
Print Assumptions C12_fill_string.
Print Assumptions C12_lookup.
