(** C41: the parameter log. *)
From Verif Require Import Base BaseFacts CStr Loops LoopsFacts StringModel StringProofs DateModel Float ParamModel ParLogModel ParLogSpec ParLogProofs.

(** Whatever memory lies behind the separator array (as long as it ends with a NUL
    somewhere): nothing is written outside of the 16384 byte log; the program ends,
    which it only does if the text does not fit, or the log holds the text up to
    the size of the log. *)
Theorem C41_bounds_partial : forall show_f32 show_f64 s buf ps,
  zlen buf = 16384 -> get_at buf 0 = Some 0 -> Forall par_set ps ->
  let text := log_text show_f32 show_f64 (lit " " ++ s) ps in
  (log_parameter show_f32 show_f64 (Some s) buf ps = Exit /\ 16384 <= zlen text) \/
  (exists buf' cur rest, log_parameter show_f32 show_f64 (Some s) buf ps = Ret (buf', cur) /\
     zlen buf' = 16384 /\ buf' = firstn (Z.to_nat 16383) text ++ 0 :: rest).
Proof.
  intros show_f32 show_f64 s buf ps L G F text. unfold log_parameter.
  destruct (logs_loop show_f32 show_f64 s ps F 0 ltac:(lia) (buf, 0) [] (fresh_rep buf L G)) as [[E H]|([buf' cur] & E & R)].
  - left. split; [exact E|]. exact H.
  - right. destruct R as (L' & _ & rest & B). exists buf', cur, rest. split; [exact E|]. split; [exact L'|]. exact B.
Qed.

(** With a NUL directly behind the separator array, a text that fits is logged
    completely. *)
Theorem C41_complete_partial : forall show_f32 show_f64 buf ps,
  zlen buf = 16384 -> get_at buf 0 = Some 0 -> Forall par_set ps ->
  let text := log_text show_f32 show_f64 (lit " ") ps in
  zlen text < 16384 -> Forall (fun c => c <> 0) text ->
  exists buf' cur, log_parameter show_f32 show_f64 (Some []) buf ps = Ret (buf', cur) /\ cstr_of buf' = Some text.
Proof.
  intros show_f32 show_f64 buf ps L G F text Ht Hc.
  destruct (C41_bounds_partial show_f32 show_f64 [] buf ps L G F) as [[_ H]|(buf' & cur & rest & E & _ & B)].
  - rewrite app_nil_r in H. fold text in H. lia.
  - exists buf', cur. split; [exact E|]. rewrite app_nil_r in B. fold text in B.
    rewrite firstn_all2 in B by (unfold zlen in Ht; lia). rewrite B. apply cstr_of_app. exact Hc.
Qed.

(** A vector with several values: the separator is printed from an array without
    terminating NUL. *)
Theorem C41_vector_refuted : forall show_f32 show_f64 buf p,
  zlen buf = 16384 -> get_at buf 0 = Some 0 -> par_set p -> is_list p -> zlen (p_name p) < 1024 ->
  log_parameter show_f32 show_f64 None buf [p] = UB.
Proof.
  intros show_f32 show_f64 buf p L G [F _] [V N] H. unfold log_parameter. cbn [log_loop]. unfold log_one.
  cbn [Z.gtb Z.compare bind].
  destruct (put_rep (buf, 0) [] (p_name p ++ lit ": ") (fresh_rep buf L G)) as (st & E & R); [reflexivity|].
  rewrite E. cbn [bind]. destruct (p_vec p); [|congruence]. destruct (p_val p) as [|v [|w l]]; cbn [length] in N; try lia.
  rewrite zupto_zrange. rewrite zrange_cons by (unfold zlen; cbn [length]; lia). cbn [ofold].
  change (get_at (v :: w :: l) 0) with (Some v). cbn [of_option bind].
  rewrite show_set by exact (Forall_inv F). cbn [bind]. unfold eol_string.
  destruct (Z.eqb_spec 0 (zlen (v :: w :: l) - 1)); [unfold zlen in *; cbn [length] in *; lia|]. reflexivity.
Qed.

(** A log that overflows with the last value is cut silently: 17 parameters of 1000
    characters are registered, the log ends within the last of them. *)
Definition long_par : par := mkPar (lit "F") (PChar NoTest) None true [VChar (repeat 97 1000)].
Theorem C41_cut_refuted : forall show_f32 show_f64 buf, zlen buf = 16384 -> get_at buf 0 = Some 0 ->
  let ps := repeat long_par 17 in
  exists buf' cur t, log_parameter show_f32 show_f64 (Some []) buf ps = Ret (buf', cur) /\
    cstr_of buf' = Some t /\ zlen t = 16383 /\ zlen (log_text show_f32 show_f64 (lit " ") ps) = 17083.
Proof.
  intros show_f32 show_f64 buf L G ps.
  assert (F16: Forall par_set (repeat long_par 16)).
  { apply Forall_forall. intros p Hp. apply repeat_spec in Hp. subst. split; [repeat constructor; discriminate|reflexivity]. }
  assert (PT: zlen (par_text show_f32 show_f64 (lit " " ++ []) long_par) = 1003) by (vm_compute; reflexivity).
  unfold log_parameter. unfold ps. replace (repeat long_par 17) with (repeat long_par 16 ++ [long_par]) by reflexivity.
  rewrite log_loop_app. set (A := log_text show_f32 show_f64 (lit " " ++ []) (repeat long_par 16)).
  assert (LA: zlen A = 16078) by (vm_compute; reflexivity).
  destruct (logs_loop show_f32 show_f64 [] (repeat long_par 16) F16 0 ltac:(lia) (buf, 0) [] (fresh_rep buf L G)) as [[E H]|(st & E & R)].
  { cbn [negb andb Z.gtb Z.compare app] in H. fold A in H. unfold NPOW_14 in H. lia. }
  rewrite E. cbn [bind]. cbn [negb andb Z.gtb Z.compare app] in R. fold A in R.
  cbn [log_loop]. unfold log_one.
  replace (0 + zlen (repeat long_par 16) >? 0) with true by reflexivity.
  destruct (put_rep st A (lit ", ") R ltac:(unfold NPOW_14; lia)) as (st1 & E1 & R1). rewrite E1. cbn [bind].
  assert (L1: zlen (A ++ lit ", ") = 16080) by (unfold zlen in *; rewrite app_length; cbn [length lit]; change (length (lit ", ")) with 2%nat; lia).
  destruct (put_rep st1 _ (p_name long_par ++ lit ": ") R1 ltac:(unfold NPOW_14; lia)) as (st2 & E2 & R2). rewrite E2. cbn [bind].
  assert (L2: zlen ((A ++ lit ", ") ++ p_name long_par ++ lit ": ") = 16083) by (unfold zlen in *; rewrite app_length; change (length (p_name long_par ++ lit ": ")) with 3%nat; lia).
  change (p_vec long_par) with (@None Z). cbv iota.
  change (get_at (p_val long_par) 0) with (Some (VChar (repeat 97 1000))). cbn [of_option bind show].
  destruct (put_rep st2 _ (repeat 97 1000) R2 ltac:(unfold NPOW_14; lia)) as ([buf' cur] & E3 & R3). rewrite E3. cbn [bind].
  destruct R3 as (L3 & _ & rest & B). cbn [fst] in B.
  set (T := ((A ++ lit ", ") ++ p_name long_par ++ lit ": ") ++ repeat 97 1000) in *.
  assert (LT: zlen T = 17083) by (unfold T, zlen in *; rewrite (app_length _ (repeat 97 1000)), repeat_length; lia).
  exists buf', cur, (firstn (Z.to_nat (NPOW_14 - 1)) T). split; [reflexivity|]. split; [|split].
  - rewrite B. apply cstr_of_app.
    assert (NZ: Forall (fun c => c <> 0) T).
    { assert (Q: forallb (fun c => negb (c =? 0)) T = true) by (vm_compute; reflexivity).
      rewrite forallb_forall in Q. apply Forall_forall. intros x Hx E0. apply Q in Hx. subst. discriminate. }
    unfold StringSpec.chars_ok. rewrite Forall_forall in *. intros x Hx. apply NZ. rewrite <- (firstn_skipn (Z.to_nat (NPOW_14 - 1)) T). apply in_or_app. left. exact Hx.
  - unfold zlen in *. rewrite firstn_length. unfold NPOW_14. lia.
  - vm_compute. reflexivity.
Qed.

Example C41_example : forall show_f32 show_f64,
  let ps := [mkPar (lit "NPROC") (PInt 1 8) None true [VInt 4]; mkPar (lit "YEARS") (PInt 1 8) (Some 2) true [VInt 3; VInt 5]] in
  Forall par_set ps /\ is_list (mkPar (lit "YEARS") (PInt 1 8) (Some 2) true [VInt 3; VInt 5]) /\
  log_text show_f32 show_f64 (lit " ") ps = lit "NPROC: 4, YEARS: 3 5".
Proof.
  intros. split; [|split; [|reflexivity]].
  - repeat constructor; try discriminate.
  - split; [discriminate|]. cbn. lia.
Qed.

Print Assumptions C41_bounds_partial.
Print Assumptions C41_complete_partial.
Print Assumptions C41_vector_refuted.
Print Assumptions C41_cut_refuted.
