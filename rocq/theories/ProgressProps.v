(** C17, C18, C19: the processing loop. *)
From Verif Require Import Base BaseFacts Float Loops ProgressModel ProgressSpec ProgressProofs.

(** C17: in every run - serial, or parallel with any interleaving of the three
    threads - each unit 0..n-1 undergoes exactly read; compute; write, in this
    order and once; no other index is ever touched; the loop ends after n+2
    passes. *)
Theorem C17_each_unit_once_in_order : forall stream n t k, 0 <= n -> passes stream n init_units t k ->
  Z.of_nat k = n + 2 /\
  forall pu, of_unit pu t = if (0 <=? pu) && (pu <? n) then read_steps ++ comp_steps ++ out_steps else [].
Proof. exact run_units. Qed.

Theorem C17_run_exists : forall stream n, 0 <= n -> exists t k, passes stream n init_units t k.
Proof. exact run_exists. Qed.

(** Concurrent threads of one pass never share a unit (no data race on the
    arrays). *)
Theorem C17_threads_disjoint : forall n i a b, let u := Nat.iter i forward init_units in
  (In a (read_thread n u) -> In b (comp_thread n u) -> fst a <> fst b) /\
  (In a (read_thread n u) -> In b (out_thread n u) -> fst a <> fst b) /\
  (In a (comp_thread n u) -> In b (out_thread n u) -> fst a <> fst b).
Proof. exact pass_disjoint. Qed.

(** The effect is that of treating the units one by one: what ends up on disk for
    a unit is its product, once, and nothing if there is none; all memory of the
    unit is released. *)
Theorem C17_same_result_for_every_schedule :
  forall (In Out : Type) (rd : Z -> option In) (cp : Z -> option In -> option Out) stream n t k,
  0 <= n -> passes stream n init_units t k ->
  exists mem', exec rd cp t (repeat empty_cell (Z.to_nat n)) = Ret mem' /\ zlen mem' = n /\
    forall pu, 0 <= pu < n -> get_at mem' pu =
      Some (mkCell None None (match cp pu (rd pu) with Some o => [o] | None => [] end)).
Proof. exact @run_effect. Qed.

(** Products are written in the order of the units. *)
Theorem C17_write_order : forall stream n t k, 0 <= n -> passes stream n init_units t k ->
  of_stage is_out t = flat_map (fun pu => at_unit pu out_steps) (zrange 0 (n - 1)).
Proof. exact run_out_order. Qed.

Example C17_example : exists t, passes true 1 init_units t 3 /\
  t = [(0, ReadReset); (0, ReadLoad); (0, CompReset); (0, CompRun); (0, CompFree); (0, OutWrite); (0, OutFree)].
Proof.
  eexists; split; [|reflexivity].
  apply (pass_more true 1 init_units [(0, ReadReset); (0, ReadLoad)]); [cbn; lia| |].
  { eexists; split; cbn; [apply (interleave_app [(0, ReadReset); (0, ReadLoad)] [])|apply (interleave_app [(0, ReadReset); (0, ReadLoad)] [])]. }
  apply (pass_more true 1 _ [(0, CompReset); (0, CompRun); (0, CompFree)]); [cbn; lia| |].
  { exists [(0, CompReset); (0, CompRun); (0, CompFree)]; split; cbn.
    - apply (interleave_app [] [(0, CompReset); (0, CompRun); (0, CompFree)]).
    - apply (interleave_app [(0, CompReset); (0, CompRun); (0, CompFree)] []). }
  apply (pass_more true 1 _ [(0, OutWrite); (0, OutFree)] []); [cbn; lia| |].
  { exists []; split; cbn; [constructor|]. apply (interleave_app [] [(0, OutWrite); (0, OutFree)]). }
  apply pass_end; cbn; lia.
Qed.

(** C18: units and (tile, chunk column, chunk row) correspond one to one, for up
    to 2^24 units. *)
Theorem C18_bijection_partial : forall tiles ch, layout_ok ch -> n_units_of tiles ch <= 2 ^ 24 ->
  forall k x y, 0 <= k < zlen tiles -> 0 <= x < c_cols ch -> 0 <= y < c_rows ch ->
  exists u t, 0 <= u < n_units_of tiles ch /\ get_at tiles k = Some t /\
    (exists pos, locate tiles ch (n_units_of tiles ch) u = Ret pos /\
       u_tile pos = k /\ u_cx pos = x /\ u_cy pos = y /\ u_tx pos = fst t /\ u_ty pos = snd t) /\
    forall u' pos', 0 <= u' < n_units_of tiles ch ->
      locate tiles ch (n_units_of tiles ch) u' = Ret pos' ->
      u_tile pos' = k -> u_cx pos' = x -> u_cy pos' = y -> u' = u.
Proof. exact locate_bijection. Qed.

Theorem C18_in_range_partial : forall tiles ch u, layout_ok ch -> n_units_of tiles ch <= 2 ^ 24 ->
  0 <= u < n_units_of tiles ch -> exists pos, locate tiles ch (n_units_of tiles ch) u = Ret pos /\
  0 <= u_tile pos < zlen tiles /\ 0 <= u_cx pos < c_cols ch /\ 0 <= u_cy pos < c_rows ch /\
  get_at tiles (u_tile pos) = Some (u_tx pos, u_ty pos).
Proof.
  intros tiles ch u L N U. destruct (locate_ok tiles ch u L N U) as (tx & ty & G & E).
  eexists; split; [exact E|]. exact (locate_in_range tiles ch u _ L N U E).
Qed.

(** Beyond 2^24 units the single precision quotient is wrong: with one chunk per
    tile, unit 2^24+1 is taken for (a non-existing second chunk of) tile 2^24,
    and tile 2^24+1 is not processed by its unit. *)
Theorem C18_many_units_refuted : forall tiles t, 2 ^ 24 + 2 <= zlen tiles ->
  get_at tiles (2 ^ 24) = Some t ->
  locate tiles (mkChunks 1 1 1) (n_units_of tiles (mkChunks 1 1 1)) (2 ^ 24 + 1) =
  Ret (mkUnit (2 ^ 24) 1 0 1 (fst t) (snd t)).
Proof.
  intros tiles t L G. unfold locate, n_units_of. cbn [c_cells c_cols].
  change (2 ^ 24) with 16777216 in *.
  replace ((16777216 + 1 <? 0) || (16777216 + 1 >=? zlen tiles * 1)) with false by lia.
  assert (int_of_floor (f32_div (f32_of_Z (16777216 + 1)) (f32_of_Z 1)) = Ret 16777216) as ->
    by (vm_compute; reflexivity).
  cbn [bind]. rewrite G. reflexivity.
Qed.

(** An accepted chunk layout has at least one chunk and covers the tile up to the
    tolerance. *)
Theorem C18_chunk_layout : forall tol tx ty cx cy ch, chunk_layout tol tx ty cx cy = Ret ch ->
  0 <= tx -> 0 <= ty -> 0 <= cx -> 0 <= cy ->
  1 <= c_cols ch /\ 1 <= c_rows ch /\ c_cells ch = c_cols ch * c_rows ch /\
  c_cols ch * cx <= tx <= c_cols ch * cx + tol /\ c_rows ch * cy <= ty <= c_rows ch * cy + tol.
Proof. exact chunk_layout_ok. Qed.

Example C18_example :
  let tiles := [(3, 7); (4, 7); (9, 8)] in
  chunk_layout 5 30000000 30000000 15000000 10000000 = Ret (mkChunks 2 3 6) /\
  locate tiles (mkChunks 2 3 6) 18 11 = Ret (mkUnit 1 5 1 2 4 7) /\
  locate tiles (mkChunks 2 3 6) 18 12 = Ret (mkUnit 2 0 0 0 9 8) /\
  layout_ok (mkChunks 2 3 6) /\ n_units_of tiles (mkChunks 2 3 6) = 18.
Proof. repeat split; try (vm_compute; reflexivity); vm_compute; discriminate. Qed.

(** C19: with streaming the verdict is right: the run is called empty iff no
    bytes were read in any unit, or none written in any. *)
Theorem C19_streaming_partial : forall ibs obs smp fail, Forall byte_count ibs -> Forall byte_count obs ->
  snd (handle_no_io (total true ibs) (total true obs) smp fail) = true <->
  Forall no_bytes ibs \/ (smp = false /\ Forall no_bytes obs).
Proof. exact stream_empty_iff. Qed.

(** Without streaming only the last unit counts: a run that read and wrote data
    fails as empty. *)
Theorem C19_serial_refuted : exists ibs obs, length ibs = length obs /\
  sum_bytes ibs > 0 /\ sum_bytes obs > 0 /\
  handle_no_io (total false (map Some ibs)) (total false (map Some obs)) false true = (FAILURE, true).
Proof. exists [100; 0], [50; 20]. repeat split; vm_compute; reflexivity. Qed.

(** Hence with streaming the exit code is FAILURE exactly for an empty run with FAIL_IF_EMPTY. *)
Theorem C19_exit_code : forall ibs obs smp fail, Forall byte_count ibs -> Forall byte_count obs ->
  fst (handle_no_io (total true ibs) (total true obs) smp fail) = FAILURE <->
  fail = true /\ (Forall no_bytes ibs \/ (smp = false /\ Forall no_bytes obs)).
Proof.
  intros ibs obs smp fail I O. rewrite <- (stream_empty_iff ibs obs smp fail I O).
  unfold handle_no_io; cbn [fst snd]. destruct (_ || _), fail; cbn [andb]; intuition discriminate.
Qed.

Example C19_example :
  handle_no_io (total true (map Some [100; 0])) (total true [Some 50; None]) false true = (SUCCESS, false) /\
  handle_no_io (total true (map Some [100; 0])) (total true [Some 0; None]) false true = (FAILURE, true) /\
  handle_no_io (total true (map Some [100; 0])) (total true [Some 0; None]) true true = (SUCCESS, false).
Proof. repeat split; reflexivity. Qed.

Print Assumptions C17_each_unit_once_in_order.
Print Assumptions C17_run_exists.
Print Assumptions C17_threads_disjoint.
Print Assumptions C17_same_result_for_every_schedule.
Print Assumptions C17_write_order.
Print Assumptions C18_bijection_partial.
Print Assumptions C18_in_range_partial.
Print Assumptions C18_many_units_refuted.
Print Assumptions C18_chunk_layout.
Print Assumptions C19_streaming_partial.
Print Assumptions C19_serial_refuted.
Print Assumptions C19_exit_code.

(** C67: a run over a whole data cube: every chunk of every tile is read, computed and
    written exactly once, in this order, by the unit that belongs to it, and nothing else is. *)
Theorem C67_every_chunk_once : forall tiles ch stream t k, layout_ok ch -> n_units_of tiles ch <= 2 ^ 24 ->
  passes stream (n_units_of tiles ch) init_units t k ->
  (forall i x y tile, 0 <= i < zlen tiles -> 0 <= x < c_cols ch -> 0 <= y < c_rows ch -> get_at tiles i = Some tile ->
     exists u, of_unit u t = read_steps ++ comp_steps ++ out_steps /\
       (exists pos, locate tiles ch (n_units_of tiles ch) u = Ret pos /\
          u_tile pos = i /\ u_cx pos = x /\ u_cy pos = y /\ u_tx pos = fst tile /\ u_ty pos = snd tile) /\
       forall u' pos', of_unit u' t <> [] -> locate tiles ch (n_units_of tiles ch) u' = Ret pos' ->
         u_tile pos' = i -> u_cx pos' = x -> u_cy pos' = y -> u' = u) /\
  (forall u, of_unit u t <> [] -> exists pos, locate tiles ch (n_units_of tiles ch) u = Ret pos /\
     0 <= u_tile pos < zlen tiles /\ 0 <= u_cx pos < c_cols ch /\ 0 <= u_cy pos < c_rows ch).
Proof.
  intros tiles ch stream t k L N P.
  assert (0 <= n_units_of tiles ch) as P0.
  { destruct L as (A & B & C). unfold n_units_of, zlen. rewrite C. nia. }
  destruct (C17_each_unit_once_in_order stream _ t k P0 P) as (_ & U).
  assert (forall u, of_unit u t <> [] -> 0 <= u < n_units_of tiles ch) as IN.
  { intros u H. rewrite U in H. destruct ((0 <=? u) && (u <? n_units_of tiles ch)) eqn:E; [lia|now elim H]. }
  split.
  - intros i x y tile I X Y G. destruct (C18_bijection_partial tiles ch L N i x y I X Y) as (u & t' & B & G' & Q & W).
    rewrite G in G'. injection G' as <-. exists u. split.
    { rewrite U. replace ((0 <=? u) && (u <? n_units_of tiles ch)) with true by lia. reflexivity. }
    split; [exact Q|]. intros u' pos' H E T C R. apply (W u' pos'); auto.
  - intros u H. destruct (C18_in_range_partial tiles ch u L N (IN u H)) as (pos & E & A & B & C & _).
    exists pos. auto.
Qed.
Print Assumptions C67_every_chunk_once.

Example C67_example : let tiles := [(3, 7); (4, 7); (9, 8)] in let ch := mkChunks 2 3 6 in
  layout_ok ch /\ n_units_of tiles ch <= 2 ^ 24 /\ exists t k, passes true (n_units_of tiles ch) init_units t k.
Proof.
  split; [repeat split; vm_compute; discriminate|]. split; [vm_compute; discriminate|].
  apply C17_run_exists. vm_compute; discriminate.
Qed.
