(** C14: active tiles. *)
From Verif Require Import Base BaseFacts CStr StringModel TileModel TileSpec TileProofs.
From Coq Require Import Sorting.Sorted.

(** For every allow-list that could be read (none at all included) and every
    extent: the arrays hold exactly the selection, n_allowed_tiles is its
    length, nothing is written outside the arrays, and the call fails iff the
    selection is empty. *)
Theorem C14_active_tiles : forall f e allow,
  tile_readlist f = Ret (Some allow) -> extent_ok e ->
  exists c st, tile_active f e = Ret (c, st) /\
    is_selection e allow (active_tiles st) /\ a_n st = zlen (active_tiles st) /\
    (c = SUCCESS \/ c = FAILURE) /\ (c = FAILURE <-> active_tiles st = []).
Proof. exact tile_active_ok. Qed.

(** The selection is unique, so the theorem above determines the result. *)
Theorem C14_selection_unique : forall e allow l1 l2,
  is_selection e allow l1 -> is_selection e allow l2 -> l1 = l2.
Proof. exact selection_unique. Qed.

(** A file with the number of tiles and one tile name per line is read as these
    tiles; whatever follows is ignored. *)
Theorem C14_allow_list_file_partial : forall ts rest,
  ts <> [] -> Forall tile_id_ok ts -> zlen ts <= 2147483647 ->
  tile_readlist (Content (list_file ts rest)) = Ret (Some ts).
Proof. exact list_file_read. Qed.

(** Five-character tile numbers are misread: X10000_Y0001 is taken for another
    tile. *)
Theorem C14_wide_tile_number_refuted : exists t ts,
  tile_readlist (Content (list_file [t] [])) = Ret (Some ts) /\ ~ In t ts.
Proof.
  exists (10000, 1), [(1000, 0)]. split; [vm_compute; reflexivity|].
  intros [H|[]]; discriminate.
Qed.

(** A short line takes over the y-number of the line before. *)
Theorem C14_short_line_refuted :
  tile_readlist (Content (`"2" ++ 10 :: `"X0003_Y0012" ++ 10 :: `"X04" ++ [10])) =
  Ret (Some [(3, 12); (4, 12)]).
Proof. vm_compute; reflexivity. Qed.

Example C14_example : exists st,
  let e := mkExtent 2 5 (-1) 1 in
  tile_active (Content (list_file [(4, 1); (3, -1); (9, 9); (4, 1); (2, 1)] [])) e = Ret (SUCCESS, st) /\
  active_tiles st = [(3, -1); (2, 1); (4, 1)] /\ extent_ok e /\
  Forall tile_id_ok [(4, 1); (3, -1); (9, 9); (4, 1); (2, 1)] /\
  tile_active NoList (mkExtent 2 1 0 3) = Ret (FAILURE, mkActive [] [] 0).
Proof.
  eexists; repeat split; try (vm_compute; reflexivity); try (vm_compute; discriminate).
  repeat constructor; vm_compute; discriminate.
Qed.

Print Assumptions C14_active_tiles.
Print Assumptions C14_selection_unique.
Print Assumptions C14_allow_list_file_partial.
Print Assumptions C14_wide_tile_number_refuted.
Print Assumptions C14_short_line_refuted.

(** C66: the file decides which tiles are processed, whatever the order and however
    often a tile is listed. *)
Theorem C66_listed_tiles_are_processed : forall ts rest e,
  ts <> [] -> Forall tile_id_ok ts -> zlen ts <= 2147483647 -> extent_ok e ->
  exists c st, tile_active (Content (list_file ts rest)) e = Ret (c, st) /\
    StronglySorted before (active_tiles st) /\ a_n st = zlen (active_tiles st) /\
    (forall t, In t (active_tiles st) <-> in_extent e t /\ In t ts) /\
    (c = SUCCESS \/ c = FAILURE) /\ (c = SUCCESS <-> exists t, in_extent e t /\ In t ts).
Proof.
  intros ts rest e N I L E. pose proof (C14_allow_list_file_partial ts rest N I L) as R.
  destruct (C14_active_tiles _ e ts R E) as (c & st & T & (S & M) & A & D & F).
  assert (forall t, In t (active_tiles st) <-> in_extent e t /\ In t ts) as M'.
  { intros t. rewrite M. intuition congruence. }
  exists c, st. split; [exact T|]. split; [exact S|]. split; [exact A|]. split; [exact M'|]. split; [exact D|].
  split.
  - intros C. destruct (active_tiles st) as [|t l] eqn:K.
    + destruct F as (_ & F). rewrite F in C by reflexivity. discriminate.
    + exists t. apply M'. now left.
  - intros (t & X). destruct D as [->| ->]; [reflexivity|]. apply M' in X. rewrite (proj1 F eq_refl) in X. destruct X.
Qed.

(** Two files that list the same tiles lead to the same result. *)
Theorem C66_same_tiles_same_result : forall ts rest ts' rest' e c st c' st',
  ts <> [] -> Forall tile_id_ok ts -> zlen ts <= 2147483647 ->
  ts' <> [] -> Forall tile_id_ok ts' -> zlen ts' <= 2147483647 -> extent_ok e ->
  (forall t, In t ts <-> In t ts') ->
  tile_active (Content (list_file ts rest)) e = Ret (c, st) ->
  tile_active (Content (list_file ts' rest')) e = Ret (c', st') -> c = c' /\ active_tiles st = active_tiles st'.
Proof.
  intros ts rest ts' rest' e c st c' st' N I L N' I' L' E Q T T'.
  destruct (C66_listed_tiles_are_processed ts rest e N I L E) as (c1 & st1 & T1 & S1 & _ & M1 & D1 & F1).
  destruct (C66_listed_tiles_are_processed ts' rest' e N' I' L' E) as (c2 & st2 & T2 & S2 & _ & M2 & D2 & F2).
  rewrite T in T1. injection T1 as <- <-. rewrite T' in T2. injection T2 as <- <-.
  split.
  - assert (c = SUCCESS <-> c' = SUCCESS) as X.
    { rewrite F1, F2. split; intros (t & A & B); exists t; (split; [exact A|apply Q, B]). }
    destruct D1 as [->| ->], D2 as [->| ->]; auto; [symmetry; apply X; reflexivity|apply X; reflexivity].
  - apply (C14_selection_unique e ts); (split; [assumption|]); intros t.
    + rewrite M1. intuition congruence.
    + rewrite M2, <- Q. intuition congruence.
Qed.

Print Assumptions C66_listed_tiles_are_processed.
Print Assumptions C66_same_tiles_same_result.
