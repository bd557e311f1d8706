(** C15, C16: the tiling grid. *)
From Verif Require Import Base CubeModel CubeSpec CubeProofs.

(** C15: tile_find ends and names a tile whose closed footprint contains the
    coordinate, and returns that tile's corner on the grid. *)
Theorem C15_tile_contains_partial : forall c x y, 0 < size_x c -> 0 < size_y c ->
  exists p q, tile_find c x y = Some (mkFound (corner_x c p) (corner_y c q) p q) /\ covers c p q x y.
Proof. exact tile_find_covers. Qed.

(** Away from tile borders that tile is the only one. *)
Theorem C15_interior_unique_partial : forall c p q x y, 0 < size_x c -> 0 < size_y c ->
  interior c p q x y ->
  tile_find c x y = Some (mkFound (corner_x c p) (corner_y c q) p q) /\
  forall p' q', covers c p' q' x y -> p' = p /\ q' = q.
Proof.
  intros c p q x y SX SY I; split; [exact (tile_find_interior c p q x y SX SY I)|].
  intros p' q' C. destruct (covers_interior c p q p' q' x y SX SY I C); auto.
Qed.

(** Left of and above the origin the footprints are half-open as claimed. *)
Theorem C15_half_open_partial : forall c x y, 0 < size_x c -> 0 < size_y c -> x <= ox c -> oy c <= y ->
  exists p q, tile_find c x y = Some (mkFound (corner_x c p) (corner_y c q) p q) /\ half_open c p q x y.
Proof. exact tile_find_half_open. Qed.

(** Elsewhere they are not: the upper-left corner of every tile right of (below)
    the first one is assigned to its left (upper) neighbour. *)
Theorem C15_half_open_refuted : forall c p q, 0 < size_x c -> 0 < size_y c -> 0 < p -> 0 < q ->
  tile_find c (corner_x c p) (corner_y c q) =
    Some (mkFound (corner_x c (p - 1)) (corner_y c (q - 1)) (p - 1) (q - 1)) /\
  half_open c p q (corner_x c p) (corner_y c q) /\
  ~ half_open c (p - 1) (q - 1) (corner_x c p) (corner_y c q).
Proof.
  intros c p q SX SY P Q. split; [|unfold half_open, corner_x, corner_y; lia].
  unfold tile_find.
  destruct (find_x_spec (corner_x c p) (ox c) (size_x c) SX) as (p' & -> & A1 & A2).
  destruct (find_y_spec (corner_y c q) (oy c) (size_y c) SY) as (q' & -> & B1 & B2).
  unfold corner_x, corner_y in *.
  assert (p' = p - 1) as -> by (specialize (A1 ltac:(nia)); nia).
  assert (q' = q - 1) as -> by (specialize (B1 ltac:(nia)); nia).
  reflexivity.
Qed.

Example C15_example :
  let c := mkCube (-100) 500 30 30 10 in
  tile_find c (-35) 412 = Some (mkFound (-40) 440 2 2) /\ interior c 2 2 (-35) 412 /\
  tile_find c (-70) 470 = Some (mkFound (-100) 500 0 0) /\
  tile_find c (-130) 530 = Some (mkFound (-130) 530 (-1) (-1)) /\
  tile_find c (-131) 531 = Some (mkFound (-160) 560 (-2) (-2)).
Proof. cbv; intuition congruence. Qed.

(** C16: the aligned corner lies on the pixel grid, at most one pixel up and
    left, so the image stays covered. *)
Theorem C16_align_partial : forall c ulx uly, cube_ok c ->
  (res c | size_x c) -> (res c | size_y c) ->
  exists nx ny, tile_align c ulx uly = Some (nx, ny) /\
  on_grid (ox c) (res c) nx /\ on_grid (oy c) (res c) ny /\
  ulx - res c <= nx < ulx /\ uly < ny <= uly + res c.
Proof. exact tile_align_global. Qed.

(** Also if tile size is no multiple of the resolution: then on the grid of the
    tile that holds the corner. *)
Theorem C16_align_any_size_partial : forall c ulx uly, cube_ok c -> exists nx ny p q,
  tile_align c ulx uly = Some (nx, ny) /\ covers c p q ulx uly /\
  on_grid (corner_x c p) (res c) nx /\ on_grid (corner_y c q) (res c) ny /\
  ulx - res c <= nx < ulx /\ uly < ny <= uly + res c.
Proof. exact tile_align_spec. Qed.

(** But an aligned corner never stays: it moves by exactly one pixel, each time. *)
Theorem C16_aligned_moves_refuted : forall c ulx uly, cube_ok c ->
  (res c | size_x c) -> (res c | size_y c) ->
  on_grid (ox c) (res c) ulx -> on_grid (oy c) (res c) uly ->
  tile_align c ulx uly = Some (ulx - res c, uly + res c).
Proof. exact tile_align_aligned. Qed.

Example C16_example :
  let c := mkCube (-100) 500 30 30 10 in
  cube_ok c /\ (res c | size_x c) /\ tile_align c (-33) 417 = Some (-40, 420) /\
  tile_align c (-40) 420 = Some (-50, 430) /\ on_grid (ox c) (res c) (-40).
Proof.
  cbv zeta. split; [repeat split; reflexivity|]. split; [exists 3; reflexivity|].
  split; [reflexivity|]. split; [reflexivity|]. exists 6; reflexivity.
Qed.

Print Assumptions C15_tile_contains_partial.
Print Assumptions C15_interior_unique_partial.
Print Assumptions C15_half_open_partial.
Print Assumptions C15_half_open_refuted.
Print Assumptions C16_align_partial.
Print Assumptions C16_align_any_size_partial.
Print Assumptions C16_aligned_moves_refuted.
