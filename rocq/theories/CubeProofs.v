From Verif Require Import Base CubeModel CubeSpec.

Lemma up_while_spec x s : 0 < s -> forall f t p, x - t <= Z.of_nat f ->
  exists k, 0 <= k /\ up_while f x t s p = Some (t + k * s, p + k) /\ x <= t + k * s /\
    (k = 0 \/ t + (k - 1) * s < x).
Proof.
  intros S; induction f as [|f IH]; intros t p F; cbn [up_while].
  - replace (x >? t) with false by lia. exists 0. repeat split; try lia. do 2 f_equal; lia.
  - destruct (x >? t) eqn:E.
    + destruct (IH (t + s) (p + 1) ltac:(lia)) as (k & K & -> & H1 & H2).
      exists (k + 1). repeat split; try lia. f_equal; f_equal; lia.
    + exists 0. repeat split; try lia. do 2 f_equal; lia.
Qed.

Lemma down_while_spec x s : 0 < s -> forall f t p, t - x <= Z.of_nat f ->
  exists k, 0 <= k /\ down_while f x t s p = Some (t - k * s, p - k) /\ t - k * s <= x /\
    (k = 0 \/ x < t - (k - 1) * s).
Proof.
  intros S; induction f as [|f IH]; intros t p F; cbn [down_while].
  - replace (x <? t) with false by lia. exists 0. repeat split; try lia. do 2 f_equal; lia.
  - destruct (x <? t) eqn:E.
    + destruct (IH (t - s) (p - 1) ltac:(lia)) as (k & K & -> & H1 & H2).
      exists (k + 1). repeat split; try lia. f_equal; f_equal; lia.
    + exists 0. repeat split; try lia. do 2 f_equal; lia.
Qed.

(** y is x mirrored. *)
Lemma y_down_mirror : forall f y t s p, y_down f y t s p =
  match up_while f (- y) (- t) s p with Some (t', p') => Some (- t', p') | None => None end.
Proof.
  induction f as [|f IH]; intros y t s p; cbn [y_down up_while].
  - replace (- y >? - t) with (y <? t) by lia. destruct (y <? t); auto. do 2 f_equal; lia.
  - replace (- y >? - t) with (y <? t) by lia. destruct (y <? t); [|do 2 f_equal; lia].
    rewrite IH. replace (- (t - s)) with (- t + s) by lia. reflexivity.
Qed.
Lemma y_up_mirror : forall f y t s p, y_up f y t s p =
  match down_while f (- y) (- t) s p with Some (t', p') => Some (- t', p') | None => None end.
Proof.
  induction f as [|f IH]; intros y t s p; cbn [y_up down_while].
  - replace (- y <? - t) with (y >? t) by lia. destruct (y >? t); auto. do 2 f_equal; lia.
  - replace (- y <? - t) with (y >? t) by lia. destruct (y >? t); [|do 2 f_equal; lia].
    rewrite IH. replace (- (t + s)) with (- t - s) by lia. reflexivity.
Qed.

Lemma find_y_mirror y o s : find_y y o s =
  match find_x (- y) (- o) s with Some (t, p) => Some (- t, p) | None => None end.
Proof.
  unfold find_y, find_x, fuel_for.
  replace (Z.abs (- y - - o)) with (Z.abs (y - o)) by lia.
  replace (- y >? - o) with (y <? o) by lia. replace (- y <? - o) with (y >? o) by lia.
  destruct (y <? o).
  - rewrite y_down_mirror. destruct (up_while _ _ _ _ _) as [[t p]|]; auto. do 2 f_equal; lia.
  - destruct (y >? o).
    + rewrite y_up_mirror. destruct (down_while _ _ _ _ _) as [[t p]|]; auto.
    + do 2 f_equal; lia.
Qed.

(** The exact result along one axis. *)
Lemma find_x_spec x o s : 0 < s -> exists p, find_x x o s = Some (o + p * s, p) /\
  (o < x -> 0 <= p /\ o + p * s < x <= o + p * s + s) /\
  (x <= o -> p <= 0 /\ o + p * s <= x < o + p * s + s).
Proof.
  intros S; unfold find_x. destruct (x >? o) eqn:E1.
  - destruct (up_while_spec x s S (fuel_for x o) o 0) as (k & K & -> & H1 & H2); [unfold fuel_for; lia|].
    exists (k - 1). split; [f_equal; f_equal; lia|].
    destruct H2 as [->|H2]; [lia|]. split; intros; [|lia].
    assert (k <> 0) by (intros ->; lia). lia.
  - destruct (x <? o) eqn:E2.
    + destruct (down_while_spec x s S (fuel_for x o) o 0) as (k & K & -> & H1 & H2); [unfold fuel_for; lia|].
      exists (- k). split; [f_equal; f_equal; lia|]. split; intros; [lia|]. destruct H2 as [->|H2]; lia.
    + exists 0. split; [f_equal; f_equal; lia|]. lia.
Qed.

Lemma find_y_spec y o s : 0 < s -> exists q, find_y y o s = Some (o - q * s, q) /\
  (y < o -> 0 <= q /\ o - q * s - s <= y < o - q * s) /\
  (o <= y -> q <= 0 /\ o - q * s - s < y <= o - q * s).
Proof.
  intros S; rewrite find_y_mirror.
  destruct (find_x_spec (- y) (- o) s S) as (p & -> & H1 & H2).
  exists p. split; [f_equal; f_equal; lia|]. split; intros; [specialize (H1 ltac:(lia))|specialize (H2 ltac:(lia))]; lia.
Qed.

Lemma tile_find_covers c x y : 0 < size_x c -> 0 < size_y c ->
  exists p q, tile_find c x y = Some (mkFound (corner_x c p) (corner_y c q) p q) /\ covers c p q x y.
Proof.
  intros SX SY; unfold tile_find, corner_x, corner_y, covers.
  destruct (find_x_spec x (ox c) (size_x c) SX) as (p & -> & A1 & A2).
  destruct (find_y_spec y (oy c) (size_y c) SY) as (q & -> & B1 & B2).
  exists p, q; split; auto. unfold corner_x, corner_y.
  destruct (Z.ltb_spec (ox c) x), (Z.ltb_spec y (oy c)); lia.
Qed.

Lemma covers_interior c p q p' q' x y : 0 < size_x c -> 0 < size_y c ->
  interior c p q x y -> covers c p' q' x y -> p = p' /\ q = q'.
Proof. unfold interior, covers, corner_x, corner_y; intros; split; nia. Qed.

Lemma tile_find_interior c p q x y : 0 < size_x c -> 0 < size_y c -> interior c p q x y ->
  tile_find c x y = Some (mkFound (corner_x c p) (corner_y c q) p q).
Proof.
  intros SX SY I. destruct (tile_find_covers c x y SX SY) as (p' & q' & -> & C).
  destruct (covers_interior c p q p' q' x y SX SY I C) as [-> ->]. auto.
Qed.

(** Half-open in the quadrant left of and above the origin. *)
Lemma tile_find_half_open c x y : 0 < size_x c -> 0 < size_y c -> x <= ox c -> oy c <= y ->
  exists p q, tile_find c x y = Some (mkFound (corner_x c p) (corner_y c q) p q) /\ half_open c p q x y.
Proof.
  intros SX SY HX HY; unfold tile_find, corner_x, corner_y, half_open.
  destruct (find_x_spec x (ox c) (size_x c) SX) as (p & -> & A1 & A2).
  destruct (find_y_spec y (oy c) (size_y c) SY) as (q & -> & B1 & B2).
  exists p, q; split; auto. unfold corner_x, corner_y. lia.
Qed.

(** ** Alignment *)
Lemma step_right_spec u r : 0 < r -> forall f t, u - t <= Z.of_nat f ->
  exists k, 0 <= k /\ step_right f t u r = Some (t + k * r) /\ u <= t + k * r /\
    (k = 0 \/ t + (k - 1) * r < u).
Proof.
  intros S; induction f as [|f IH]; intros t F; cbn [step_right].
  - replace (t <? u) with false by lia. exists 0. repeat split; try lia. f_equal; lia.
  - destruct (t <? u) eqn:E.
    + destruct (IH (t + r) ltac:(lia)) as (k & K & -> & H1 & H2).
      exists (k + 1). repeat split; try lia. f_equal; lia.
    + exists 0. repeat split; try lia. f_equal; lia.
Qed.
Lemma step_down_spec u r : 0 < r -> forall f t, t - u <= Z.of_nat f ->
  exists k, 0 <= k /\ step_down f t u r = Some (t - k * r) /\ t - k * r <= u /\
    (k = 0 \/ u < t - (k - 1) * r).
Proof.
  intros S; induction f as [|f IH]; intros t F; cbn [step_down].
  - replace (t >? u) with false by lia. exists 0. repeat split; try lia. f_equal; lia.
  - destruct (t >? u) eqn:E.
    + destruct (IH (t - r) ltac:(lia)) as (k & K & -> & H1 & H2).
      exists (k + 1). repeat split; try lia. f_equal; lia.
    + exists 0. repeat split; try lia. f_equal; lia.
Qed.

Lemma tile_align_spec c ulx uly : cube_ok c -> exists nx ny p q,
  tile_align c ulx uly = Some (nx, ny) /\ covers c p q ulx uly /\
  on_grid (corner_x c p) (res c) nx /\ on_grid (corner_y c q) (res c) ny /\
  ulx - res c <= nx < ulx /\ uly < ny <= uly + res c.
Proof.
  intros (SX & SY & R). unfold tile_align.
  destruct (tile_find_covers c ulx uly SX SY) as (p & q & -> & C). cbn [tile_x tile_y].
  destruct (step_right_spec ulx (res c) R (fuel_for ulx (corner_x c p)) (corner_x c p)) as (k & K & -> & H1 & H2);
    [unfold fuel_for; lia|].
  destruct (step_down_spec uly (res c) R (fuel_for uly (corner_y c q)) (corner_y c q)) as (m & M & -> & G1 & G2);
    [unfold fuel_for; lia|].
  exists (corner_x c p + k * res c - res c), (corner_y c q - m * res c + res c), p, q.
  split; auto. split; auto. destruct C as [CX CY].
  split; [exists (k - 1); lia|]. split; [exists (1 - m); lia|].
  split; [destruct H2 as [->|H2]; lia|destruct G2 as [->|G2]; lia].
Qed.

(** If the tile size is a multiple of the resolution, this is one grid for all
    tiles. *)
Lemma tile_align_global c ulx uly : cube_ok c -> (res c | size_x c) -> (res c | size_y c) ->
  exists nx ny, tile_align c ulx uly = Some (nx, ny) /\
  on_grid (ox c) (res c) nx /\ on_grid (oy c) (res c) ny /\
  ulx - res c <= nx < ulx /\ uly < ny <= uly + res c.
Proof.
  intros O (a & A) (b & B). destruct (tile_align_spec c ulx uly O) as (nx & ny & p & q & E & C & (k & K) & (m & M) & H).
  exists nx, ny. split; auto. unfold corner_x, corner_y in *.
  split; [exists (p * a + k); rewrite K, A; ring|]. split; auto. exists (m - q * b); rewrite M, B; ring.
Qed.

Lemma on_grid_between o r u v : 0 < r -> on_grid o r u -> on_grid o r v -> u - r <= v < u -> v = u - r.
Proof.
  intros R (a & A) (b & B) H.
  assert (v - u = (b - a) * r) as D by (rewrite A, B; ring).
  assert (b - a < 0) by nia. assert (-1 <= b - a) by nia.
  replace (b - a) with (-1) in D by lia. lia.
Qed.

Lemma tile_align_aligned c ulx uly : cube_ok c -> (res c | size_x c) -> (res c | size_y c) ->
  on_grid (ox c) (res c) ulx -> on_grid (oy c) (res c) uly ->
  tile_align c ulx uly = Some (ulx - res c, uly + res c).
Proof.
  intros O A B GX GY. destruct (tile_align_global c ulx uly O A B) as (nx & ny & E & NX & NY & HX & HY).
  rewrite E. destruct O as (_ & _ & R). do 2 f_equal.
  - apply (on_grid_between (ox c) (res c)); auto.
  - assert (uly = ny - res c); [|lia]. apply (on_grid_between (oy c) (res c)); auto. lia.
Qed.
