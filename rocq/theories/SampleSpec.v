(** Chunks of a data cube, pixels, and what a run may extract. *)
From Verif Require Import Base CubeModel CubeSpec SampleModel.

(** The chunk lies in its tile and the feature bricks are on the grid of the cube. *)
Definition of_cube (c : cube) (k : chunk) : Prop :=
  cube_ok c /\ size_x c <= 2147483647 * res c /\ size_y c <= 2147483647 * res c /\
  b_ulx k = corner_x c (k_tx k) /\ b_uly k = corner_y c (k_ty k) /\ b_res k = res c /\
  0 < k_ncol k /\ 0 < k_nrow k /\ 0 <= k_x k /\ 0 <= k_y k /\
  (k_x k + 1) * k_ncol k * res c <= size_x c /\ (k_y k + 1) * k_nrow k * res c <= size_y c.

(** (x, y) lies in pixel p of the chunk (left and upper edge included). *)
Definition pixel_of (k : chunk) (p x y : Z) : Prop := exists i j,
  0 <= j < k_ncol k /\ 0 <= i < k_nrow k /\ p = i * k_ncol k + j /\
  b_ulx k + (k_x k * k_ncol k + j) * b_res k <= x < b_ulx k + (k_x k * k_ncol k + j + 1) * b_res k /\
  b_uly k - (k_y k * k_nrow k + i + 1) * b_res k < y <= b_uly k - (k_y k * k_nrow k + i) * b_res k.

(** Masks and features have one value per pixel. *)
Definition cells (k : chunk) : Z := k_ncol k * k_nrow k.
Definition unit_ok (c : cube) (u : chunk * option (list Z) * list feature) : Prop :=
  let '(k, mask, fs) := u in
  of_cube c k /\ (forall m, mask = Some m -> zlen m = cells k) /\
  Forall (fun f => zlen (f_dat f) = cells k /\ zlen (f_msk f) = cells k) fs.
Definition unmasked (mask : option (list Z)) (p : Z) : Prop :=
  match mask with None => True | Some m => exists v, get_at m p = Some v /\ v <> 0 end.

(** Number of active rows. *)
Definition counted (st : state) : Prop := t_active st = zlen (filter r_active (t_rows st)).

(** The record holds the response and coordinates of row r, and the features of a
    pixel of one of the units that contains the row's map position. *)
Definition extracted (s : setup) (units : list (chunk * option (list Z) * list feature)) (r : row) (o : record) : Prop :=
  o_x o = r_x r /\ o_y o = r_y r /\ o_resp o = r_resp r /\
  exists k mask fs p x y, In (k, mask, fs) units /\ position s r = Some (x, y) /\ pixel_of k p x y /\ unmasked mask p /\
    Forall2 (fun f v => get_at (f_dat f) p = Some v /\ (s_exclude s = true -> get_at (f_msk f) p = Some true)) fs (o_feat o).

(** One row before and after a run, and the record it contributed, if any: either the
    row is unchanged and contributed nothing, or it was active, is inactive afterwards,
    and either its record was written or the feature exclusion dropped it. *)
Definition deactivated (r : row) : row := mkRow false (r_x r) (r_y r) (r_resp r).
Definition dropped (s : setup) (units : list (chunk * option (list Z) * list feature)) (r : row) : Prop :=
  s_exclude s = true /\ exists k mask fs f p x y, In (k, mask, fs) units /\ position s r = Some (x, y) /\ pixel_of k p x y /\
    In f fs /\ get_at (f_msk f) p = Some false.
Definition sampled (s : setup) (units : list (chunk * option (list Z) * list feature)) (r r' : row) (o : option record) : Prop :=
  (r' = r /\ o = None) \/
  (r_active r = true /\ r' = deactivated r /\
   match o with Some x => extracted s units r x | None => dropped s units r end).

(** A sample the run had to reach: inside the bounding box the unit uses, in one of
    its unmasked pixels, and not on the left or upper border of a tile. *)
Definition reachable (s : setup) (u : chunk * option (list Z) * list feature) (r : row) : Prop :=
  let '(k, mask, fs) := u in
  in_box (chunk_box s k) (r_x r) (r_y r) = true /\
  exists p x y, position s r = Some (x, y) /\ pixel_of k p x y /\ unmasked mask p /\
    x <> corner_x (s_cube s) (k_tx k) /\ y <> corner_y (s_cube s) (k_ty k).
Definition written (os : list (option record)) : list record := flat_map (fun o => match o with Some x => [x] | None => [] end) os.
