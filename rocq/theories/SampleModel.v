(** Model of sample_points, src/modules/higher-level/sample-hl.c:82-270, and of
    get_brick_x / get_brick_y / get_brick_geo, brick_base-cl.c:1624-1686.
    Simplified: coordinates are exact (see CubeModel); the coordinate warpers are
    arbitrary functions on such coordinates; the parallel loop over the samples is
    sequential (the iterations touch different rows only); the three output files
    are one list of records. *)
From Verif Require Import Base Loops CubeModel.

(** One chunk of features: tile, chunk in the tile, chunk size in pixels, upper left
    corner (geotran) and resolution of the brick. *)
Record chunk := mkChunk { k_tx : Z; k_ty : Z; k_x : Z; k_y : Z; k_ncol : Z; k_nrow : Z; b_ulx : Z; b_uly : Z; b_res : Z }.

(** brick_base-cl.c:1624-1627 and 1658-1661: _GT_RES_ is the (positive) x resolution
    in both. *)
Definition brick_x (k : chunk) (j : Z) : Z := b_ulx k + j * b_res k.
Definition brick_y (k : chunk) (i : Z) : Z := b_uly k + i * b_res k.

Record box := mkBox { minx : Z; maxx : Z; miny : Z; maxy : Z }.
(** 134-140. *)
Definition box_projected (k : chunk) : box :=
  mkBox (brick_x k (k_x k * k_ncol k)) (brick_x k ((k_x k + 1) * k_ncol k))
        (brick_y k ((k_y k + 1) * k_nrow k)) (brick_y k (k_y k * k_nrow k)).
(** 142-171; [g] is warp_any_to_geo. *)
Definition box_geographic (g : Z -> Z -> Z * Z) (k : chunk) : box :=
  let geo j i := g (brick_x k j) (brick_y k i) in
  let j0 := k_x k * k_ncol k in let j1 := (k_x k + 1) * k_ncol k in
  let i0 := k_y k * k_nrow k in let i1 := (k_y k + 1) * k_nrow k in
  let ul := geo j0 i0 in let ur := geo j1 i0 in let ll := geo j0 i1 in let lr := geo j1 i1 in
  let x0 := Z.min (fst ul) (fst ll) in let x1 := Z.max (fst ur) (fst lr) in
  let y0 := Z.min (snd ll) (snd lr) in let y1 := Z.max (snd ul) (snd ur) in
  let jm := j0 + Z.quot (k_ncol k) 2 in let im := i0 + Z.quot (k_nrow k) 2 in
  let upper := geo jm i0 in let lower := geo jm i1 in let left := geo j0 im in let right := geo j1 im in
  mkBox (if fst left <? x0 then x0 - 2 * Z.abs (fst left - x0) else x0)
        (if fst right >? x1 then x1 + 2 * Z.abs (fst right - x1) else x1)
        (if snd lower <? y0 then y0 - 2 * Z.abs (snd lower - y0) else y0)
        (if snd upper >? y1 then y1 + 2 * Z.abs (snd upper - y1) else y1).

Record row := mkRow { r_active : bool; r_x : Z; r_y : Z; r_resp : list Z }.
Record record := mkRec { o_feat : list Z; o_resp : list Z; o_x : Z; o_y : Z }.
Record feature := mkFeat { f_dat : list Z; f_msk : list bool }.

(** 200-222: index of the pixel in this chunk, None if it is in another one. *)
Definition locate (c : cube) (k : chunk) (x y : Z) : outcome (option Z) :=
  f <- of_option (tile_find c x y) ;;
  if negb (id_x f =? k_tx k) || negb (id_y f =? k_ty k) then Ret None
  else
    tj <- chk_int (Z.quot (x - tile_x f) (b_res k)) ;;
    ti <- chk_int (Z.quot (tile_y f - y) (b_res k)) ;;
    if negb (Z.quot tj (k_ncol k) =? k_x k) || negb (Z.quot ti (k_nrow k) =? k_y k) then Ret None
    else Ret (Some ((ti - k_y k * k_nrow k) * k_ncol k + (tj - k_x k * k_ncol k))).

(** Settings: cube, PROJECTED, feature exclusion, both warpers. *)
Record setup := mkSetup { s_cube : cube; s_projected : bool; s_exclude : bool;
  s_to_map : Z -> Z -> option (Z * Z); s_to_geo : Z -> Z -> Z * Z }.
Definition chunk_box (s : setup) (k : chunk) : box :=
  if s_projected s then box_projected k else box_geographic (s_to_geo s) k.
Definition in_box (b : box) (x y : Z) : bool :=
  negb (x <? minx b) && negb (x >? maxx b) && negb (y <? miny b) && negb (y >? maxy b).

(** Map position of a sample: 184-198. *)
Definition position (s : setup) (r : row) : option (Z * Z) :=
  if s_projected s then Some (r_x r, r_y r) else s_to_map s (r_x r) (r_y r).

(** 177-240: one sample; the row, whether it was found, the record if it was added. *)
Definition sample_row (s : setup) (k : chunk) (mask : option (list Z)) (fs : list feature) (r : row)
  : outcome (row * bool * option record) :=
  let skip := Ret (r, false, None) in
  if negb (r_active r) then skip
  else if negb (in_box (chunk_box s k) (r_x r) (r_y r)) then skip
  else
    match position s r with
    | None => skip
    | Some (x, y) =>
      l <- locate (s_cube s) k x y ;;
      match l with
      | None => skip
      | Some p =>
        m <- match mask with None => Ret 1 | Some ms => of_option (get_at ms p) end ;;
        if m =? 0 then skip
        else
          vs <- omap (fun f => v <- of_option (get_at (f_dat f) p) ;; b <- of_option (get_at (f_msk f) p) ;; Ret (v, b)) fs ;;
          let valid := forallb (fun vb : Z * bool => negb (negb (snd vb) && s_exclude s)) vs in
          Ret (mkRow false (r_x r) (r_y r) (r_resp r), true,
               if valid then Some (mkRec (map fst vs) (r_resp r) (r_x r) (r_y r)) else None)
      end
    end.

(** The table and the output files. *)
Record state := mkState { t_rows : list row; t_active : Z; t_out : list record }.
Definition records (rs : list (row * bool * option record)) : list record :=
  flat_map (fun x => match snd x with Some r => [r] | None => [] end) rs.
Definition sample_points (s : setup) (st : state) (kf : chunk * option (list Z) * list feature) : outcome state :=
  let '(k, mask, fs) := kf in
  if t_active st =? 0 then Ret st
  else
    rs <- omap (sample_row s k mask fs) (t_rows st) ;;
    Ret (mkState (map (fun x => fst (fst x)) rs) (t_active st - zlen (filter (fun x => snd (fst x)) rs)) (t_out st ++ records rs)).

(** All processing units of a run (tasks-hl.c:200-203). *)
Definition run (s : setup) (units : list (chunk * option (list Z) * list feature)) (st : state) : outcome state :=
  ofold (sample_points s) units st.
