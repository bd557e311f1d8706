(** Model of the output of Level 2 products: src/modules/lower-level/cube-ll.c (tile_level2,
    start_datacube), of the quicklook (compile_l2_ovv in atmo-ll.c) and of
    src/main/higher-level/force-qai-inflate.c.  Coordinates and resolutions are integers that
    count a common unit (CubeModel.v): quotients and their rounding are exact.  The corners
    of the image in the projection of the cube are inputs. *)
From Coq Require Import Reals.
From Flocq Require Import Core.
From Verif Require Import Base Loops RoundModel CubeModel QaiModel TileModel.

(** ** Start of the data cube: cube-ll.c:319-427 *)
(** fmod(size, resolution) > tol is refused: 324-330; [tol] is 5e-3 of the map unit. *)
Definition size_accepted (tol s r : Z) : bool := Z.rem s r <=? tol.
Definition start_accepted (tol : Z) (c : cube) : bool := size_accepted tol (size_x c) (res c) && size_accepted tol (size_y c) (res c).
(** 332-333: dim_tile_pixels. *)
Definition dim_cols (c : cube) : Z := size_x c / res c.
Definition dim_rows (c : cube) : Z := size_y c / res c.
(** 387-421: the tiles of the four corners, as columns and rows. *)
Definition corner_tiles (c : cube) (corners : list (Z * Z)) : option (list (Z * Z)) :=
  fold_right (fun p acc => match tile_find c (fst p) (snd p), acc with Some f, Some l => Some ((id_x f, id_y f) :: l) | _, _ => None end) (Some []) corners.
Definition tile_extent (c : cube) (corners : list (Z * Z)) : option extent :=
  match corner_tiles c corners with
  | Some ts => Some (mkExtent (fold_left Z.min (map fst ts) 2147483647) (fold_left Z.max (map fst ts) (-2147483648))
                              (fold_left Z.min (map snd ts) 2147483647) (fold_left Z.max (map snd ts) (-2147483648)))
  | None => None
  end.

(** ** Tiling: cube-ll.c:44-227 *)
(** A product: columns, rows, resolution, bands with their nodata values. *)
Record product := mkProduct { pr_nx : Z; pr_ny : Z; pr_res : Z; pr_bands : list (list Z * Z) }.
(** 121-123: the dimensions of a tile of the product. *)
Definition tile_nx (c : cube) (p : product) : Z := (dim_cols c * res c) ÷ pr_res p.
Definition tile_ny (c : cube) (p : product) : Z := (dim_rows c * res c) ÷ pr_res p.
(** 107-108, 128-129. *)
Definition tile_ulx (c : cube) (tx : Z) : Z := ox c + tx * size_x c.
Definition tile_uly (c : cube) (ty : Z) : Z := oy c - ty * size_y c.
Definition col_start (c : cube) (ulx tx : Z) (p : product) : Z := (tile_ulx c tx - ulx) / pr_res p.
Definition row_start (c : cube) (uly ty : Z) (p : product) : Z := (uly - tile_uly c ty) / pr_res p.
(** 151-152. *)
Definition outside (p : product) (i j : Z) : bool := (i <? 0) || (i >=? pr_ny p) || (j <? 0) || (j >=? pr_nx p).
(** The pixels of a tile: 145-149; 138-142 and 154: a band. *)
Definition positions (c : cube) (p : product) : list (Z * Z) :=
  flat_map (fun i => map (fun j => (i, j)) (zupto (tile_nx c p))) (zupto (tile_ny c p)).
Definition tile_pixel (p : product) (i0 j0 : Z) (band : list Z * Z) (ij : Z * Z) : outcome Z :=
  let i := fst ij + i0 in
  let j := snd ij + j0 in
  if outside p i j then Ret (snd band) else of_option (get_at (fst band) (pr_nx p * i + j)).
Definition tile_product (c : cube) (ulx uly tx ty : Z) (p : product) : outcome (list (list Z)) :=
  omap (fun band => omap (tile_pixel p (row_start c uly ty p) (col_start c ulx tx p) band) (positions c p)) (pr_bands p).
(** 157-163: the words of the quality band at pixels of the image. *)
Definition words (c : cube) (ulx uly tx ty : Z) (p : product) (tile : list (list Z)) : list Z :=
  match tile with
  | q :: _ => map snd (filter (fun w => negb (outside p (fst (fst w) + row_start c uly ty p) (snd (fst w) + col_start c ulx tx p))) (combine (positions c p) q))
  | [] => []
  end.
Definition valid_word (w : Z) : bool := negb (on (get_flag Off w)).
Definition cloudy_word (w : Z) : bool := (get_flag Cloud w >? 0) || on (get_flag Shadow w).
Definition n_valid (ws : list Z) : Z := zlen (filter valid_word ws).
Definition n_cloudy (ws : list Z) : Z := zlen (filter (fun w => valid_word w && cloudy_word w) ws).
(** 174, 182: more clouds than allowed; maxtc is a float. *)
Definition too_cloudy (maxtc : R) (nv nc : Z) : bool := Rlt_bool maxtc (rnd64 (rnd64 (IZR nc / IZR nv) * 100)).
(** A tile that is written: its number, position, pixel size (of the first product, 78 and 188-198) and
    the bands of all products. *)
Record written := mkWritten { w_tile : Z * Z; w_left : Z; w_top : Z; w_pixel : Z; w_products : list (list (list Z)) }.
Definition one_tile (c : cube) (maxtc : R) (ulx uly : Z) (ps : list product) (t : Z * Z) : outcome (option written) :=
  match ps with
  | [] => UB
  | qai :: _ =>
    q <- tile_product c ulx uly (fst t) (snd t) qai ;;
    let ws := words c ulx uly (fst t) (snd t) qai q in
    if n_valid ws =? 0 then Ret None
    else if too_cloudy maxtc (n_valid ws) (n_cloudy ws) then Ret None
    else
      l <- omap (tile_product c ulx uly (fst t) (snd t)) ps ;;
      Ret (Some (mkWritten t (tile_ulx c (fst t)) (tile_uly c (snd t)) (pr_res qai) l))
  end.
(** 99-104: the loops; [allow] is the tile allow-list (TileModel.v). *)
Definition tiles_of (e : extent) (allow : list (Z * Z)) : list (Z * Z) :=
  filter (fun t => tile_allowlisted allow (fst t) (snd t)) (flat_map (fun ty => map (fun tx => (tx, ty)) (zrange (xmin e) (xmax e))) (zrange (ymin e) (ymax e))).
Definition tile_level2 (c : cube) (maxtc : R) (e : extent) (allow : list (Z * Z)) (ulx uly : Z) (ps : list product) : outcome (list written) :=
  l <- omap (one_tile c maxtc ulx uly ps) (tiles_of e allow) ;;
  Ret (concat (map (fun o => match o with Some w => [w] | None => [] end) l)).

(** ** Quicklook: atmo-ll.c:1306-1404 *)
Record colour := mkColour { c_r : Z; c_g : Z; c_b : Z }.
(** 1316-1320, 1350-1352: size and the pixel shown. *)
Definition look_size (n r r' : Z) : Z := (n * r) ÷ r'.
Definition look_from (k r r' : Z) : Z := (k * r') ÷ r.
(** 1383-1402. *)
Definition stretch (v : Z) : Z :=
  if v <? 0 then 0 else if v >? 2500 then 255 else Ztrunc (rnd64 (rnd64 (IZR v / 2500) * 255)).
(** 1354-1381. *)
Definition look_colour (w r g b : Z) : colour :=
  if on (get_flag Off w) then mkColour 0 0 0
  else if get_flag Cloud w =? 3 then mkColour 255 0 0
  else if get_flag Cloud w >? 0 then mkColour 255 0 255
  else if on (get_flag Shadow w) then mkColour 0 255 255
  else if on (get_flag Snow w) then mkColour 255 255 0
  else if on (get_flag Saturation w) then mkColour 255 127 39
  else if on (get_flag Subzero w) then mkColour 34 177 76
  else mkColour (stretch r) (stretch g) (stretch b).
(** Pixel (i,j) of the quicklook of an image of nx columns and resolution r. *)
Definition look_pixel (nx r r' : Z) (qai red green blue : list Z) (ij : Z * Z) : outcome colour :=
  let p := look_from (fst ij) r r' * nx + look_from (snd ij) r r' in
  w <- of_option (get_at qai p) ;;
  x <- of_option (get_at red p) ;;
  y <- of_option (get_at green p) ;;
  z <- of_option (get_at blue p) ;;
  Ret (look_colour w x y z).

(** ** Inflated quality: force-qai-inflate.c:204-217; bands in the order of the _QAI_FLAG_ enum (enum-cl.h). *)
Definition flag_order : list flag := [Off; Cloud; Shadow; Snow; Water; Aerosol; Subzero; Saturation; Lowsun; Illumination; Slope; Vaporfill].
(** small is an unsigned byte. *)
Definition inflate (qai : list Z) : list (list Z) := map (fun f => map (fun w => get_flag f w mod 256) qai) flag_order.
