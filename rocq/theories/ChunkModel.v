(** Reading a chunk of a tile together with a margin from the neighbouring chunks
    and tiles, and cropping the margin again: read-ard-hl.c:958-1505,
    brick_base-cl.c:388-521.

    Simplifications: sizes and distances are whole projection units, so a
    remainder larger than the tolerance 5e-3 is a remainder different from 0 and
    quotients are exact; overflow of pixel counts is not modelled.  Files are
    found by tile number (the code rewrites the tile in the path:
    read-ard-hl.c:1361-1373).  The metadata of the brick are not modelled. *)
From Verif Require Import Base Loops.

(** Image file of one tile: pixel size, columns, rows, bands (row by row). *)
Record file := mkFile { f_res : Z; f_nx : Z; f_ny : Z; f_bands : list (list Z) }.

(** What is the same for all chunks: resolution, chunk size and tile size. *)
Record layout := mkLayout { l_res : Z; l_cx : Z; l_cy : Z; l_tx : Z; l_ty : Z }.

(** _DT_SMALL_ and _DT_SHORT_; the values read are short: const-cl.h:39. *)
Inductive datatype := DT_SMALL | DT_SHORT.
Definition store (dt : datatype) (v : Z) : Z := match dt with DT_SMALL => v mod 256 | DT_SHORT => v end.

(** GDALRasterIO (GDAL): the window must lie in the raster. *)
Fixpoint all_some {A} (l : list (option A)) : option (list A) :=
  match l with
  | [] => Some []
  | None :: _ => None
  | Some a :: t => match all_some t with Some s => Some (a :: s) | None => None end
  end.
Definition window (band : list Z) (nx xoff yoff w h : Z) : option (list Z) :=
  all_some (flat_map (fun row => map (fun col => get_at band ((yoff + row) * nx + (xoff + col))) (zupto w)) (zupto h)).
Definition raster_io (f : file) (b xoff yoff w h : Z) : option (list Z) :=
  if (xoff <? 0) || (yoff <? 0) || (f_nx f <? xoff + w) || (f_ny f <? yoff + h) then None
  else match get_at (f_bands f) (b - 1) with
       | Some band => window band (f_nx f) xoff yoff w h
       | None => None
       end.

(** read_chunk: read-ard-hl.c:958-1262.  [bands]: the numbers of the bands on disc
    in the order of the brick, 0 = blank band (lines 1151-1164; negative ones are
    skipped and left out here).  [resample]: decimation by GDAL or reduce_psf,
    only used for a file of another resolution.  None = NULL.  Line 1000, for
    x, does not add the position of the chunk, unlike line 1005 for y. *)
Definition read_chunk (l : layout) (resample : Z -> Z -> Z -> Z -> list Z -> list Z) (dt : datatype)
    (bands : list Z) (f : file) (chx chy px py : Z) : option (list (list Z)) :=
  let width := if px =? 0 then l_cx l else Z.abs px in
  let height := if py =? 0 then l_cy l else Z.abs py in
  let x_offset := if px <? 0 then l_cx l + px else chx * l_cx l in
  let y_offset := if py <? 0 then chy * l_cy l + l_cy l + py else chy * l_cy l in
  if (0 <? Z.rem width (l_res l)) || (0 <? Z.rem height (l_res l)) ||
     (0 <? Z.rem width (f_res f)) || (0 <? Z.rem height (f_res f)) ||
     (0 <? Z.rem y_offset (f_res f)) || (0 <? Z.rem x_offset (f_res f)) then None
  else
    let nx := Z.quot width (l_res l) in let ny := Z.quot height (l_res l) in
    let nxd := Z.quot width (f_res f) in let nyd := Z.quot height (f_res f) in
    let xo := Z.quot x_offset (f_res f) in let yo := Z.quot y_offset (f_res f) in
    all_some (map (fun b =>
      if b =? 0 then Some (repeat 0 (Z.to_nat (nx * ny)))
      else if (b <? 1) || (zlen (f_bands f) <? b) then None
      else match raster_io f b xo yo nxd nyd with
           | Some buf => Some (map (store dt) (if (nxd =? nx) && (nyd =? ny) then buf else resample nxd nyd nx ny buf))
           | None => None
           end) bands).

(** Neighbouring chunk, for one axis: read-ard-hl.c:1338-1358.
    [n]: chunks per tile, [c], [t]: chunk and tile, [rel]: -1, 0, 1. *)
Definition neighbour (n c t rel : Z) : Z * Z :=
  let c' := c + rel in
  if c' <? 0 then (n - 1, t - 1) else if n <=? c' then (0, t + 1) else (c', t).

(** Where a part goes, for one axis: number of pixels and offset,
    read-ard-hl.c:1417-1437. *)
Definition insert_at (chunk pixels rel : Z) : Z * Z :=
  if rel <? 0 then (pixels, 0) else if rel =? 0 then (chunk, pixels) else (pixels, chunk + pixels * 2 - pixels).

(** Copying one part into one band: read-ard-hl.c:1448-1471 (there the loop over
    bands is the inner one). *)
Definition copy_cell (W offy offx w : Z) (src : option (list Z)) (blank : Z) (dst : list Z) (row col : Z) : outcome (list Z) :=
  v <- match src with None => Ret blank | Some s => of_option (get_at s (row * w + col)) end ;;
  of_option (set_at dst ((row + offy) * W + col + offx) v).
Definition copy_block (W offy offx h w : Z) (src : option (list Z)) (blank : Z) (dst : list Z) : outcome (list Z) :=
  ofold (fun d row => ofold (fun d col => copy_cell W offy offx w src blank d row col) (zrange 0 (w - 1)) d) (zrange 0 (h - 1)) dst.

Fixpoint copy_bands (W offy offx h w : Z) (src : option (list (list Z))) (blank : Z) (b : Z) (dst : list (list Z)) : outcome (list (list Z)) :=
  match dst with
  | [] => Ret []
  | d :: t =>
      s <- match src with None => Ret None | Some bs => s <- of_option (get_at bs b) ;; Ret (Some s) end ;;
      d' <- copy_block W offy offx h w s blank d ;;
      t' <- copy_bands W offy offx h w src blank (b + 1) t ;;
      Ret (d' :: t')
  end.

(** The nine parts in the order of the loops (row, column): read-ard-hl.c:1331-1332. *)
Definition parts : list (Z * Z) :=
  [(-1, -1); (-1, 0); (-1, 1); (0, -1); (0, 0); (0, 1); (1, -1); (1, 0); (1, 1)].

Section Padding.
Context (l : layout) (resample : Z -> Z -> Z -> Z -> list Z -> list Z) (dt : datatype)
  (bands : list Z) (nodata : Z) (files : Z -> Z -> option file).

(** One round of the loop: read-ard-hl.c:1331-1483. *)
Definition add_part (tx ty cx cy radius : Z) (ard : list (list Z)) (brick : list (list Z)) (rel : Z * Z) : outcome (option (list (list Z))) :=
  let '(ry, rx) := rel in
  let pixels := Z.quot radius (l_res l) in
  let npx := Z.quot (l_cx l) (l_res l) in let npy := Z.quot (l_cy l) (l_res l) in
  let '(cy', ty') := neighbour (Z.quot (l_ty l) (l_cy l)) cy ty ry in
  let '(cx', tx') := neighbour (Z.quot (l_tx l) (l_cx l)) cx tx rx in
  let '(h, offy) := insert_at npy pixels ry in
  let '(w, offx) := insert_at npx pixels rx in
  let copy src := b <- copy_bands (npx + pixels * 2) offy offx h w src (store dt nodata) 0 brick ;; Ret (Some b) in
  if (ry =? 0) && (rx =? 0) then copy (Some ard)
  else match files tx' ty' with
       | None => copy None
       | Some f => match read_chunk l resample dt bands f cx' cy' (rx * radius) (ry * radius) with
                   | None => Ret None
                   | Some b => copy (Some b)
                   end
       end.

Fixpoint add_parts (tx ty cx cy radius : Z) (ard : list (list Z)) (rels : list (Z * Z)) (brick : list (list Z)) : outcome (option (list (list Z))) :=
  match rels with
  | [] => Ret (Some brick)
  | r :: t =>
      o <- add_part tx ty cx cy radius ard brick r ;;
      match o with None => Ret None | Some b => add_parts tx ty cx cy radius ard t b end
  end.

(** add_chunks: read-ard-hl.c:1284-1499; bands are zero after allocation. *)
Definition add_chunks (tx ty cx cy radius : Z) (ard : list (list Z)) : outcome (option (list (list Z))) :=
  let pixels := Z.quot radius (l_res l) in
  let W := Z.quot (l_cx l) (l_res l) + pixels * 2 in
  let H := Z.quot (l_cy l) (l_res l) + pixels * 2 in
  add_parts tx ty cx cy radius ard parts (map (fun _ => repeat 0 (Z.to_nat (W * H))) ard).

(** How read_features (read-ard-hl.c:618-626), and in the same way read_mask,
    read_confield and read_ard, read a chunk. *)
Definition read_padded (tx ty cx cy radius : Z) : outcome (option (list (list Z))) :=
  match files tx ty with
  | None => Ret None
  | Some f => match read_chunk l resample dt bands f cx cy 0 0 with
              | None => Ret None
              | Some ard => if 0 <? radius then add_chunks tx ty cx cy radius ard else Ret (Some ard)
              end
  end.
End Padding.

(** crop_brick: brick_base-cl.c:388-521, one band.  Types other than short use the
    indices the other way round (lines 467-507). *)
Inductive celltype := CT_SHORT | CT_SMALL | CT_FLOAT | CT_INT | CT_USHORT.
Definition crop_cell {A} (ct : celltype) (from : list A) (nx nx_ pix : Z) (to : list A) (i j : Z) : outcome (list A) :=
  let small := i * nx_ + j in
  let large := (i + pix) * nx + (j + pix) in
  match ct with
  | CT_SHORT => v <- of_option (get_at from large) ;; of_option (set_at to small v)
  | _ => v <- of_option (get_at from small) ;; of_option (set_at to large v)
  end.
Definition crop_band {A} (zero : A) (ct : celltype) (nx ny pix : Z) (from : list A) : outcome (list A) :=
  let nx_ := nx - 2 * pix in let ny_ := ny - 2 * pix in
  ofold (fun t i => ofold (fun t j => crop_cell ct from nx nx_ pix t i j) (zrange 0 (nx_ - 1)) t) (zrange 0 (ny_ - 1))
        (repeat zero (Z.to_nat (nx_ * ny_))).
Definition crop_brick {A} (zero : A) (ct : celltype) (nx ny res radius : Z) (bands : list (list A)) : outcome (option (list (list A))) :=
  if radius <=? 0 then Ret None
  else bs <- omap (crop_band zero ct nx ny (Z.quot radius res)) bands ;; Ret (Some bs).
