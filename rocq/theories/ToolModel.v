(** Model of auxiliary programs: src/main/aux-level/force-hist.c,
    force-stratified-sample.c, force-stack.c, force-tabulate-grid.c and
    force-tile-finder.c.  What GDAL reads is an input; what it is told to write is the
    result.  Sums of table columns and coordinates are exact numbers. *)
From Coq Require Import Reals.
From Flocq Require Import Core.
From Verif Require Import Base Loops RoundModel CubeModel.

(** An image of shorts: lines of pixels.  The pixels in the order in which the programs
    visit them, as (row, column, value). *)
Definition pixels (img : list (list Z)) : list (Z * Z * Z) :=
  concat (map (fun il : Z * list Z => map (fun jv : Z * Z => (fst il, fst jv, snd jv)) (combine (zupto (zlen (snd il))) (snd il)))
    (combine (zupto (zlen img)) img)).

(** ** Histogram: force-hist.c:144-219 *)
(** 151-152: the index of a class. *)
Definition offset : Z := 32768.
Definition cells : Z := 65536.
Definition bump (c : Z -> Z) (k : Z) : Z -> Z := fun x => if x =? k then c x + 1 else c x.
(** 185-200. *)
Definition tally (nodata : Z) (img : list (list Z)) : outcome (Z -> Z) :=
  ofold (fun c (px : Z * Z * Z) =>
    let v := snd px in
    if v =? nodata then Ret c
    else let row := v + offset in if (0 <=? row) && (row <? cells) then Ret (bump c row) else UB) (pixels img) (fun _ => 0).
(** 173-177: None is an image without nodata value; (short) of the value. 207-211: the rows written, as (class, count). *)
Definition histogram (nodata : option Z) (img : list (list Z)) : outcome (list (Z * Z)) :=
  match nodata with
  | None => Exit
  | Some d =>
    if in_shortb d then
      c <- tally d img ;;
      Ret (map (fun row => (row - offset, c row)) (filter (fun row => negb (c row =? 0)) (zupto cells)))
    else UB
  end.

(** ** Stratified sample: force-stratified-sample.c:176-449 *)
#[local] Open Scope R_scope.
(** A row of the table of sample sizes: (int) of the class, size and count. *)
Record stratum := mkStratum { st_class : Z; st_size : R; st_count : R }.
(** 237-241: later rows overwrite earlier ones; unlisted classes keep the zeros of the new array. *)
Definition entry (rows : list stratum) (c : Z) : option stratum := find (fun r => (st_class r =? c)%Z) (rev rows).
Definition rand_max : Z := 2147483647.
(** 295. *)
Definition draw (r : Z) : R := rnd64 (IZR r / IZR rand_max).
(** 240, 297: dictionary probability >= draw; x / 0 is infinite or not a number. *)
Definition admits (rows : list stratum) (c : Z) (p : R) : bool :=
  match entry rows c with
  | None => Rle_bool p 0
  | Some r => if Req_bool (st_count r) 0 then Rlt_bool 0 (st_size r)
              else Rle_bool p (rnd64 (rnd64 (st_size r / st_count r) * 2))
  end.
(** 302-306: a preselected point. *)
Record point := mkPoint { pt_class : Z; pt_x : R; pt_y : R; pt_draw : R; pt_keep : bool }.
(** geotran[0], [1], [3], [5]. *)
Record geo := mkGeo { g_x0 : R; g_dx : R; g_y0 : R; g_dy : R }.
Definition point_at (g : geo) (i j v : Z) (p : R) : point :=
  mkPoint v (g_x0 g + IZR j * g_dx g + g_dx g * 0.5) (g_y0 g + IZR i * g_dy g + g_dy g * 0.5) p true.
(** The counts of the dictionary, the points, the number of random numbers used. *)
Record state := mkState { s_cnt : Z -> Z; s_pts : list point; s_used : nat }.
(** 291-312, one pixel; [n] rows in the table of points, [rand] the results of rand(). *)
Definition visit (rows : list stratum) (n nodata : Z) (rand : nat -> Z) (g : geo) (s : state) (px : Z * Z * Z) : state :=
  let '(i, j, v) := px in
  if (v =? nodata)%Z then s
  else
    let p := draw (rand (s_used s)) in
    if admits rows v p
    then mkState (bump (s_cnt s) v) (if (zlen (s_pts s) <? n)%Z then s_pts s ++ [point_at g i j v p] else s_pts s) (S (s_used s))
    else mkState (s_cnt s) (s_pts s) (S (s_used s)).
Definition preselect (rows : list stratum) (n nodata : Z) (rand : nat -> Z) (g : geo) (img : list (list Z)) : state :=
  fold_left (visit rows n nodata rand g) (pixels img) (mkState (fun _ => 0%Z) [] 0).
(** 338-351: the row with the largest number among the rows of a class; 0 if there is none. *)
Definition pick (c : Z) (pts : list point) : R * Z :=
  fold_left (fun acc (kp : Z * point) =>
    if negb (pt_class (snd kp) =? c)%Z || negb (pt_keep (snd kp)) then acc
    else if Rlt_bool (fst acc) (pt_draw (snd kp)) then (pt_draw (snd kp), fst kp) else acc) (combine (zupto (zlen pts)) pts) (-1, 0%Z).
(** 356: rows without a point are not kept anyway. *)
Definition drop (p : point) : point := mkPoint (pt_class p) (pt_x p) (pt_y p) (pt_draw p) false.
Definition unset (n : Z) (c : Z) (pts : list point) : outcome (list point) :=
  let k := snd (pick c pts) in
  if (n <=? k)%Z then UB
  else match get_at pts k with Some p => of_option (set_at pts k (drop p)) | None => Ret pts end.
(** 336-360: size_sampled - size_target times. *)
Fixpoint thin (m : nat) (n c : Z) (pts : list point) : outcome (list point) :=
  match m with O => Ret pts | S k => q <- unset n c pts ;; thin k n c q end.
(** 332-334: the class and size of the dictionary. *)
Definition thin_row (rows : list stratum) (n : Z) (cnt : Z -> Z) (pts : list point) (r : stratum) : outcome (list point) :=
  match entry rows (st_class r) with
  | None => UB
  | Some e =>
    let target := Ztrunc (st_size e) in
    if in_intb target then thin (Z.to_nat (cnt (st_class r) - target)) n (st_class r) pts else UB
  end.
(** 254: the number of rows. *)
Definition room (rows : list stratum) : Z := Ztrunc (fold_left (fun s r => s + st_size r) rows 0 * 10).
(** The points written: 411-437. *)
Definition stratified (rows : list stratum) (nodata : option Z) (rand : nat -> Z) (g : geo) (img : list (list Z)) : outcome (list point) :=
  if negb (forallb (fun r => (0 <=? st_class r + offset)%Z && (st_class r + offset <? cells)%Z) rows) then UB
  else if negb (in_intb (room rows)) then UB
  else
    match nodata with
    | None => Exit
    | Some d =>
      if in_shortb d then
        let n := room rows in
        let s := preselect rows n d rand g img in
        pts <- ofold (thin_row rows n (s_cnt s)) rows (s_pts s) ;;
        Ret (filter pt_keep pts)
      else UB
    end.
(** 92-166: the options; [o] is never set. *)
Inductive opt := OptO (f : list Z) | OptF (f : list Z) | OptB (b : Z).
Record options := mkOptions { op_out : option (list Z); op_format : option (list Z); op_band : Z }.
Definition sample_options (l : list opt) : option options :=
  let o := false in
  let '(r, f) := fold_left (fun (a : options * bool) x => let '(r, f) := a in
    match x with
    | OptO n => (mkOptions (Some n) (op_format r) (op_band r), f)
    | OptF n => (mkOptions (op_out r) (Some n) (op_band r), true)
    | OptB b => (mkOptions (op_out r) (op_format r) b, f)
    end) l (mkOptions None None 1, false) in
  if existsb (fun x => match x with OptB b => (b <? 1)%Z | _ => false end) l then None
  else if (negb o && f) || (negb f && o) then None else Some r.

#[local] Open Scope Z_scope.
(** ** Stack: force-stack.c:200-275 *)
(** Directory, columns, rows, bands, position of an input. *)
Record input := mkInput { in_dir : list Z; in_nx : Z; in_ny : Z; in_nb : Z; in_geo : list R }.
Fixpoint same (a b : list Z) : bool :=
  match a, b with [], [] => true | x :: r, y :: s => (x =? y) && same r s | _, _ => false end.
(** 226-246: the tests; 252-275: the bands of the output as (number of the input, band from 1). *)
Definition stack (out_dir : list Z) (ins : list input) : option (list (Z * Z)) :=
  match ins with
  | [] => None
  | first :: rest =>
    if forallb (fun x => same (in_dir x) (in_dir first) && (in_nx x =? in_nx first) && (in_ny x =? in_ny first)) rest && same out_dir (in_dir first) then
      if existsb (fun x => negb (in_nb x =? in_nb first)) rest
      then Some (concat (map (fun fx : Z * input => map (fun b => (fst fx, b + 1)) (zupto (in_nb (snd fx)))) (combine (zupto (zlen ins)) ins)))
      else Some (concat (map (fun b => map (fun f => (f, b + 1)) (zupto (zlen ins))) (zupto (in_nb first))))
    else None
  end.

(** ** Tile grid: force-tabulate-grid.c:210-289, from the projected corners of the bounding box *)
Definition smallest (l : list Z) : Z := fold_left Z.min l 2147483647.
Definition largest (l : list Z) : Z := fold_left Z.max l (-2147483648).
Record tile_poly := mkPoly { tp_x : Z; tp_y : Z; tp_left : Z; tp_right : Z; tp_top : Z; tp_bottom : Z }.
(** 285-288. *)
Definition polygon (c : cube) (px py : Z) : tile_poly :=
  mkPoly px py (ox c + size_x c * px) (ox c + size_x c * (px + 1)) (oy c - size_y c * py) (oy c - size_y c * (py + 1)).
Definition tabulate (c : cube) (corners : list (Z * Z)) : option (list tile_poly) :=
  let xs := map fst corners in
  let ys := map snd corners in
  match tile_find c (smallest xs) (largest ys), tile_find c (largest xs) (smallest ys) with
  | Some a, Some b =>
    Some (concat (map (fun py => map (fun px => polygon c px py) (zrange (id_x a) (id_x b))) (zrange (id_y a) (id_y b))))
  | _, _ => None
  end.
(** ** Tile finder: force-tile-finder.c:181-185, tile and pixel (column, row). *)
Definition find_pixel (c : cube) (x y : Z) : option (Z * Z * Z * Z) :=
  match tile_find c x y with
  | Some f => Some (id_x f, id_y f, (x - tile_x f) ÷ res c, (tile_y f - y) ÷ res c)
  | None => None
  end.
