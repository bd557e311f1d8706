(** Model of src/modules/cross-level/tile-cl.c (and the extent part of
    update_datacube_extent in cube-cl.c). *)
From Verif Require Import Base CStr StringModel Loops.

(** What fopen/strcmp see for FILE_TILE: the word NULL, a file that cannot be
    opened, or a file with this content. *)
Inductive tile_file := NoList | Unreadable | Content (bytes : list Z).

(** strncpy(c, buffer+off, 4); c[4] = 0; atoi(c): tile-cl.c:75-78. *)
Definition parse_coord (buf : list Z) (off : nat) : outcome Z :=
  s <- of_option (cstr_of (skipn off buf)) ;;
  atoi (firstn 4 s).

(** Line loop: tile-cl.c:70-80.  None = FAILURE. *)
Fixpoint read_tiles (k : nat) (buf file : list Z) : outcome (option (list (Z * Z))) :=
  match k with
  | O => Ret (Some [])
  | S k' =>
    match fgets_buf buf file with
    | None => Ret None
    | Some (buf', rest) =>
      x <- parse_coord buf' 1 ;;
      y <- parse_coord buf' 7 ;;
      r <- read_tiles k' buf' rest ;;
      Ret (match r with Some l => Some ((x, y) :: l) | None => None end)
    end
  end.

(** tile_readlist: tile-cl.c:40-91.  The x and y arrays are one list of pairs
    (both have length k); a count too large for memory is not modelled. *)
Definition tile_readlist (f : tile_file) : outcome (option (list (Z * Z))) :=
  match f with
  | NoList => Ret (Some [])
  | Unreadable => Ret None
  | Content bytes =>
    match fgets_buf (repeat 0 1024) bytes with
    | None => Ret None
    | Some (buf, rest) =>
      s <- of_option (cstr_of buf) ;;
      k <- atoi s ;;
      if k <=? 0 then Ret None else read_tiles (Z.to_nat k) buf rest
    end
  end.

(** tile_allowlisted: tile-cl.c:104-117. *)
Definition tile_allowlisted (allow : list (Z * Z)) (x y : Z) : bool :=
  if zlen allow >? 0
  then fold_left (fun b t => if (x =? fst t) && (y =? snd t) then true else b) allow false
  else true.

Record extent := mkExtent { xmin : Z; xmax : Z; ymin : Z; ymax : Z }.

(** dim_tiles.cells: cube-cl.c:197-199 (int arithmetic). *)
Definition dim_cells (e : extent) : outcome Z :=
  c <- chk_int (xmax e - xmin e) ;; cols <- chk_int (c + 1) ;;
  r <- chk_int (ymax e - ymin e) ;; rows <- chk_int (r + 1) ;;
  chk_int (cols * rows).

(** State of the loop: the two arrays and n_allowed_tiles. *)
Record active := mkActive { a_x : list Z; a_y : list Z; a_n : Z }.

(** Loop body: tile-cl.c:146-151. *)
Definition active_step (allow : list (Z * Z)) (ty : Z) (st : active) (tx : Z) : outcome active :=
  if tile_allowlisted allow tx ty then
    ax <- of_option (set_at (a_x st) (a_n st) tx) ;;
    ay <- of_option (set_at (a_y st) (a_n st) ty) ;;
    Ret (mkActive ax ay (a_n st + 1))
  else Ret st.

(** tile_active: tile-cl.c:129-164.  Result: the return code and the arrays.  A
    negative cell count (one inverted axis) is a huge size_t for calloc, which
    fails: exit. *)
Definition tile_active (f : tile_file) (e : extent) : outcome (rc * active) :=
  r <- tile_readlist f ;;
  match r with
  | None => Ret (FAILURE, mkActive [] [] 0)
  | Some allow =>
    cells <- dim_cells e ;;
    if cells <? 0 then Exit else
    let init := mkActive (repeat 0 (Z.to_nat cells)) (repeat 0 (Z.to_nat cells)) 0 in
    st <- ofold (fun st ty => ofold (active_step allow ty) (zrange (xmin e) (xmax e)) st)
                (zrange (ymin e) (ymax e)) init ;;
    Ret (if a_n st =? 0 then FAILURE else SUCCESS, st)
  end.

(** The tiles found by readers of cube->allowed_tiles[..][0 .. n_allowed_tiles). *)
Definition active_tiles (st : active) : list (Z * Z) :=
  firstn (Z.to_nat (a_n st)) (combine (a_x st) (a_y st)).
