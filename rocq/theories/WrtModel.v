(** Model of the image writer: write_brick in src/modules/cross-level/brick_io-cl.cpp:46-518,
    its caller output_higher_level in src/modules/higher-level/tasks-hl.c:254-318 and
    parse_gdaloptions in src/modules/cross-level/gdalopt-cl.c:118-186.

    Simplifications.  The 16 and 8 bit data types are modelled: their values, and the
    nodata values, are integers that a float represents exactly, and the average of two
    of them is exact before set_brick truncates it.  (_DT_INT_ and _DT_FLOAT_ are not
    modelled.)  A raster file is its size and its bands; geotransform, projection,
    creation options and metadata are left out, and so are drivers without CREATE
    support and write errors of the disk.  A pixel of a new file that was never written
    is [None]: its content depends on the driver, reading it is [UB] here.  A QAI brick
    has one band (merging more than one is [UB] here). *)
From Verif Require Import Base CStr AllocModel Loops StringModel QaiModel CubeDefModel.

(** Output option: enum-cl.h:119-125; data type: enum-cl.h. *)
Inductive omode := OPEN_FALSE | OPEN_CREATE | OPEN_UPDATE | OPEN_MERGE | OPEN_QAI_MERGE | OPEN_CHUNK.
Inductive wtype := DT_SHORT | DT_SMALL | DT_USHORT.
Definition in_type (t : wtype) (v : Z) : bool :=
  match t with
  | DT_SHORT => in_shortb v
  | DT_SMALL => (0 <=? v) && (v <=? 255)
  | DT_USHORT => (0 <=? v) && (v <=? 65535)
  end.

(** The members of brick_t used by write_brick: brick_base-cl.h. *)
Record wband := mkWband { wd_save : bool; wd_name : list Z; wd_nodata : Z; wd_data : list Z }.
Record wbrick := mkWbrick {
  w_open : omode; w_type : wtype; w_nx : Z; w_ny : Z; w_cx : Z; w_cy : Z;
  w_chx : Z; w_chy : Z; w_cols : Z; w_rows : Z; w_bands : list wband; w_explode : bool;
  w_dname : list Z; w_fname : list Z; w_ext : list Z; w_prov : list (list Z) }.

(** A raster file. *)
Record fband := mkFband { fb_name : list Z; fb_nodata : option Z; fb_cells : list (option Z) }.
Record raster := mkRaster { r_nx : Z; r_ny : Z; r_bands : list fband }.
(** A directory entry: a raster, or a file that GDAL cannot open. *)
Inductive entry := Raster (r : raster) | Junk.
(** A line of the provenance file: file, origins, "update" instead of "create". *)
Record pline := mkPline { pl_file : list Z; pl_origin : list (list Z); pl_update : bool }.
Record world := mkWorld { disk : list Z -> option entry; locks : list (list Z); prov : list pline }.

Definition put (d : list Z -> option entry) (n : list Z) (e : entry) : list Z -> option entry :=
  fun m => if streq m n then Some e else d m.
Definition set_disk (w : world) (n : list Z) (e : entry) : world :=
  mkWorld (put (disk w) n e) (locks w) (prov w).
Definition exists_file (w : world) (n : list Z) : bool :=
  match disk w n with Some _ => true | None => false end.

(** CPLLockFile: [None] when somebody else holds the lock until the timeout.
    CPLUnlockFile. *)
Definition lock (n : list Z) (w : world) : option world :=
  if existsb (streq n) (locks w) then None else Some (mkWorld (disk w) (n :: locks w) (prov w)).
Fixpoint drop_lock (n : list Z) (l : list (list Z)) : list (list Z) :=
  match l with [] => [] | m :: t => if streq n m then t else m :: drop_lock n t end.
Definition unlock (n : list Z) (w : world) : world :=
  mkWorld (disk w) (drop_lock n (locks w)) (prov w).

(** set_brick: brick_base-cl.c:2429-2454. *)
Definition set_brick (t : wtype) (v : Z) : outcome Z := if in_type t v then Ret v else UB.

(** One pixel of an existing file against the brick: brick_io-cl.cpp:297-313. *)
Definition merge_pixel (m : omode) (t : wtype) (nodata now old : Z) : outcome Z :=
  if negb (now =? nodata) && negb (old =? nodata) then
    match m with
    | OPEN_MERGE => set_brick t (Z.quot (now + old) 2)
    | OPEN_QAI_MERGE => merge_qai now (to_short now) (to_short old)
    | _ => Ret now
    end
  else if (now =? nodata) && negb (old =? nodata) then set_brick t old
  else Ret now.

(** One band: brick_io-cl.cpp:284-315. *)
Definition merge_band (b : wbrick) (d : wband) (old : fband) : outcome wband :=
  data <- omap (fun p =>
    now <- of_option (get_at (wd_data d) p) ;;
    cell <- of_option (get_at (fb_cells old) p) ;;
    o <- of_option cell ;;
    merge_pixel (w_open b) (w_type b) (wd_nodata d) now o) (zupto (w_nx b * w_ny b)) ;;
  Ret (mkWband (wd_save d) (wd_name d) (wd_nodata d) data).

(** The existing file is read and combined with the brick: brick_io-cl.cpp:252-326.
    [None] is the FAILURE return; otherwise the bands to write and the update flag. *)
Definition mosaicking (m : omode) : bool :=
  match m with OPEN_CREATE | OPEN_CHUNK => false | _ => true end.
Definition mosaic (b : wbrick) (ds : list wband) (e : option entry)
  : outcome (option (list wband * bool)) :=
  match e with
  | None => Ret (Some (ds, false))
  | Some f =>
    if negb (mosaicking (w_open b)) then Ret (Some (ds, false))
    else match f with
         | Junk => Ret None
         | Raster r =>
           if negb (zlen (r_bands r) =? zlen ds) then Ret None
           else if negb (r_nx r =? w_nx b) then Ret None
           else if negb (r_ny r =? w_ny b) then Ret None
           else
             _ <- (match w_open b with
                   | OPEN_QAI_MERGE => if zlen (w_bands b) =? 1 then Ret tt else UB
                   | _ => Ret tt
                   end) ;;
             ds' <- omap (fun p => merge_band b (fst p) (snd p)) (combine ds (r_bands r)) ;;
             Ret (Some (ds', true))
         end
  end.

(** Opened for update or created: brick_io-cl.cpp:329-337. *)
Definition blank (b : wbrick) (nbands : Z) : raster :=
  mkRaster (w_nx b) (w_ny b)
    (map (fun _ => mkFband [] None (map (fun _ => None) (zupto (w_nx b * w_ny b)))) (zupto nbands)).
Definition is_chunk (m : omode) : bool := match m with OPEN_CHUNK => true | _ => false end.
Definition open_out (b : wbrick) (nbands : Z) (e : option entry) : option raster :=
  match e with
  | Some f =>
    if is_chunk (w_open b) && ((w_chx b >? 0) || (w_chy b >? 0))
    then match f with Raster r => Some r | Junk => None end
    else Some (blank b nbands)
  | None => Some (blank b nbands)
  end.

(** The window that is written: brick_io-cl.cpp:339-356 ([None]: invalid chunk). *)
Record window := mkWindow { win_x : Z; win_y : Z; win_nx : Z; win_ny : Z }.
Definition window_of (b : wbrick) : option window :=
  if is_chunk (w_open b) then
    if (w_chx b <? 0) || (w_chy b <? 0) || (w_chx b >=? w_cols b) || (w_chy b >=? w_rows b)
    then None
    else Some (mkWindow (w_chx b * w_cx b) (w_chy b * w_cy b) (w_cx b) (w_cy b))
  else Some (mkWindow 0 0 (w_nx b) (w_ny b)).

(** GDALRasterIO(GF_Write) of one band, with description and nodata value:
    brick_io-cl.cpp:359-410.  [Ret None]: the window is not inside the raster. *)
Definition write_band (r : raster) (win : window) (d : wband) (old : fband) : outcome (option fband) :=
  if (win_x win <? 0) || (win_y win <? 0) || (win_x win + win_nx win >? r_nx r)
     || (win_y win + win_ny win >? r_ny r) then Ret None
  else
    cells <- omap (fun q =>
      let x := q mod r_nx r in
      let y := q / r_nx r in
      if (win_x win <=? x) && (x <? win_x win + win_nx win) &&
         (win_y win <=? y) && (y <? win_y win + win_ny win)
      then v <- of_option (get_at (wd_data d) ((y - win_y win) * win_nx win + (x - win_x win))) ;; Ret (Some v)
      else of_option (get_at (fb_cells old) q)) (zupto (r_nx r * r_ny r)) ;;
    Ret (Some (mkFband (wd_name d) (Some (wd_nodata d)) cells)).

(** The band loop; the file may have more bands than are written.  [Ret None]: FAILURE. *)
Fixpoint write_bands (r : raster) (win : window) (ds : list wband) (bs : list fband)
  : outcome (option (list fband)) :=
  match ds, bs with
  | [], _ => Ret (Some bs)
  | _ :: _, [] => Ret None
  | d :: ds', f :: bs' =>
    f' <- write_band r win d f ;;
    match f' with
    | None => Ret None
    | Some g =>
      rest <- write_bands r win ds' bs' ;;
      Ret (match rest with None => None | Some l => Some (g :: l) end)
    end
  end.

(** The content written into one file, given what is there: brick_io-cl.cpp:250-410.
    [None]: FAILURE. *)
Definition content (b : wbrick) (ds : list wband) (e : option entry)
  : outcome (option (raster * bool)) :=
  m <- mosaic b ds e ;;
  match m with
  | None => Ret None
  | Some (ds', upd) =>
    match open_out b (zlen ds) e with
    | None => Ret None
    | Some r =>
      match window_of b with
      | None => Ret None
      | Some win =>
        bs <- write_bands r win ds' (r_bands r) ;;
        Ret (match bs with None => None | Some l => Some (mkRaster (r_nx r) (r_ny r) l, upd) end)
      end
    end
  end.

(** Which file: brick_io-cl.cpp:109-150, 232-244.  [None]: buffer overflow, FAILURE. *)
Definition path_of (b : wbrick) (bname : list Z) : option (list Z) :=
  let p := w_dname b ++ [47] ++ w_fname b ++ bname ++ [46] ++ w_ext b in
  if (1024 <=? zlen bname) || (1024 <=? zlen p) then None else Some p.
Definition jobs (b : wbrick) : list (list Z * list wband) :=
  let ds := filter wd_save (w_bands b) in
  if w_explode b then map (fun d => ([95] ++ wd_name d, [d])) ds
  else [([], ds)].

(** One file: brick_io-cl.cpp:232-504.  The locks taken are still held on every FAILURE
    return.  (After a failed write the model leaves the previous entry.) *)
Definition write_file (b : wbrick) (provname : list Z) (job : list Z * list wband) (w : world)
  : outcome (rc * world) :=
  match path_of b (fst job) with
  | None => Ret (FAILURE, w)
  | Some path =>
    match lock path w with
    | None => Ret (FAILURE, w)
    | Some w1 =>
      c <- content b (snd job) (disk w1 path) ;;
      match c with
      | None => Ret (FAILURE, w1)
      | Some (r, upd) =>
        let w2 := unlock path (set_disk w1 path (Raster r)) in
        if (zlen (w_prov b) >? 0) && (w_chx b <=? 0) && (w_chy b <=? 0) then
          match lock provname w2 with
          | None => Ret (FAILURE, w2)
          | Some w3 =>
            Ret (SUCCESS, unlock provname
                   (mkWorld (disk w3) (locks w3) (prov w3 ++ [mkPline path (w_prov b) upd])))
          end
        else Ret (SUCCESS, w2)
      end
    end
  end.
Fixpoint write_files (b : wbrick) (provname : list Z) (js : list (list Z * list wband)) (w : world)
  : outcome (rc * world) :=
  match js with
  | [] => Ret (SUCCESS, w)
  | j :: rest =>
    s <- write_file b provname j w ;;
    match fst s with SUCCESS => write_files b provname rest (snd s) | _ => Ret s end
  end.

(** write_brick: brick_io-cl.cpp:46-518.  [provname] is the name of the provenance file
    of the day. *)
Definition write_brick (b : wbrick) (provname : list Z) (w : world) : outcome (rc * world) :=
  match w_open b with
  | OPEN_FALSE => Ret (SUCCESS, w)
  | _ =>
    match lock (w_dname b) w with
    | None => Ret (FAILURE, w)
    | Some w1 => write_files b provname (jobs b) (unlock (w_dname b) w1)
    end
  end.

(** output_higher_level: tasks-hl.c:254-318, the bricks of a processing unit written in
    sequence; the size of a brick is that of all its bands (get_brick_size).  The
    return code of write_brick is ignored.  The result is the number of bytes. *)
Definition type_size (t : wtype) : Z := match t with DT_SMALL => 1 | _ => 2 end.
Definition brick_size (b : wbrick) : Z := zlen (w_bands b) * (w_cx b * w_cy b) * type_size (w_type b).
Fixpoint write_products (bs : list wbrick) (provname : list Z) (w : world) (bytes : Z)
  : outcome (Z * world) :=
  match bs with
  | [] => Ret (bytes, w)
  | b :: rest =>
    s <- write_brick b provname w ;;
    write_products rest provname (snd s)
      (match w_open b with OPEN_FALSE => bytes | _ => bytes + brick_size b end)
  end.
Definition output_higher_level (tile_dir : list Z) (bs : list wbrick) (provname : list Z) (w : world)
  : outcome (Z * world) :=
  match lock tile_dir w with
  | None => Ret (0, w)
  | Some w1 => write_products bs provname (unlock tile_dir w1) 0
  end.

(** Several writers of the same file at the same time (parallel processes of force-l2ps,
    whose lock is CPLLockFile).  A writer waits for the lock (or gives up at the
    timeout), reads the file, computes, writes, releases. *)
Inductive pc := Start | Locked | Ready (c : raster) | Written | Done | GaveUp | Failed.
Record shared := mkShared { sh_file : option entry; sh_lock : option nat; sh_pcs : list pc }.
Definition writer := (wbrick * list wband)%type.
Definition set_pc (s : shared) (i : nat) (p : pc) : list pc := list_set (sh_pcs s) i p.
Inductive step (ws : list writer) : shared -> shared -> Prop :=
| step_lock s i : nth_error (sh_pcs s) i = Some Start -> sh_lock s = None ->
    step ws s (mkShared (sh_file s) (Some i) (set_pc s i Locked))
| step_timeout s i : nth_error (sh_pcs s) i = Some Start -> sh_lock s <> None ->
    step ws s (mkShared (sh_file s) (sh_lock s) (set_pc s i GaveUp))
| step_read s i b ds r upd : nth_error (sh_pcs s) i = Some Locked -> nth_error ws i = Some (b, ds) ->
    content b ds (sh_file s) = Ret (Some (r, upd)) ->
    step ws s (mkShared (sh_file s) (sh_lock s) (set_pc s i (Ready r)))
| step_fail s i b ds : nth_error (sh_pcs s) i = Some Locked -> nth_error ws i = Some (b, ds) ->
    content b ds (sh_file s) = Ret None ->
    step ws s (mkShared (sh_file s) (sh_lock s) (set_pc s i Failed))
| step_write s i r : nth_error (sh_pcs s) i = Some (Ready r) ->
    step ws s (mkShared (Some (Raster r)) (sh_lock s) (set_pc s i Written))
| step_unlock s i : nth_error (sh_pcs s) i = Some Written ->
    step ws s (mkShared (sh_file s) None (set_pc s i Done)).
Inductive steps (ws : list writer) : shared -> shared -> Prop :=
| steps_refl s : steps ws s s
| steps_trans s t u : steps ws s t -> step ws t u -> steps ws s u.
Definition initial (e : option entry) (ws : list writer) : shared :=
  mkShared e None (map (fun _ => Start) ws).

(** parse_gdaloptions: gdalopt-cl.c:118-186.  With fewer than two rows the number of
    options is negative; converted to size_t it cannot be allocated. *)
Record gopt := mkGopt { go_driver : list Z; go_ext : list Z; go_tags : svec; go_vals : svec }.
Definition max_len (f : list Z * list Z -> list Z) (rows : list (list Z * list Z)) : nat :=
  fold_left (fun n r => if (n <? length (f r))%nat then length (f r) else n) rows 0%nat.
Fixpoint gdal_rows (rows : list (list Z * list Z)) (o : nat) (drv ext : option (list Z)) (tags vals : svec)
  : outcome (option (list Z) * option (list Z) * svec * svec) :=
  match rows with
  | [] => Ret (drv, ext, tags, vals)
  | (t, v) :: rest =>
    if streq t (` "DRIVER") then d <- fill_string v ;; gdal_rows rest o (Some d) ext tags vals
    else if streq t (` "EXTENSION") then e <- fill_string v ;; gdal_rows rest o drv (Some e) tags vals
    else tags' <- fill_string_vector tags o t ;;
         vals' <- fill_string_vector vals o v ;;
         gdal_rows rest (S o) drv ext tags' vals'
  end.
Definition parse_gdaloptions (file : option (list Z)) : outcome gopt :=
  r <- read_tagvalue file ;;
  match r with
  | None => Exit
  | Some rows =>
    if zlen rows - 2 <? 0 then Exit
    else
      tags <- alloc_string_vector (Z.to_nat (zlen rows - 2)) (max_len fst rows) ;;
      vals <- alloc_string_vector (Z.to_nat (zlen rows - 2)) (max_len snd rows) ;;
      s <- gdal_rows rows 0 None None tags vals ;;
      match s with
      | (Some d, Some e, tags', vals') => Ret (mkGopt d e tags' vals')
      | _ => Exit
      end
  end.
