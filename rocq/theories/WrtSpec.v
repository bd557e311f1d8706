(** Specification of the image writer: file names, the rule for one pixel, what a file
    holds afterwards. *)
From Verif Require Import Base CStr StringModel QaiModel QaiSpec WrtModel.

(** Bricks that are written as a whole: every band has a value for every pixel, the
    values fit the data type; quality words are 16 bit, in one band. *)
Definition whole (b : wbrick) : Prop :=
  0 < w_nx b /\ 0 < w_ny b /\ w_open b <> OPEN_FALSE /\ w_open b <> OPEN_CHUNK /\
  (forall d, In d (w_bands b) -> zlen (wd_data d) = w_nx b * w_ny b /\
     forall v, In v (wd_data d) -> in_type (w_type b) v = true) /\
  (w_open b = OPEN_QAI_MERGE -> w_type b = DT_SHORT /\ zlen (w_bands b) = 1).

(** The pixel rule: a valid value replaces a missing one; where both exist, the newer
    value (update), their average rounded towards zero (merge) or the worse of the two
    states of every flag (quality; the better one of the illumination states, see C08). *)
Definition combined (m : omode) (nd now old v : Z) : Prop :=
  (old = nd -> v = now) /\
  (old <> nd -> now = nd -> v = old) /\
  (old <> nd -> now <> nd ->
     match m with
     | OPEN_MERGE => Z.abs (2 * v) <= Z.abs (now + old) <= Z.abs (2 * v) + 1 /\ 0 <= v * (now + old)
     | OPEN_QAI_MERGE => in_short v /\ (0 <= v <-> 0 <= now) /\ forall f, flag_value f v =
         match f with
         | Illumination => Z.min (flag_value f now) (flag_value f old)
         | _ => worst f (flag_value f now) (flag_value f old)
         end
     | _ => v = now
     end).

(** A file into which the bands [ds] can be mosaicked: same size, same number of bands,
    every pixel written. *)
Definition fits (b : wbrick) (ds : list wband) (r : raster) : Prop :=
  r_nx r = w_nx b /\ r_ny r = w_ny b /\ zlen (r_bands r) = zlen ds /\
  forall f, In f (r_bands r) -> zlen (fb_cells f) = w_nx b * w_ny b /\
    forall c, In c (fb_cells f) -> exists v, c = Some v /\ in_type (w_type b) v = true.

(** The bands of the brick as they are in a new file. *)
Definition plain (d : wband) : fband := mkFband (wd_name d) (Some (wd_nodata d)) (map Some (wd_data d)).
Definition fresh (b : wbrick) (ds : list wband) : raster := mkRaster (w_nx b) (w_ny b) (map plain ds).

(** What the file holds after mosaicking onto [r0]. *)
Definition mosaicked (b : wbrick) (ds : list wband) (r0 r : raster) : Prop :=
  r_nx r = w_nx b /\ r_ny r = w_ny b /\ zlen (r_bands r) = zlen ds /\
  forall i d, get_at ds i = Some d -> exists f0 f,
    get_at (r_bands r0) i = Some f0 /\ get_at (r_bands r) i = Some f /\
    fb_name f = wd_name d /\ fb_nodata f = Some (wd_nodata d) /\
    zlen (fb_cells f) = w_nx b * w_ny b /\
    forall p, 0 <= p < w_nx b * w_ny b -> exists now old v,
      get_at (wd_data d) p = Some now /\ get_at (fb_cells f0) p = Some (Some old) /\
      get_at (fb_cells f) p = Some (Some v) /\ combined (w_open b) (wd_nodata d) now old v.
Definition result (b : wbrick) (ds : list wband) (before : option entry) (after : option entry) : Prop :=
  match w_open b, before with
  | OPEN_CREATE, _ | _, None => after = Some (Raster (fresh b ds))
  | _, Some (Raster r0) => exists r, after = Some (Raster r) /\ mosaicked b ds r0 r
  | _, Some Junk => False
  end.

(** The files of a brick: DIR/NAME.EXT with all saved bands, or one DIR/NAME_BAND.EXT
    per saved band. *)
Definition file_name (b : wbrick) (suffix : list Z) : list Z :=
  w_dname b ++ [47] ++ w_fname b ++ suffix ++ [46] ++ w_ext b.
Definition saved (b : wbrick) : list wband := filter wd_save (w_bands b).
Definition is_file (b : wbrick) (path : list Z) (ds : list wband) : Prop :=
  if w_explode b then exists d, In d (saved b) /\ ds = [d] /\ path = file_name b (95 :: wd_name d)
  else ds = saved b /\ path = file_name b [].
Definition short_names (b : wbrick) : Prop := forall path ds, is_file b path ds -> zlen path < 1024.
Definition distinct_names (b : wbrick) : Prop := w_explode b = true -> NoDup (map wd_name (saved b)).

(** No stale or foreign lock is in the way. *)
Definition unlocked (b : wbrick) (provname : list Z) (w : world) : Prop :=
  ~ In (w_dname b) (locks w) /\ ~ In provname (locks w) /\
  forall path ds, is_file b path ds -> ~ In path (locks w).

(** Values of a file. *)
Definition value_at (w : world) (path : list Z) (band p : Z) : option Z :=
  match disk w path with
  | Some (Raster r) =>
    match get_at (r_bands r) band with
    | Some f => match get_at (fb_cells f) p with Some c => c | None => None end
    | None => None
    end
  | _ => None
  end.

(** Lines of the provenance file that name [path]. *)
Definition lines_for (path : list Z) (w : world) : list pline :=
  filter (fun l => streq (pl_file l) path) (prov w).

(** Writing one after the other, all with success. *)
Inductive written (provname : list Z) : list wbrick -> world -> world -> Prop :=
| written_nil w : written provname [] w w
| written_cons b bs w w1 w2 : write_brick b provname w = Ret (SUCCESS, w1) ->
    written provname bs w1 w2 -> written provname (b :: bs) w w2.

(** A tile [t] written in chunks: chunk [c] = (column, row) with its bands. *)
Definition part (t : wbrick) (c : Z * Z) (bands : list wband) : wbrick :=
  mkWbrick OPEN_CHUNK (w_type t) (w_nx t) (w_ny t) (w_cx t) (w_cy t) (fst c) (snd c) (w_cols t) (w_rows t)
    bands (w_explode t) (w_dname t) (w_fname t) (w_ext t) (w_prov t).
Definition chunked (t : wbrick) : Prop :=
  0 < w_cx t /\ 0 < w_cy t /\ w_nx t = w_cols t * w_cx t /\ w_ny t = w_rows t * w_cy t.
Definition in_grid (t : wbrick) (c : Z * Z) : Prop := 0 <= fst c < w_cols t /\ 0 <= snd c < w_rows t.
Definition chunk_bands (t : wbrick) (bands : Z * Z -> list wband) : Prop :=
  forall c, in_grid t c ->
    (forall d, In d (bands c) -> zlen (wd_data d) = w_cx t * w_cy t) /\
    map wd_name (saved (part t c (bands c))) = map wd_name (saved (part t (0, 0) (bands (0, 0)))).

(** Order in which concurrent writers were served: each found what its predecessor left. *)
Inductive serial (ws : list writer) (e : option entry) : list nat -> option entry -> Prop :=
| serial_nil : serial ws e [] e
| serial_snoc l f i b ds r upd : serial ws e l f -> nth_error ws i = Some (b, ds) ->
    content b ds f = Ret (Some (r, upd)) -> serial ws e (l ++ [i]) (Some (Raster r)).

(** The names of all files of a brick, in the order of its bands. *)
Definition files (b : wbrick) : list (list Z) :=
  if w_explode b then map (fun d => file_name b (95 :: wd_name d)) (saved b) else [file_name b []].

(** GDAL option files: the rows other than DRIVER and EXTENSION. *)
Definition option_rows (rows : list (list Z * list Z)) : list (list Z * list Z) :=
  filter (fun r => negb (streq (fst r) (` "DRIVER")) && negb (streq (fst r) (` "EXTENSION"))) rows.

(** Images of the same product that go into the same files. *)
Definition same_target (b b' : wbrick) : Prop :=
  w_nx b' = w_nx b /\ w_ny b' = w_ny b /\ w_type b' = w_type b /\ w_open b' = w_open b /\
  w_explode b' = w_explode b /\ w_dname b' = w_dname b /\ w_fname b' = w_fname b /\ w_ext b' = w_ext b /\
  map wd_name (saved b') = map wd_name (saved b).
(** The brick has [x] at pixel [p] of band [i] of a file, and nodata value [nd]. *)
Definition offers (b : wbrick) (path : list Z) (i p nd x : Z) : Prop :=
  exists ds d, is_file b path ds /\ get_at ds i = Some d /\ wd_nodata d = nd /\ get_at (wd_data d) p = Some x.
(** The pixel after a sequence of images. *)
Inductive chain (m : omode) (nd : Z) : list Z -> option Z -> option Z -> Prop :=
| chain_nil o : chain m nd [] o o
| chain_first x l v : chain m nd l (Some x) v -> chain m nd (x :: l) None v
| chain_next x l old u v : combined m nd x old u -> chain m nd l (Some u) v -> chain m nd (x :: l) (Some old) v.

(** Values of one file. *)
Definition entry_value (e : option entry) (i p : Z) : option Z := value_at (mkWorld (fun _ => e) [] []) [] i p.

(** Concurrent writers of one file, and what each has for a pixel. *)
Definition common_file (b0 : wbrick) (ws : list writer) : Prop :=
  w_explode b0 = false /\ forall b ds, In (b, ds) ws -> whole b /\ same_target b0 b /\ ds = saved b.
Definition brings (ws : list writer) (i p nd : Z) (k : nat) (x : Z) : Prop :=
  exists b ds, nth_error ws k = Some (b, ds) /\ offers b (file_name b []) i p nd x.

(** Bytes of the requested products: every band of every product that is not switched off. *)
Fixpoint requested_bytes (bs : list wbrick) : Z :=
  match bs with
  | [] => 0
  | b :: rest =>
    (match w_open b with
     | OPEN_FALSE => 0
     | _ => zlen (w_bands b) * (w_cx b * w_cy b) * match w_type b with DT_SMALL => 1 | _ => 2 end
     end) + requested_bytes rest
  end.
