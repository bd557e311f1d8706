(** Model of the cloud module of Level 2: src/modules/lower-level/cloud-ll.c.
    Reflectances are shorts (1.0 = 10000), temperatures are in 1/100 K, masks are lists of
    booleans row by row, QAI words are as in QaiModel.v.  Parallel loops over pixels are run
    in sequential order (each iteration touches only its own pixel). *)
From Coq Require Import Reals.
From Flocq Require Import Core.
From Verif Require Import Base Loops RoundModel QaiModel QueueModel BufferModel DistModel RecoModel.

Definition is_off (w : Z) : bool := on (get_flag Off w).
(** A decimal constant p/q of type double. *)
Definition dbl (p q : Z) : R := rnd64 (IZR p / IZR q).
(** Share in percent, 100.0*k/(float)n stored in a float: lines 161, 743, 1335.  [n] is not 0. *)
Definition percent (k n : Z) : R := rnd32 (rnd64 (100 * IZR k / rnd32 (IZR n))).

(** ** Potential cloud pixels: 228-408 *)
(** One valid pixel: the bands of TOA, the temperature (NULL for sensors without thermal
    band), the slope (EXP, 1/100 of percent) and the saturation flag of QAI. *)
Record pixel := mkPx { p_blue : Z; p_green : Z; p_red : Z; p_nir : Z; p_sw1 : Z; p_sw2 : Z;
                       p_temp : option Z; p_slope : Z; p_sat : bool }.
(** 282-288: normalised difference, a float. *)
Definition ratio (a b : Z) : R :=
  if a + b =? 0 then rnd32 (dbl 1 100) else rnd32 (IZR (a - b) / IZR (a + b)).
Definition ndvi_of (p : pixel) : R := ratio (p_nir p) (p_red p).
Definition ndsi_of (p : pixel) : R := ratio (p_green p) (p_sw1 p).
(** 291-297. *)
Definition snow_test (p : pixel) : bool :=
  match p_temp p with
  | Some t => Rlt_bool (dbl 15 100) (ndsi_of p) && (t <? 28300) && (p_nir p >? 1100) && (p_green p >? 1000)
  | None => false
  end ||
  (Rlt_bool (dbl 4 10) (ndsi_of p) && (p_sw2 p <? 1100) && (p_nir p >? 1100) && (p_green p >? 1000)).
(** 299-303. *)
Definition water_test (p : pixel) : bool :=
  ((Rlt_bool (ndvi_of p) (dbl 1 100) && (p_nir p <? 1100)) ||
   (Rlt_bool (ndvi_of p) (dbl 1 10) && Rlt_bool 0 (ndvi_of p) && (p_nir p <? 500))) && (p_slope p <? 870).
(** 305-308. *)
Definition basic_test (p : pixel) : bool :=
  Rlt_bool (ndsi_of p) (dbl 8 10) && Rlt_bool (ndvi_of p) (dbl 8 10) && (p_sw2 p >? 300) &&
  negb (match p_temp p with Some t => t >? 30015 | None => false end).
(** 310. *)
Definition vis_of (p : pixel) : R := rnd32 (rnd64 (IZR (p_blue p + p_green p + p_red p) / 3)).
Definition bright (p : pixel) : bool := Rlt_bool 1500 (vis_of p).
(** 312-313: None is NaN (0/0).  A quotient x/0 with x > 0 is infinite and is set to 1. *)
Definition white_num (p : pixel) : R :=
  rnd64 (rnd64 (Rabs (rnd32 (IZR (p_blue p) - vis_of p)) + Rabs (rnd32 (IZR (p_green p) - vis_of p))) +
         Rabs (rnd32 (IZR (p_red p) - vis_of p))).
Definition white_of (p : pixel) : option R :=
  if Req_bool (vis_of p) 0 then (if Req_bool (white_num p) 0 then None else Some 1%R)
  else let w := rnd32 (rnd64 (white_num p / vis_of p)) in Some (if Rlt_bool 1 w then 1%R else w).
(** 315, 317. *)
Definition hot_of (p : pixel) : R := rnd32 (rnd64 (rnd64 (IZR (p_blue p) - rnd64 (IZR (p_red p) / 2)) - 800)).
Definition r45_of (p : pixel) : R := if p_sw1 p =? 0 then 0%R else rnd32 (IZR (p_nir p) / IZR (p_sw1 p)).
(** 319-323. *)
Definition pcp_test (p : pixel) : bool :=
  p_sat p ||
  (basic_test p && (match white_of p with Some w => Rlt_bool w (dbl 7 10) | None => false end) && bright p &&
   Rlt_bool 0 (hot_of p) && Rlt_bool (dbl 75 100) (r45_of p)).
(** 326-335: variability probability; comparisons with NaN are false. *)
Definition ndvi_mod (p : pixel) : R := if p_sat p && Rlt_bool 0 (ndvi_of p) then 0%R else Rabs (ndvi_of p).
Definition ndsi_mod (p : pixel) : R := if p_sat p && Rlt_bool (ndsi_of p) 0 then 0%R else Rabs (ndsi_of p).
Definition vprob (p : pixel) : option R :=
  let m := if Rle_bool (ndsi_mod p) (ndvi_mod p) then ndvi_mod p else ndsi_mod p in
  match white_of p with
  | Some w => Some (rnd32 (rnd64 (1 - (if Rle_bool w m then m else w))))
  | None => None
  end.
(** Conversion of a float to short: undefined for NaN and out of range. *)
Definition short_of (x : R) : outcome Z := if in_shortb (Ztrunc x) then Ret (Ztrunc x) else UB.
Definition var_of (p : pixel) : outcome Z :=
  match vprob p with Some v => short_of (rnd32 (v * 10000)) | None => UB end.
(** 337-339 and the whole body of the loop. *)
Record result := mkRes { r_snow : bool; r_water : bool; r_bright : bool; r_pcp : bool; r_var : Z; r_clear : bool; r_land : bool }.
Definition potential (p : pixel) : outcome result :=
  v <- var_of p ;;
  Ret (mkRes (snow_test p) (water_test p) (bright p) (pcp_test p) v (negb (pcp_test p)) (negb (pcp_test p) && negb (water_test p))).

(** ** Final cloud mask: 61-211 *)
(** The radius in pixels: cld_buf = pl2->cldbuf/res (126, 133, 138, 345), and the use of it. *)
Definition radius (buf res : R) : Z := Ztrunc (rnd64 (buf / res)).
Definition grow_mask (mask : list bool) (nx ny : Z) (r : option Z) : outcome (list bool) :=
  match r with Some r => buffer mask nx ny r | None => Ret mask end.
Definition buffer_of (buf res : R) : outcome (option Z) :=
  r <- chk_int (radius buf res) ;; Ret (if Rlt_bool 0 buf then Some r else None).
(** 341-370: the snow layer is buffered, then written to QAI. *)
Definition snow_pixel (ws : Z * bool) : outcome Z :=
  if is_off (fst ws) then Ret (fst ws) else if snd ws then set_flag Snow (fst ws) 1 else Ret (fst ws).
Definition flag_snow (qai : list Z) (snow : list bool) (nx ny : Z) (r : option Z) : outcome (list Z) :=
  s <- grow_mask snow nx ny r ;; omap snow_pixel (combine qai s).
(** 91-99. *)
Definition cloud_pixel (wc : Z * bool) : outcome Z :=
  if is_off (fst wc) then Ret (fst wc) else if snd wc then set_flag Cloud (fst wc) 2 else Ret (fst wc).
(** 102-122: [z] is the elevation of the class of the pixel (in km, a float, line 113, an input). *)
Definition cirrus_thr (z : R) : R :=
  let t := rnd32 (70 + rnd32 (rnd32 (70 * z) * z)) in if Rlt_bool t 100 then 100%R else t.
Definition cirrus_pixel (w v : Z) (z : R) : bool :=
  negb (is_off w) && negb (on (get_flag Snow w)) && (v >? 100) && Rlt_bool (cirrus_thr z) (IZR v).
Definition cirrus_mask (qai : list Z) (cirrus : option (list (Z * R))) : list bool :=
  match cirrus with
  | Some c => map (fun wv => cirrus_pixel (fst wv) (fst (snd wv)) (snd (snd wv))) (combine qai c)
  | None => map (fun _ => false) qai
  end.
(** 143-158: word and whether it is counted. *)
Definition final_pixel (x : Z * (bool * (bool * bool))) : outcome (Z * bool) :=
  let w := fst x in let cld := fst (snd x) in let cir := fst (snd (snd x)) in let shd := snd (snd (snd x)) in
  if is_off w then Ret (w, false)
  else
    w1 <- (if cld then (if get_flag Cloud w =? 0 then set_flag Cloud w 1 else Ret w)
           else if cir then set_flag Cloud w 3 else Ret w) ;;
    w2 <- (if shd then set_flag Shadow w1 1 else Ret w1) ;;
    Ret (w2, (get_flag Cloud w2 >? 0) || on (get_flag Shadow w2)).
Definition count_true (l : list bool) : Z := zlen (filter (fun b => b) l).
(** The flags of the image and the number of cloud and shadow pixels; radii in pixels, None: no buffer. *)
Definition final_mask (qai : list Z) (cld shd : list bool) (cirrus : option (list (Z * R))) (nx ny : Z) (rc ri rs : option Z)
  : outcome (list Z * Z) :=
  q <- omap cloud_pixel (combine qai cld) ;;
  c <- grow_mask cld nx ny rc ;;
  i <- grow_mask (cirrus_mask q cirrus) nx ny (match cirrus with Some _ => ri | None => None end) ;;
  s <- grow_mask shd nx ny rs ;;
  f <- omap final_pixel (combine q (combine c (combine i s))) ;;
  Ret (map fst f, count_true (map snd f)).
(** par_ll_t: the parameters of the module. *)
Record cldpar := mkPar { maxcc : R; cldbuf : R; cirbuf : R; shdbuf : R }.
Definition finalize_cloud (par : cldpar) (qai : list Z) (cld shd : list bool) (cirrus : option (list (Z * R))) (nx ny : Z) (res : R)
  : outcome (list Z * Z) :=
  rc <- buffer_of (cldbuf par) res ;; ri <- buffer_of (cirbuf par) res ;; rs <- buffer_of (shdbuf par) res ;;
  final_mask qai cld shd cirrus nx ny rc ri rs.

(** ** detect_clouds: 1741-1855 *)
(** [npix], [nclear] and [pcp] are the results of potential_cloud; [cld] is the mask of
    cloud_probability or cloud_parallax and [shd] the result of shadow matching.  The result
    is the return code, the QAI layer and atc->cc. *)
Definition detect_clouds (par : cldpar) (npix nclear : Z) (pcp cld shd : list bool) (qai : list Z) (cirrus : option (list (Z * R)))
    (nx ny : Z) (res : R) : outcome (Base.rc * list Z * R) :=
  let all := repeat true (Z.to_nat (nx * ny)) in
  r <- (if negb (npix =? 0) && Rlt_bool (dbl 1 10) (rnd64 (100 * IZR nclear / rnd32 (IZR npix))) then
          let ncloud := count_true cld in
          if Rle_bool (percent ncloud npix) (rnd64 (maxcc par * dbl 8 10)) then
            f <- finalize_cloud par qai cld (if ncloud >? 0 then shd else repeat false (Z.to_nat (nx * ny))) cirrus nx ny res ;;
            Ret (fst f, percent (snd f) npix)
          else f <- finalize_cloud par qai cld all cirrus nx ny res ;; Ret (fst f, 100%R)
        else f <- finalize_cloud par qai pcp all cirrus nx ny res ;; Ret (fst f, 100%R)) ;;
  Ret (if Rlt_bool (maxcc par) (snd r) then CANCEL else SUCCESS, fst r, snd r).

(** ** cloud_distance: 1865-1920 *)
Definition to_dist (w : Z) : bool := (get_flag Cloud w >? 0) || on (get_flag Shadow w) || on (get_flag Snow w).
Definition dist_pixel (nodata : Z) (res : R) (wd : Z * Z) : Z :=
  if is_off (fst wd) then to_short nodata
  else let d := rnd64 (IZR (snd wd) * res) in if Rlt_bool d 32767 then Ztrunc d else 32767.
Definition cloud_distance (qai : list Z) (nodata nx ny : Z) (res : R) : outcome (list Z) :=
  d <- (if count_true (map to_dist qai) >? 0 then dist_transform (map to_dist qai) nx ny
        else Ret (map (fun _ => to_ushort (ny + nx)) qai)) ;;
  Ret (map (dist_pixel nodata res) (combine qai d)).

(** ** Shadow probability: 763-878 *)
(** 826-841: one band; [bck] is the background (quantile of the clear land pixels) and [far]
    tells where dist_[p] > maxdist (both inputs).  Result: return code of the reconstruction
    (which is ignored), and the marker minus the mask. *)
Definition shadow_input (band : list Z) (qai : list Z) (far : list bool) (bck nx ny : Z) : list Z :=
  map (fun x => let p := fst x in let i := p / nx in let j := p mod nx in
         if (i =? 0) || (i =? ny - 1) || (j =? 0) || (j =? nx - 1) || is_off (fst (snd (snd x))) || snd (snd (snd x)) then bck else fst (snd x))
      (combine (zupto (nx * ny)) (combine band (combine qai far))).
Definition shadow_band (fuel : nat) (band qai : list Z) (far : list bool) (bck nx ny : Z) (marker : list Z) : outcome (Base.rc * list Z) :=
  let mask := shadow_input band qai far bck nx ny in
  r <- greyscale_reconstruction fuel mask marker nx ny ;;
  Ret (fst r, map (fun x => to_short (fst x - snd x)) (combine (snd r) mask)).
(** 851-856. *)
Definition keep_min (spr marker : list Z) : list Z := map (fun x => if snd x <? fst x then snd x else fst x) (combine spr marker).
(** The loop over the two bands is shared by 1 or 2 threads.  Each thread has its own marker,
    which is merged after the loop: with one thread only the marker of the last band. *)
Definition shadow_probability (fuel : nat) (nthread : Z) (nir sw1 qai : list Z) (far : list bool) (bck_n bck_s nx ny : Z)
  : outcome (list Base.rc * list Z) :=
  let spr := repeat 32767 (Z.to_nat (nx * ny)) in
  a <- shadow_band fuel nir qai far bck_n nx ny (zeros (nx * ny)) ;;
  if nthread =? 1 then
    b <- shadow_band fuel sw1 qai far bck_s nx ny (snd a) ;;
    Ret ([fst a; fst b], keep_min spr (snd b))
  else
    b <- shadow_band fuel sw1 qai far bck_s nx ny (zeros (nx * ny)) ;;
    Ret ([fst a; fst b], keep_min (keep_min spr (snd a)) (snd b)).

(** ** Sentinel-2 clouds from parallax: 892-1338, the two loops that change resolution and the region growing *)
(** 979-1027: where the coarse cell of fine pixel (i, j) is written, for a valid 2x2 cell. *)
Definition coarse_index (nx i j : Z) : Z := (i / 2) * (nx / 2) + j / 2.
Definition write_coarse {A} (nx ny : Z) (cells : list (Z * Z * A)) (out : list A) : outcome (list A) :=
  ofold (fun o c => of_option (set_at o (coarse_index nx (fst (fst c)) (snd (fst c))) (snd c))) cells out.
Definition every_second (n : Z) : list Z := map (fun k => 2 * k) (zupto ((n + 1) / 2)).
Definition fine_cells (nx ny : Z) : list (Z * Z) := flat_map (fun i => map (fun j => (i, j)) (every_second nx)) (every_second ny).
(** All cells are valid and contain a potential cloud pixel: [f] gives the value of a cell. *)
Definition reduce {A} (zero : A) (f : Z -> Z -> A) (nx ny : Z) : outcome (list A) :=
  write_coarse nx ny (map (fun c => (c, f (fst c) (snd c))) (fine_cells nx ny)) (repeat zero (Z.to_nat ((nx / 2) * (ny / 2)))).

(** Region growing, 1205-1266, on the coarse grid of nx columns and ny rows.  [cand] tells
    where -1 <= cdi < -0.25 (an input).  The state is the cloud mask and the queue;
    the flag tells that FAILURE was returned. *)
Definition in_grid (nx ny i j : Z) : bool := (0 <=? i) && (i <? ny) && (0 <=? j) && (j <? nx).
Definition fillable (clouds cand : list bool) (nx ny i j : Z) : outcome bool :=
  if in_grid nx ny i j then
    c <- of_option (get_at clouds (i * nx + j)) ;; d <- of_option (get_at cand (i * nx + j)) ;; Ret (negb c && d)
  else Ret false.
(** 1213-1234: a cloud pixel with at least one neighbour to fill is queued once. *)
Fixpoint any_fillable (clouds cand : list bool) (nx ny i j : Z) (nb : list (Z * Z)) : outcome bool :=
  match nb with
  | [] => Ret false
  | d :: t => f <- fillable clouds cand nx ny (i + fst d) (j + snd d) ;; if f then Ret true else any_fillable clouds cand nx ny i j t
  end.
Definition seed_cell (clouds cand : list bool) (nx ny : Z) (st : Base.rc * queue) (ij : Z * Z) : outcome (Base.rc * queue) :=
  match fst st with
  | SUCCESS =>
      c <- of_option (get_at clouds (fst ij * nx + snd ij)) ;;
      if c then
        f <- any_fillable clouds cand nx ny (fst ij) (snd ij) eight ;;
        if f then enqueue (snd st) (snd ij) (fst ij) else Ret st
      else Ret st
  | _ => Ret st
  end.
Definition cells (nx ny : Z) : list (Z * Z) := flat_map (fun i => map (fun j => (i, j)) (zupto nx)) (zupto ny).
(** 1243-1263. *)
Record gstate := mkG { g_rc : Base.rc; g_clouds : list bool; g_queue : queue }.
Definition grow_cell (cand : list bool) (nx ny i j : Z) (st : gstate) (d : Z * Z) : outcome gstate :=
  match g_rc st with
  | SUCCESS =>
      f <- fillable (g_clouds st) cand nx ny (i + fst d) (j + snd d) ;;
      if f then
        c <- of_option (set_at (g_clouds st) ((i + fst d) * nx + j + snd d) true) ;;
        r <- enqueue (g_queue st) (j + snd d) (i + fst d) ;; Ret (mkG (fst r) c (snd r))
      else Ret st
  | _ => Ret st
  end.
(** Exit: out of fuel. *)
Fixpoint grow_loop (fuel : nat) (cand : list bool) (nx ny : Z) (st : gstate) : outcome gstate :=
  match fuel with
  | O => Exit
  | S f =>
    match g_rc st with
    | SUCCESS =>
        r <- dequeue (g_queue st) ;;
        match r with
        | (SUCCESS, Some (j, i), q) => st' <- ofold (grow_cell cand nx ny i j) eight (mkG SUCCESS (g_clouds st) q) ;; grow_loop f cand nx ny st'
        | (_, _, q) => Ret (mkG SUCCESS (g_clouds st) q)
        end
    | _ => Ret st
    end
  end.
Definition grow_clouds (clouds cand : list bool) (nx ny : Z) : outcome (Base.rc * list bool) :=
  q <- create_queue (nx * ny) ;;
  s <- ofold (seed_cell clouds cand nx ny) (cells nx ny) (SUCCESS, q) ;;
  g <- grow_loop (Z.to_nat (nx * ny + 1)) cand nx ny (mkG (fst s) clouds (snd s)) ;;
  Ret (g_rc g, g_clouds g).

(** 1270-1293: back to the original resolution; nx columns and ny rows of the coarse grid, [fx] columns of the fine one. *)
Definition refine (clouds : list bool) (nx ny fx fy : Z) : outcome (list bool) :=
  ofold (fun o ij => c <- of_option (get_at clouds (fst ij * nx + snd ij)) ;;
           if c then ofold (fun o d => of_option (set_at o ((2 * fst ij + fst d) * fx + (2 * snd ij + snd d)) true)) [(0, 0); (0, 1); (1, 0); (1, 1)] o
           else Ret o)
        (cells nx ny) (repeat false (Z.to_nat (fx * fy))).
(** 1300-1316: saturated pixels are added, dark ones removed. *)
Definition add_saturated (cld : list bool) (sat brt : list bool) : list bool :=
  map (fun x => (fst x || fst (snd x)) && snd (snd x)) (combine cld (combine sat brt)).
Definition parallax_mask (clouds cand sat brt : list bool) (fx fy : Z) : outcome (Base.rc * list bool) :=
  let nx := fx / 2 in let ny := fy / 2 in
  g <- grow_clouds clouds cand nx ny ;;
  match fst g with
  | SUCCESS => c <- refine (snd g) nx ny fx fy ;; Ret (SUCCESS, add_saturated c sat brt)
  | _ => Ret (FAILURE, [])
  end.
