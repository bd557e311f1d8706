(** Model of the reading of Level 1 images: src/modules/lower-level/read-ll.c (bounds_level1,
    impulse_noise_level1, convert_level1), without the reading of the files themselves, and
    of the coarse grids of the atmospheric correction (init_atc_xy in atc-ll.c,
    convert_brick_p2p in src/modules/cross-level/brick_base-cl.c).  [bands] are the digital
    numbers (unsigned 16 bit), band by band.  Band numbers of the domains are inputs (-1: not
    available), quality words are as in QaiModel.v. *)
From Coq Require Import Reals.
From Flocq Require Import Core.
From Verif Require Import Base Loops RoundModel QaiModel StatsModel BufferModel.
#[local] Open Scope Z_scope.

Definition off_word (w : Z) : bool := on (get_flag Off w).

(** ** Nodata and saturation: read-ll.c:189-226 *)
(** 193-208, the loop over the bands of one pixel: nodata, saturated, temperature counted. *)
Fixpoint scan (btemp bcir sat : Z) (dns : list Z) (b : Z) : bool * bool * bool :=
  match dns with
  | [] => (false, false, false)
  | d :: rest =>
    if negb (b =? bcir) && (d =? 0) then (true, false, false)
    else if negb (b =? btemp) && (sat <=? d) then (false, true, false)
    else let r := scan btemp bcir sat rest (b + 1) in
         (fst (fst r), snd (fst r), (b =? btemp) || snd r)
  end.
Definition column (bands : list (list Z)) (p : Z) : outcome (list Z) := omap (fun d => of_option (get_at d p)) bands.
Definition scan_image (bands : list (list Z)) (btemp bcir sat nc : Z) : outcome (list (bool * bool * bool)) :=
  omap (fun p => c <- column bands p ;; Ret (scan btemp bcir sat c 0)) (zupto nc).

(** ** Impulse noise: read-ll.c:247-329.  The moments are those of StatsModel.v (exact). *)
(** 287-303: the pixels of the 3 x 3 window that are not nodata (at this moment). *)
Definition near (nx i j : Z) : list Z := flat_map (fun ii => map (fun jj => nx * (i + ii) + j + jj) [-1; 0; 1]) [-1; 0; 1].
Fixpoint keep_valid (qai : list Z) (qs : list Z) : outcome (list Z) :=
  match qs with
  | [] => Ret []
  | q :: rest =>
    w <- of_option (get_at qai q) ;;
    r <- keep_valid qai rest ;;
    Ret (if off_word w then r else q :: r)
  end.
(** 294-299, 307: standard deviation of one band. *)
Definition first_then (l : list R) : var :=
  match l with [] => mkVar 0 0 | x :: t => feed var_recurrence t 1 (mkVar x 0) end.
Definition sd_of (band : list Z) (qs : list Z) : outcome R :=
  v <- omap (fun q => of_option (get_at band q)) qs ;;
  Ret (standdev (r_vx (first_then (map IZR v))) (INR (length qs))).
(** 309-313: maxsd and max2sd of the three bands, and their difference. *)
Definition excess (s0 s1 s2 : R) : R :=
  let a := if Rlt_bool s0 s1 then (s1, s0) else (s0, s0) in
  let b := if Rlt_bool (fst a) s2 then (s2, fst a) else a in
  (fst b - snd b)%R.
(** 275-318: one pixel. *)
Definition noise_step (red green blue : list Z) (nx : Z) (qai : list Z) (ij : Z * Z) : outcome (list Z) :=
  let p := fst ij * nx + snd ij in
  w <- of_option (get_at qai p) ;;
  if off_word w then Ret qai
  else
    qs <- keep_valid qai (near nx (fst ij) (snd ij)) ;;
    if zlen qs >? 0 then
      s0 <- sd_of blue qs ;; s1 <- sd_of green qs ;; s2 <- sd_of red qs ;;
      if Rlt_bool 15 (excess s0 s1 s2) then set_flag_at Off qai p 1 else Ret qai
    else Ret qai.
Definition inner (nx ny : Z) : list (Z * Z) := flat_map (fun i => map (fun j => (i, j)) (zrange 1 (nx - 2))) (zrange 1 (ny - 2)).
(** meta_t and par_ll_t, the members used; bands of the visible domains (-1: none). *)
Record l1par := mkL1 { m_dtype : Z; m_sat : Z; p_impulse : bool; p_buffer : bool; b_temp : Z; b_cirrus : Z; b_blue : Z; b_green : Z; b_red : Z }.
Definition impulse_noise (l : l1par) (bands : list (list Z)) (nx ny : Z) (qai : list Z) : outcome (rc * list Z) :=
  if negb (m_dtype l =? 8) then Ret (SUCCESS, qai)
  else if negb (p_impulse l) then Ret (SUCCESS, qai)
  else if (b_blue l <? 0) || (b_green l <? 0) || (b_red l <? 0) then Ret (FAILURE, qai)
  else
    blue <- of_option (get_at bands (b_blue l)) ;;
    green <- of_option (get_at bands (b_green l)) ;;
    red <- of_option (get_at bands (b_red l)) ;;
    q <- ofold (noise_step red green blue nx) (inner nx ny) qai ;;
    Ret (SUCCESS, q).

(** bounds_level1: read-ll.c:150-226.  The words are zero filled. *)
Definition bounds_level1 (l : l1par) (bands : list (list Z)) (nx ny : Z) : outcome (rc * list Z) :=
  s <- scan_image bands (b_temp l) (b_cirrus l) (m_sat l) (nx * ny) ;;
  q <- omap (fun x : bool * bool * bool => if snd (fst x) then set_flag Saturation 0 1 else Ret 0) s ;;
  off <- (if p_buffer l then buffer (map (fun x => fst (fst x)) s) nx ny 1 else Ret (map (fun x => fst (fst x)) s)) ;;
  q <- omap (fun x => set_flag Off (fst x) (b2z (snd x))) (combine q off) ;;
  if (0 <=? b_temp l) && negb (existsb snd s) then Ret (FAILURE, q)
  else impulse_noise l bands nx ny q.

(** ** Top of atmosphere: read-ll.c:353-457 *)
Definition short_of (x : R) : outcome Z := if in_shortb (Ztrunc x) then Ret (Ztrunc x) else UB.
(** 387-402, Sentinel-2: additive constant and scale of the metadata, scale of the result. *)
Definition toa_sentinel (dn : Z) (radd dn_scale toa_scale : R) : outcome Z :=
  short_of (fmul (fdiv (fadd (IZR dn) radd) dn_scale) toa_scale).

(** 404-457, Landsat.  Calibration of a band (floats); fill is -32768. *)
Record cal := mkCal { c_lmin : R; c_lmax : R; c_qmin : R; c_qmax : R; c_rmul : R; c_radd : R; c_k1 : R; c_k2 : R; c_e0 : R }.
Definition gain (c : cal) : R := fdiv (fsub (c_lmax c) (c_lmin c)) (fsub (c_qmax c) (c_qmin c)).
Definition radiance (c : cal) (dn : Z) : R := fadd (fmul (gain c) (fsub (IZR dn) (c_qmin c))) (c_lmin c).
(** 424-431: k1 and k2 are positive.  k1/0 and its logarithm are infinite, the quotient is 0;
    the logarithm of a negative number is NaN and of 1 is 0: no comparison with SHRT_MAX
    holds. *)
Definition temperature (c : cal) (rad : R) : outcome Z :=
  let x := fadd (fdiv (c_k1 c) rad) 1 in
  if Req_bool rad 0 then Ret 0
  else if Rlt_bool x 0 then Ret 32767
  else if Req_bool x 0 then Ret 0
  else if Req_bool x 1 then Ret 32767
  else
    let t := rnd32 (rnd64 (rnd64 (c_k2 c / rnd64 (ln x)) * 100)%R) in
    if Rlt_bool t 32767 then short_of t else Ret 32767.
(** 437-443; [sun] is the cosine of the solar zenith (not 0), [pi_dsun2] a float. *)
Definition reflectance (c : cal) (pi_dsun2 sun : R) (dn : Z) : R :=
  if Req_bool (c_rmul c) (-32768) then fdiv (fmul (radiance c dn) pi_dsun2) (fmul (c_e0 c) sun)
  else fdiv (fadd (c_radd c) (fmul (c_rmul c) (IZR dn))) sun.
(** FLT_MIN *)
Definition flt_min : R := bpow radix2 (-126).
(** 445-456: the stored value and whether the pixel is set to nodata. *)
Definition store_reflectance (cirrus : bool) (tmp : R) : outcome (Z * bool) :=
  if Rlt_bool tmp flt_min then (if cirrus then Ret (0, false) else Ret (-9999, true))
  else v <- short_of (fmul tmp 10000) ;; Ret (v, false).
(** The bands of one pixel in their order (the loops over bands and pixels are exchanged;
    pixels do not depend on each other): values and nodata flag. *)
Fixpoint convert_pixel (btemp bcir : Z) (pi_dsun2 sun : R) (bands : list (cal * Z)) (b : Z) (off : bool) : outcome (list Z * bool) :=
  match bands with
  | [] => Ret ([], off)
  | (c, dn) :: rest =>
    v <- (if off then Ret (-9999, true)
          else if b =? btemp then t <- temperature c (radiance c dn) ;; Ret (t, false)
          else store_reflectance (b =? bcir) (reflectance c pi_dsun2 sun dn)) ;;
    r <- convert_pixel btemp bcir pi_dsun2 sun rest (b + 1) (snd v) ;;
    Ret (fst v :: fst r, snd r)
  end.

(** ** Coarse grid *)
(** init_atc_xy, atc-ll.c:173-176: cells of [cres] (5000) metres; width is nx*res. *)
Definition coarse_cells (n : Z) (res cres : R) : Z := Zceil (rnd64 (rnd64 (IZR n * res) / cres)%R).
(** convert_brick_p2p, brick_base-cl.c:678-689. *)
Definition to_coarse (k : Z) (res cres : R) : Z := Zfloor (rnd64 (rnd64 (IZR k * res) / cres)%R).
Definition convert_p2p (nx : Z) (res : R) (cnx : Z) (cres : R) (p : Z) : Z :=
  let i := p / nx in
  to_coarse i res cres * cnx + to_coarse (p - i * nx) res cres.
