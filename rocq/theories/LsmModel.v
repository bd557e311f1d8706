(** Model of landscape_metrics: src/modules/higher-level/lsm-hl.c:183-517, for one
    feature.  Simplified: float and double are real numbers (see single_pixel for
    the one comparison where this matters); the areas and perimeters of the
    patches, multiples of kfraction = 1/kernelSize resp. its square root, are kept
    as integer multiples.  features[f].dat[0], features[f].msk, mask_, newFeatures and
    CCL are lists; the radius is the number of pixels of param-hl.c:1101. *)
From Coq Require Import Reals.
From Flocq Require Import Core.
From Verif Require Import Base Loops Float StatsModel AggModel CclModel.
#[local] Open Scope Z_scope.

(** _QUERY_*_: enum-cl.h; 284-302. *)
Inductive query := QEQ | QGT | QGE | QLT | QLE.
Definition matches (q : query) (t v : Z) : bool :=
  match q with QEQ => v =? t | QGT => v >? t | QGE => v >=? t | QLT => v <? t | QLE => v <=? t end.

(** _LSM_*_. *)
Inductive lsm_metric := MPA | UCI | FDI | EDD | NBR | EMS | LAVG | LSTD | GEO | LMAX | ARE.

Record params := mkParams { l_radius : Z; l_circle : bool; l_allpx : bool; l_exclude : bool;
  l_query : query; l_threshold : Z; l_minpatch : Z; l_metrics : list lsm_metric }.
Record feature := mkFeature { f_nx : Z; f_ny : Z; f_nodata : Z; f_dat : list Z; f_msk : list bool; f_mask : option (list bool) }.

(** kernelSize: 212. *)
Definition ksize (r : Z) : Z := (2 * r + 1) * (2 * r + 1).

(** 281-282, 326-327, 363-366: the pixel is not processed. *)
Definition skipped (pa : params) (ft : feature) (p : Z) : outcome bool :=
  b <- match f_mask ft with None => Ret true | Some m => of_option (get_at m p) end ;;
  if negb b then Ret true
  else m <- of_option (get_at (f_msk ft) p) ;; Ret (negb m && l_exclude pa).
(** newFeatures: 258-303. *)
Definition binary (pa : params) (ft : feature) : outcome (list bool) :=
  omap (fun p =>
    s <- skipped pa ft p ;;
    if (s : bool) then Ret false
    else v <- of_option (get_at (f_dat ft) p) ;; Ret (matches (l_query pa) (l_threshold pa) v))
    (zupto (f_nx ft * f_ny ft)).

(** The arrays of a thread: uniquePatches, patchperimeters, patchAreas, exists and
    numberOfuniquePatches (315-318; firstprivate, 0 at first). *)
Record priv := mkPriv { t_uniq : list Z; t_n : Z; t_perim : list Z; t_area : list Z; t_exists : list bool }.
Definition priv0 (r nobj : Z) : priv :=
  mkPriv (repeat 0 (Z.to_nat (ksize r))) 0 (repeat 0 (Z.to_nat (nobj + 1))) (repeat 0 (Z.to_nat (nobj + 1))) (repeat false (Z.to_nat (nobj + 1))).

(** 331-337. *)
Definition reset (t : priv) : outcome priv :=
  t' <- ofold (fun t u =>
    c <- of_option (get_at (t_uniq t) u) ;;
    pe <- of_option (set_at (t_perim t) c 0) ;;
    ar <- of_option (set_at (t_area t) c 0) ;;
    ex <- of_option (set_at (t_exists t) c false) ;;
    un <- of_option (set_at (t_uniq t) u 0) ;;
    Ret (mkPriv un (t_n t) pe ar ex)) (zupto (t_n t)) t ;;
  Ret (mkPriv (t_uniq t') 0 (t_perim t') (t_area t') (t_exists t')).

(** The sums of one pixel: 338-345; totalClassArea and totaledgelength in units. *)
Record sums := mkSums { s_area : Z; s_edge : Z; s_valid : Z; s_var : var; s_max : Z; s_logsum : R; s_logn : Z }.
Definition sums0 : sums := mkSums 0 0 0 (mkVar 0 0) 0 0 0.

(** 371-389. *)
Definition add_value (nodata v : Z) (s : sums) : sums :=
  let s1 := if negb (v =? nodata) then
      let n := s_valid s + 1 in
      mkSums (s_area s) (s_edge s) n
        (if n =? 1 then mkVar (IZR v) (r_vx (s_var s)) else var_recurrence (IZR v) (s_var s) (IZR n))
        (if s_max s <? v then v else s_max s) (s_logsum s) (s_logn s)
    else s in
  if v >? 0 then mkSums (s_area s1) (s_edge s1) (s_valid s1) (s_var s1) (s_max s1) (s_logsum s1 + ln (IZR v)) (s_logn s1 + 1)
  else s1.

(** 408-431: the edges of pixel (ni,nj) towards neighbours within the kernel. *)
Definition edge_towards (fg : list bool) (nx : Z) (here cond : bool) (y x : Z) : outcome Z :=
  if cond then b <- of_option (get_at fg (y * nx + x)) ;; Ret (if eqb here b then 0 else 1) else Ret 0.
Definition edges (r : Z) (fg : list bool) (nx ny : Z) (here : bool) (ii jj ni nj : Z) : outcome Z :=
  a <- edge_towards fg nx here (negb (ii =? r) && (ni + 1 <? ny)) (ni + 1) nj ;;
  b <- edge_towards fg nx here (negb (ii =? - r) && (ni - 1 >=? 0)) (ni - 1) nj ;;
  c <- edge_towards fg nx here (negb (jj =? r) && (nj + 1 <? nx)) ni (nj + 1) ;;
  d <- edge_towards fg nx here (negb (jj =? - r) && (nj - 1 >=? 0)) ni (nj - 1) ;;
  Ret (a + b + c + d).

(** 392-406 and the additions of 411-430. *)
Definition add_patch (fgp : bool) (ccl e : Z) (st : priv * sums) : outcome (priv * sums) :=
  let '(t, s) := st in
  t1 <- (if ccl >? 0 then
           ex <- of_option (get_at (t_exists t) ccl) ;;
           if (ex : bool) then Ret t
           else
             un <- of_option (set_at (t_uniq t) (t_n t) ccl) ;;
             ex' <- of_option (set_at (t_exists t) ccl true) ;;
             Ret (mkPriv un (t_n t + 1) (t_perim t) (t_area t) ex')
         else Ret t) ;;
  if t_n t1 =? 0 then Ret (t1, s)
  else
    a <- of_option (get_at (t_area t1) ccl) ;;
    ar <- of_option (set_at (t_area t1) ccl (a + 1)) ;;
    p <- of_option (get_at (t_perim t1) ccl) ;;
    pe <- of_option (set_at (t_perim t1) ccl (p + e)) ;;
    Ret (mkPriv (t_uniq t1) (t_n t1) pe ar (t_exists t1),
         mkSums (if (fgp : bool) then s_area s + 1 else s_area s) (s_edge s + e) (s_valid s) (s_var s) (s_max s) (s_logsum s) (s_logn s)).

(** One position of the kernel: 351-431.  KDIST > radius: the distances are square
    roots of integers, so the comparison is that of the squares (imagefuns-cl.c:103-127). *)
Definition window_cell (pa : params) (ft : feature) (fg : list bool) (ccls : list Z) (i j : Z) (st : priv * sums) (d : Z * Z) : outcome (priv * sums) :=
  let '(ii, jj) := d in
  let r := l_radius pa in
  let ni := i + ii in
  let nj := j + jj in
  let np := ni * f_nx ft + nj in
  if l_circle pa && (ii * ii + jj * jj >? r * r) then Ret st
  else if (ni <? 0) || (nj <? 0) || (ni >=? f_ny ft) || (nj >=? f_nx ft) then Ret st
  else
    sk <- skipped pa ft np ;;
    if (sk : bool) then Ret st
    else
      b <- of_option (get_at fg np) ;;
      if negb b then Ret st
      else
        v <- of_option (get_at (f_dat ft) np) ;;
        c <- of_option (get_at ccls np) ;;
        e <- edges r fg (f_nx ft) (f_ny ft) b ii jj ni nj ;;
        add_patch b c e (fst st, add_value (f_nodata ft) v (snd st)).
(** 348-349. *)
Definition kernel (r : Z) : list (Z * Z) := flat_map (fun ii => map (fun jj => (ii, jj)) (zrange (- r) r)) (zrange (- r) r).

(** 452-461: sums of share*area and share in units of the total area; None: no patches. *)
Definition patch_areas (t : priv) : outcome (list (Z * Z)) :=
  omap (fun u => c <- of_option (get_at (t_uniq t) u) ;; a <- of_option (get_at (t_area t) c) ;;
                 p <- of_option (get_at (t_perim t) c) ;; Ret (a, p)) (zupto (t_n t)).
Definition rsum (l : list R) : R := fold_left Rplus l 0%R.
(** 455-467. *)
Definition mpa (k total : Z) (ps : list (Z * Z)) : outcome Z :=
  let share ap := (IZR (fst ap) / IZR k / (IZR total / IZR k))%R in
  let sumarea := rsum (map (fun ap => share ap * (IZR (fst ap) / IZR k))%R ps) in
  let sumshare := rsum (map share ps) in
  if Rlt_dec 0 sumshare then short_of_real (Some (sumarea / sumshare * 10000)%R) else Ret 0.
(** 474-494: log 0 and 0/0 are not finite. *)
Definition fdi (k : Z) (ps : list (Z * Z)) : outcome Z :=
  let big := filter (fun ap => negb (fst ap =? 1)) ps in
  match ps with
  | [] => Ret 0
  | _ =>
    if forallb (fun ap => negb (snd ap =? 0)) big && negb (zlen big =? 0) then
      let sumshare := rsum (map (fun ap => IZR (fst ap) / IZR k)%R big) in
      let sumf := rsum (map (fun ap => IZR (fst ap) / IZR k * (2 * ln (IZR (snd ap) / 4)) / ln (IZR (fst ap)))%R big) in
      short_of_real (Some (sumf / sumshare * 10000)%R)
    else UB
  end.
(** 437-494. *)
Definition metric_value (r : Z) (ccls : list Z) (p : Z) (t : priv) (s : sums) (m : lsm_metric) : outcome Z :=
  let k := ksize r in
  match m with
  | UCI => c <- of_option (get_at ccls p) ;; Ret (to_short c)
  | LAVG => short_of_real (Some (r_mx (s_var s)))
  | GEO => if s_logn s =? 0 then UB else short_of_real (Some (exp (s_logsum s / IZR (s_logn s))))
  | LMAX => Ret (to_short (s_max s))
  | ARE => Ret (if s_valid s <=? 32767 then s_valid s else 32767)
  | LSTD => short_of_real (standdev_o (r_vx (s_var s)) (s_valid s))
  | MPA => ps <- patch_areas t ;; mpa k (s_area s) ps
  | EDD => short_of_real (Some (IZR (s_edge s) * sqrt (1 / IZR k) / sqrt (IZR k) * 10000)%R)
  | NBR => Ret (to_short (t_n t))
  | EMS => short_of_real (Some ((IZR (s_area s) / IZR k) * (IZR (s_area s) / IZR k) * 10000)%R)
  | FDI => ps <- patch_areas t ;; fdi k ps
  end.

(** The body of the parallel loop: 324-494.  The values of the requested metrics
    (None: left at nodata) and the arrays for the next pixel of the thread. *)
Definition pixel (pa : params) (ft : feature) (fg : list bool) (ccls : list Z) (t : priv) (p : Z) : outcome (option (list Z) * priv) :=
  let i := p / f_nx ft in
  let j := p mod f_nx ft in
  sk <- skipped pa ft p ;;
  if (sk : bool) then Ret (None, t)
  else
    b <- of_option (get_at fg p) ;;
    if negb b && negb (l_allpx pa) then Ret (None, t)
    else
      t0 <- reset t ;;
      r <- ofold (window_cell pa ft fg ccls i j) (kernel (l_radius pa)) (t0, sums0) ;;
      vs <- omap (metric_value (l_radius pa) ccls p (fst r) (snd r)) (l_metrics pa) ;;
      Ret (Some vs, fst r).
(** A thread: 315-498 for the pixels scheduled on it. *)
Fixpoint thread (pa : params) (ft : feature) (fg : list bool) (ccls : list Z) (t : priv) (ps : list Z) : outcome (list (Z * option (list Z))) :=
  match ps with
  | [] => Ret []
  | p :: ps' =>
    r <- pixel pa ft fg ccls t p ;;
    rest <- thread pa ft fg ccls (snd r) ps' ;;
    Ret ((p, fst r) :: rest)
  end.

(** One feature: 258-508.  [schedule]: the pixels of each thread. *)
Definition landscape (fuel : nat) (pa : params) (ft : feature) (schedule : list (list Z)) : outcome (list (Z * option (list Z))) :=
  fg0 <- binary pa ft ;;
  o <- binary_to_objects fuel fg0 (f_nx ft) (f_ny ft) (l_minpatch pa) ;;
  let '(fg, nobj, res) := o in
  match res with
  | None => Ret (map (fun p => (p, None)) (concat schedule))
  | Some (ccls, _) =>
    rs <- omap (thread pa ft fg ccls (priv0 (l_radius pa) nobj)) schedule ;; Ret (concat rs)
  end.

(** 478 in binary32: patchAreas of a patch with one pixel in the kernel is
    kfraction (249). *)
Definition single_pixel (r : Z) : bool :=
  feq (f32_mul (f32_div (f32_of_Z 1) (f32_of_Z (ksize r))) (f32_of_Z (ksize r))) (f32_of_Z 1).
