(** Model of src/modules/higher-level/improphe-hl.c, of the per-pixel part of
    l2-improphe-hl.c and cf-improphe-hl.c, of lib-hl.c (with read_libraries of
    read-aux-hl.cpp) and of texture-hl.c.  Simplification: float and double
    arithmetic is real arithmetic, except for the kernel distance and the final
    conversion to float, which are rounded.  The principal components (pca-cl.c) are
    inputs. *)
From Coq Require Import Reals.
From Flocq Require Import Core.
From Verif Require Import Base Loops RoundModel StatsModel.
From Verif Require LsmModel.
#[local] Open Scope R_scope.

(** The values of all bands at a pixel: b[..][p]. *)
Definition row_at {A} (bufs : list (list A)) (p : Z) : outcome (list A) := omap (fun b => of_option (get_at b p)) bufs.

(** A conversion of a real number to short. *)
Definition real_short (x : R) : outcome Z := let z := Ztrunc x in if in_shortb z then Ret z else UB.

(** ** Prediction: improphe-hl.c:59-249 *)
(** The images: hr_, hr_tex_, mr_ (shorts kept as float), mr_tex_ and the nodata values. *)
Record scene := mkScene { s_nx : Z; s_ny : Z; s_hr : list (list R); s_hrtex : list R; s_mr : list (list Z); s_mrtex : list (list R);
  s_nohr : R; s_nomr : Z }.
(** The record of a neighbour: Sclass, Srecord, Trecord, Urecord, Mrecord. *)
Record neighbour := mkNb { n_class : Z; n_S : R; n_T : R; n_U : list R; n_M : list Z }.

(** distance_kernel: imagefuns-cl.c:103-123, the square root is computed in double and stored as float. *)
Definition kdist (ii jj : Z) : R := rnd32 (rnd64 (sqrt (IZR (ii * ii + jj * jj)))).
(** 141-143. *)
Definition spectral (a b : list R) : R := fold_left (fun s xy => s + Rabs (fst xy - snd xy)) (combine a b) 0 / IZR (zlen a).
(** 80: Sthr. *)
Definition thresholds : list R := [0.025; 0.05; 0.1; 0.2; 0.4].
(** 145-149. *)
Fixpoint class_of (S : R) (s : Z) (thr : list R) : option Z :=
  match thr with
  | [] => None
  | t :: r => if Rlt_bool S t then Some s else class_of S (s + 1)%Z r
  end.
Definition any_nodata (nodata : Z) (l : list Z) : bool := existsb (fun v => (v =? nodata)%Z) l.

(** 122-184: the position [d] of the kernel around (i,j); [hp] are the values hr_[..][p]. *)
Definition neighbour_at (sc : scene) (h i j : Z) (hp : list R) (d : Z * Z) : outcome (option neighbour) :=
  let ni := (i + fst d)%Z in
  let nj := (j + snd d)%Z in
  if ((ni <? 0) || (nj <? 0) || (ni >=? s_ny sc) || (nj >=? s_nx sc))%Z then Ret None
  else
    let np := (s_nx sc * ni + nj)%Z in
    if Rlt_bool (IZR h) (kdist (fst d) (snd d)) then Ret None
    else
      hq <- row_at (s_hr sc) np ;;
      match hq with
      | [] => UB
      | h0 :: _ =>
        if Req_bool h0 (s_nohr sc) then Ret None
        else
          m <- row_at (s_mr sc) np ;;
          if any_nodata (s_nomr sc) m then Ret None
          else
            let S := spectral hp hq in
            match class_of S 0 thresholds with
            | None => Ret None
            | Some c =>
              t <- of_option (get_at (s_hrtex sc) np) ;;
              u <- row_at (s_mrtex sc) np ;;
              Ret (Some (mkNb c S t u m))
            end
      end.
(** 119-190: the records have room for [nk] neighbours. *)
Definition gather (sc : scene) (h nk i j : Z) (hp : list R) : outcome (list neighbour) :=
  ofold (fun acc d =>
    n <- neighbour_at sc h i j hp d ;;
    match n with
    | None => Ret acc
    | Some x => if (zlen acc <? nk)%Z then Ret (acc ++ [x]) else UB
    end) (LsmModel.kernel h) [].

(** 107-115, 152-159, 164-172, 174-184: the range of the positive values of the neighbours up
    to class [c] (the code keeps the ranges of all five classes; one of them is used). *)
Definition range (c : Z) (f : neighbour -> R) (l : list neighbour) : R * R :=
  fold_left (fun r n =>
    if (n_class n <=? c)%Z && Rlt_bool 0 (f n)
    then (if Rlt_bool (f n) (fst r) then f n else fst r, if Rlt_bool (snd r) (f n) then f n else snd r)
    else r) l (IZR 2147483647, IZR (-2147483648)).

(** rescale_weight: 258-271. *)
Definition rescale_weight (w lo hi : R) : R :=
  if Req_bool w 0 then 1 else if Req_bool lo hi then 1 else 1 + exp (25 * ((w - lo) / (hi - lo)) - 7.5).

(** 206-210: the class used. *)
Definition count_class (l : list neighbour) (s : Z) : Z := zlen (filter (fun n => n_class n <=? s)%Z l).
Definition cutoff (mink : Z) (l : list neighbour) : Z :=
  match find (fun s => mink <=? count_class l s)%Z (zupto 5) with Some s => s | None => 4%Z end.

(** 213-232: the sums of W*M and W of a band. *)
Definition weight_of (c b : Z) (l : list neighbour) (n : neighbour) : outcome R :=
  u <- of_option (get_at (n_U n) b) ;;
  let ss := rescale_weight (n_S n) (fst (range c n_S l)) (snd (range c n_S l)) in
  let tt := rescale_weight (n_T n) (fst (range c n_T l)) (snd (range c n_T l)) in
  let ub := fun n => match get_at (n_U n) b with Some x => x | None => 0 end in
  let uu := rescale_weight u (fst (range c ub l)) (snd (range c ub l)) in
  Ret (1 / (ss * tt * uu)).
Definition band_sums (c b : Z) (l : list neighbour) : outcome (R * R) :=
  ofold (fun acc n =>
    if (c <? n_class n)%Z then Ret acc
    else
      w <- weight_of c b l n ;;
      m <- of_option (get_at (n_M n) b) ;;
      Ret (fst acc + w * IZR m, snd acc + w)) l (0, 0).
(** 234-235: (float) of the quotient, then short; 0/0 is not a number. *)
Definition predict_band (c : Z) (l : list neighbour) (b : Z) : outcome Z :=
  s <- band_sums c b l ;;
  if Req_bool (snd s) 0 then UB else real_short (rnd32 (fst s / snd s)).

(** 59-249: None if nothing is written. *)
Definition improphe (sc : scene) (h nk mink i j : Z) : outcome (option (list Z)) :=
  let p := (i * s_nx sc + j)%Z in
  mp <- row_at (s_mr sc) p ;;
  if any_nodata (s_nomr sc) mp then Ret None
  else
    hp <- row_at (s_hr sc) p ;;
    l <- gather sc h nk i j hp ;;
    match l with
    | [] => Ret (Some mp)
    | _ => v <- omap (predict_band (cutoff mink l) l) (zupto (zlen (s_mr sc))) ;; Ret (Some v)
    end.
(** l2-improphe-hl.c:260-263: the number of kernel pixels and the neighbours of a good prediction. *)
Definition kernel_cells (h : Z) : Z := ((2 * h + 1) * (2 * h + 1))%Z.
Definition min_neighbours (h : Z) : Z := Ztrunc (IZR (kernel_cells h) * PI / 4.0 * 0.5 / 100.0).

(** ** Seasonal averages: improphe-hl.c:290-409 *)
Record observation := mkObs { o_year : Z; o_doy : Z; o_msk : bool; o_val : list Z }.
(** 333-354: the window of an observation. *)
Definition in_window (a c year doy ywin : Z) : bool :=
  ((a <? c) && (a <=? doy) && (doy <? c) && ((year =? ywin) || (ywin <? 0))
   || (c <? a) && (((a <=? doy) && (doy <=? 365) && ((year =? ywin - 1) || (ywin <? 0))) || ((doy <? c) && ((year =? ywin) || (ywin <? 0))))
   || (c <? a) && (((a <=? doy) && (doy <=? 365) && ((year =? ywin) || (ywin <? 0))) || ((doy <? c) && ((year =? ywin + 1) || (ywin <? 0)))))%Z.
Fixpoint find_window (dwin : list Z) (w year doy ywin : Z) : option Z :=
  match dwin with
  | a :: r =>
    match r with
    | c :: _ => if in_window a c year doy ywin then Some w else find_window r (w + 1)%Z year doy ywin
    | [] => None
    end
  | [] => None
  end.
Definition window_of (dwin : list Z) (ywin : Z) (o : observation) : option Z :=
  if o_msk o then find_window dwin 0 (o_year o) (o_doy o) ywin else None.
(** 359-367: the observations summed up for window [w] and for all windows (the code
    keeps the sums of all windows while it passes over the observations once). *)
Definition of_window (dwin : list Z) (ywin w : Z) (obs : list observation) : list observation :=
  filter (fun o => match window_of dwin ywin o with Some v => (v =? w)%Z | None => false end) obs.
Definition of_any (dwin : list Z) (ywin : Z) (obs : list observation) : list observation :=
  filter (fun o => match window_of dwin ywin o with Some _ => true | None => false end) obs.
(** (short)(avg/k): sums of shorts are exact in double, and the quotient of integers below
    2^47 cut to an integer is the integer quotient. *)
Definition mean_of (l : list observation) (b : Z) : outcome Z :=
  vs <- omap (fun o => of_option (get_at (o_val o) b)) l ;;
  Ret (Z.quot (fold_left Z.add vs 0%Z) (zlen l)).
Definition season_value (dwin : list Z) (ywin nodata : Z) (obs : list observation) (w b : Z) : outcome Z :=
  let all := of_any dwin ywin obs in
  let mine := of_window dwin ywin w obs in
  if (zlen all =? 0)%Z then Ret nodata
  else if (0 <? zlen mine)%Z then mean_of mine b else mean_of all b.
(** One pixel; [mask] is None without a processing mask. *)
Definition average_season (mask : option bool) (dwin : list Z) (ywin nodata nb : Z) (obs : list observation) : outcome (list Z) :=
  let wb := flat_map (fun w => map (fun b => (w, b)) (zupto nb)) (zupto (zlen dwin - 1)) in
  match mask with
  | Some false => Ret (map (fun _ => nodata) wb)
  | _ => omap (fun x => season_value dwin ywin nodata obs (fst x) (snd x)) wb
  end.

(** ** Standardization and focal standard deviation: improphe-hl.c:419-520 *)
(** 424-435: valid values; the first is taken as it is, which is what var_recurrence does. *)
Definition valid_values (nodata : R) (l : list R) : list R := filter (fun x => negb (Req_bool x nodata)) l.
(** standdev: 0/0 for one value is not a number. *)
Definition sd_of (l : list R) : option R :=
  if (zlen l <? 2)%Z then None else Some (standdev (r_vx (run_var l)) (IZR (zlen l))).
(** None: not a number (0/0). *)
Definition standardize (nodata : R) (data : list R) : list (option R) :=
  let vs := valid_values nodata data in
  map (fun x => if Req_bool x nodata then Some x
                else match sd_of vs with
                     | Some s => if Req_bool s 0 then None else Some ((x - r_mx (run_var vs)) / s)
                     | None => None
                     end) data.
(** 479-510; a standard deviation that is not a number is not larger. *)
Definition window_values (nodata : R) (h nx ny i j : Z) (band : list R) : outcome (list R) :=
  ofold (fun acc d =>
    let ni := (i + fst d)%Z in
    let nj := (j + snd d)%Z in
    if ((ni <? 0) || (nj <? 0) || (ni >=? ny) || (nj >=? nx))%Z then Ret acc
    else
      x <- of_option (get_at band (ni * nx + nj)%Z) ;;
      Ret (if Req_bool x nodata then acc else acc ++ [x])) (LsmModel.kernel h) [].
Definition focal_sd (nodata : R) (h nx ny i j : Z) (bands : list (list R)) : outcome R :=
  ofold (fun m band =>
    vs <- window_values nodata h nx ny i j band ;;
    Ret (match sd_of vs with Some s => if Rlt_bool m s then s else m | None => m end)) bands 0.

(** ** The products *)
(** l2-improphe-hl.c:217-231 and 278-322, one pixel of one image: [msk] is the quality mask of
    the image, [dat] its bands, [pred] what improphe writes; images are zero-filled. *)
Definition l2i_pixel (is_empty : bool) (mask : option bool) (msk : bool) (dat : list Z) (nodata : Z) (pred : option (list Z)) : list Z :=
  if is_empty then dat
  else
    match mask with
    | Some false => map (fun _ => nodata) dat
    | _ =>
      if negb msk then dat
      else match dat with
           | d0 :: _ => if (d0 =? nodata)%Z then map (fun _ => 0%Z) dat
                        else match pred with Some v => v | None => map (fun _ => 0%Z) dat end
           | [] => []
           end
    end.
(** The pixel with its prediction; the coarse image of [sc] is [dat] where it is valid and nodata elsewhere (283-303). *)
Definition coarse_row (mask : option bool) (msk : bool) (dat : list Z) (nodata : Z) : list Z :=
  match mask with Some false => map (fun _ => nodata) dat | _ => if msk then dat else map (fun _ => nodata) dat end.
Definition l2i_at (sc : scene) (h mink : Z) (is_empty : bool) (mask : option bool) (msk : bool) (dat : list Z) (i j : Z) : outcome (list Z) :=
  pred <- improphe sc h (kernel_cells h) mink i j ;; Ret (l2i_pixel is_empty mask msk dat (s_nomr sc) pred).
(** cf-improphe-hl.c:310-353, one pixel: the fields of one year ([msks], [dats]: mask and value of
    each field), [pred] as above. *)
Definition cf_values (mask : option bool) (msks : list bool) (dats : list Z) (nodata : Z) : list Z :=
  map (fun md : bool * Z => match mask with Some false => nodata | _ => if fst md then snd md else nodata end) (combine msks dats).
Definition cf_initial (mask : option bool) (msks : list bool) (dats : list Z) (nodata : Z) : list Z :=
  map (fun md : bool * Z => match mask with Some false => nodata | _ => if fst md then 0%Z else snd md end) (combine msks dats).
Definition cfi_year (mask : option bool) (msks : list bool) (dats : list Z) (nodata : Z) (pred : option (list Z)) : list Z :=
  match cf_values mask msks dats nodata with
  | c0 :: _ => if (c0 =? nodata)%Z then map (fun _ => 0%Z) dats
               else match pred with Some v => v | None => cf_initial mask msks dats nodata end
  | [] => []
  end.
(** All years: (is_empty, values of the fields, prediction) of each; the function returns at the
    first year without data (265-277), the years behind it keep the zeros of the new image. *)
Fixpoint cfi_years (mask : option bool) (msks : list bool) (nodata : Z) (ys : list (bool * list Z * option (list Z))) : list (list Z) :=
  match ys with
  | [] => []
  | (e, dats, pred) :: r =>
    if e : bool then dats :: map (fun y : bool * list Z * option (list Z) => map (fun _ => 0%Z) (snd (fst y))) r
    else cfi_year mask msks dats nodata pred :: cfi_years mask msks nodata r
  end.
