(** The products of the time series analysis, their files and the labels of their
    bands: tsa-hl.c.  The images are given by the date and the sensor of their first
    band; pixels, wavelengths, units, domains and directories are not modelled. *)
From Verif Require Import Base Loops CStr DateModel SeasonModel.

Record image := mkImage { im_date : date; im_sensor : list Z }.

(** OUTPUT_FBx, OUTPUT_TRx, OUTPUT_CAx for one kind of fold. *)
Record fold_out := mkOut { o_fb : bool; o_tr : bool; o_ca : bool }.

(** The parts of par_hl_t that tsa-hl.c reads: param-hl.h.  [tp_metrics]: the tags of
    the requested statistics; [tp_pyp], [tp_rsp]: whether the UDF products are
    written, and name and date of their bands. *)
Record tpar := mkTpar {
  tp_lo : date; tp_hi : date; tp_doy_lo : Z; tp_doy_hi : Z; tp_target : list Z; tp_index : list (list Z);
  tp_none : bool; tp_step : Z; tp_fit_end : Z;
  tp_tss : bool; tp_tsi : bool; tp_nrt : bool; tp_rms : bool; tp_stm : bool; tp_metrics : list (list Z);
  tp_y : fold_out; tp_q : fold_out; tp_m : fold_out; tp_w : fold_out; tp_d : fold_out;
  tp_pct : bool; tp_pol : bool; tp_tro : bool; tp_cao : bool; tp_use : list bool;
  tp_pyp : bool * list (list Z * date); tp_rsp : bool * list (list Z * date);
  tp_ny : Z; tp_season : season }.

(** enum at tsa-hl.c:42. *)
Inductive kind := Full | Stats | Inter | Nrt | Year | Quarter | Month | Week | Day | Pol | Trd | Cat | Udf (bands : list (list Z * date)).

(** brick_compile_info_t: tsa-hl.c:31-40. *)
Record info := mkInfo { i_name : list Z; i_len : Z; i_kind : kind; i_enable : Z; i_write : Z }.
Definition b2z (b : bool) : Z := if b then 1 else 0.

(** _TAGGED_ENUM_POL_: enum-cl.c:100-113. *)
Definition pol_tags : list (list Z) :=
  [` "DEM"; ` "DLM"; ` "DPS"; ` "DSS"; ` "DMS"; ` "DES"; ` "DEV"; ` "DAV"; ` "DLV"; ` "LTS"; ` "LGS"; ` "LGV"; ` "VEM";
   ` "VLM"; ` "VPS"; ` "VSS"; ` "VMS"; ` "VES"; ` "VEV"; ` "VAV"; ` "VLV"; ` "VBL"; ` "VGA"; ` "VSA"; ` "VPA"; ` "VGM";
   ` "VGV"; ` "DPY"; ` "DPV"; ` "IST"; ` "IBL"; ` "IBT"; ` "IGS"; ` "IRR"; ` "IFR"; ` "RAR"; ` "RAF"; ` "RMR"; ` "RMF"].
(** _POL_LENGTH_, _TRD_LENGTH_, _CAT_LENGTH_: enum-cl.h:190-234. *)
Definition POL_LENGTH : Z := 39.
(** _TAGGED_ENUM_TRD_, _TAGGED_ENUM_CAT_: enum-cl.c:118-144. *)
Definition trd_tags : list (list Z) :=
  [` "MEAN"; ` "OFFSET"; ` "SLOPE"; ` "PCT_GAIN"; ` "ABS_GAIN"; ` "RSQ"; ` "SIG"; ` "RMSE"; ` "MAE"; ` "MAXRES"; ` "NUM"; ` "LENGTH"].
Definition cat_part (part : list Z) : list (list Z) :=
  map (fun t => part ++ t) [` "-MEAN"; ` "-OFFSET"; ` "-SLOPE"; ` "-PCT-GAIN"; ` "-ABS-GAIN"; ` "-RSQ"; ` "-SIG"; ` "-RMSE"; ` "-MAE"; ` "-MAXRES"; ` "-NUM"; ` "-LENGTH"].
Definition cat_tags : list (list Z) := [` "CHANGE"; ` "LOSS"; ` "YEAR-OF-CHANGE"] ++ cat_part (` "TOTAL") ++ cat_part (` "BEFORE") ++ cat_part (` "AFTER").

(** info_tss, info_nrt, info_rms, info_tsi, info_stm: tsa-hl.c:52-131. *)
Definition info_series (p : tpar) (nt nr ni : Z) : list info :=
  [ mkInfo (` "TSS") nt Full 1 (b2z (tp_tss p));
    mkInfo (` "NRT") nr Nrt (b2z (tp_nrt p)) (b2z (tp_nrt p));
    mkInfo (` "RMS") nt Full (b2z (tp_rms p)) (b2z (tp_rms p));
    mkInfo (` "TSI") ni Inter 1 (b2z (tp_tsi p));
    mkInfo (` "STM") (zlen (tp_metrics p)) Stats (b2z (tp_stm p)) (b2z (tp_stm p)) ].

(** info_fby and, with other names, info_fbq, info_fbm, info_fbw, info_fbd: tsa-hl.c:133-292. *)
Definition info_fold (letter : list Z) (n : Z) (k : kind) (o : fold_out) : list info :=
  [ mkInfo (` "FB" ++ letter) n k (b2z (o_fb o) + b2z (o_tr o) + b2z (o_ca o)) (b2z (o_fb o));
    mkInfo (` "TR" ++ letter) (zlen trd_tags) Trd (b2z (o_tr o)) (b2z (o_tr o));
    mkInfo (` "CA" ++ letter) (zlen cat_tags) Cat (b2z (o_ca o)) (b2z (o_ca o)) ].

(** info_pol: tsa-hl.c:294-361.  [tp_use] has _POL_LENGTH_ entries; pol.ny is ny
    (param-hl.c:1080). *)
Definition info_pol (p : tpar) (ni : Z) : list info :=
  [ mkInfo (` "PCX") ni Inter (b2z (tp_pct p)) (b2z (tp_pct p)); mkInfo (` "PCY") ni Inter (b2z (tp_pct p)) (b2z (tp_pct p)) ] ++
  map (fun tu => mkInfo (fst tu ++ ` "-POL") (tp_ny p) Pol (b2z (snd tu) * (b2z (tp_pol p) + b2z (tp_tro p) + b2z (tp_cao p))) (b2z (snd tu) * b2z (tp_pol p)))
    (combine pol_tags (tp_use p)) ++
  map (fun tu => mkInfo (fst tu ++ ` "-TRO") (zlen trd_tags) Trd (b2z (snd tu) * b2z (tp_tro p)) (b2z (snd tu) * b2z (tp_tro p))) (combine pol_tags (tp_use p)) ++
  map (fun tu => mkInfo (fst tu ++ ` "-CAO") (zlen cat_tags) Cat (b2z (snd tu) * b2z (tp_cao p)) (b2z (snd tu) * b2z (tp_cao p))) (combine pol_tags (tp_use p)).

(** info_pyp, info_rsp: tsa-hl.c:364-395. *)
Definition info_udf (name : list Z) (u : bool * list (list Z * date)) : list info :=
  [ mkInfo name (zlen (snd u)) (Udf (snd u)) (b2z (fst u)) (b2z (fst u)) ].

(** tsa-hl.c:578-606: the array has room for [nprod] entries. *)
Definition nprod : Z := 5 + 5 + 5 + 5 + 2 + POL_LENGTH + POL_LENGTH + POL_LENGTH + 1 + 1.
Definition infos (p : tpar) (nt nr ni : Z) : outcome (list info) :=
  let l := info_series p nt nr ni ++
    info_fold (` "Y") (tp_ny p) Year (tp_y p) ++ info_fold (` "Q") (s_nq (tp_season p)) Quarter (tp_q p) ++
    info_fold (` "M") (s_nm (tp_season p)) Month (tp_m p) ++ info_fold (` "W") (s_nw (tp_season p)) Week (tp_w p) ++
    info_fold (` "D") (s_nd (tp_season p)) Day (tp_d p) ++
    info_pol p ni ++ info_udf (` "PYP") (tp_pyp p) ++ info_udf (` "RSP") (tp_rsp p) in
  if zlen l =? nprod then Ret l else UB.

(** What is set for each band: set_brick_date, set_brick_sensor, set_brick_bandname. *)
Record label := mkLabel { l_date : date; l_sensor : list Z; l_name : list Z }.
Record brick := mkBrick { b_product : list Z; b_file : list Z; b_written : bool; b_bands : list label }.

(** compact_date: date-cl.c:343-353. *)
Definition compact (d : date) : list Z := print_0d 4 (year d) ++ print_0d 2 (month d) ++ print_0d 2 (day d).
Definition BLEND : list Z := ` "BLEND".
(** snprintf into NPOW_10 = 1024 bytes; [None] is a text that does not fit. *)
Definition fits (text : list Z) : option (list Z) := if zlen text >=? 1024 then None else Some text.

(** tsa-hl.c:635-647, 648-660. *)
Definition label_image (im : image) : option label :=
  match fits (compact (im_date im) ++ ` "_" ++ im_sensor im) with
  | Some n => Some (mkLabel (im_date im) (im_sensor im) n)
  | None => None
  end.
Definition label_images (imgs : list image) (from n : Z) : outcome (list (option label)) :=
  omap (fun t => im <- of_option (get_at imgs (from + t)) ;; Ret (label_image im)) (zupto n).
(** tsa-hl.c:666-678. *)
Fixpoint inter_days (d : date) (lo step : Z) (ts : list Z) : list date :=
  match ts with
  | [] => []
  | t :: ts => let d := set_date_ce d (lo + t * step) in d :: inter_days d lo step ts
  end.
Definition named (text : date -> list Z) (ds : list date) : list (option label) :=
  map (fun d => Some (mkLabel d BLEND (text d))) ds.
(** tsa-hl.c:625-626, init_date and set_date. *)
Definition d2000 : date := set_date init_date 2000 1 1.

(** The loop over the bands: tsa-hl.c:632-771.  The names made from a single number
    or date always fit.  [None] entries are errors. *)
Definition labels (p : tpar) (imgs : list image) (nt nr : Z) (i : info) : outcome (list (option label)) :=
  let n := i_len i in
  let s := tp_season p in
  match i_kind i with
  | Full => label_images imgs 0 n
  | Nrt => label_images imgs (nt - nr) n
  | Stats => ns <- omap (fun t => of_option (get_at (tp_metrics p) t)) (zupto n) ;; Ret (map (fun x => Some (mkLabel d2000 BLEND x)) ns)
  | Inter =>
      if tp_none p then omap (fun t => im <- of_option (get_at imgs t) ;; Ret (Some (mkLabel (im_date im) BLEND (compact (im_date im))))) (zupto n)
      else Ret (named compact (inter_days d2000 (ce (tp_lo p)) (tp_step p) (zupto n)))
  | Year | Pol => Ret (named (fun d => ` "YEAR-" ++ print_0d 4 (year d)) (fst (fold_years (year (tp_lo p)) (Z.to_nat n) 0 d2000)))
  | Quarter => ds <- fold_dates set_date_quarter 5 (s_quarters s) (Z.to_nat n) d2000 1 ;; Ret (named (fun d => ` "QUARTER-" ++ print_0d 1 (quarter d)) ds)
  | Month => ds <- fold_dates set_date_month 13 (s_months s) (Z.to_nat n) d2000 1 ;; Ret (named (fun d => ` "MONTH-" ++ print_0d 2 (month d)) ds)
  | Week => ds <- fold_dates set_date_week 53 (s_weeks s) (Z.to_nat n) d2000 1 ;; Ret (named (fun d => ` "WEEK-" ++ print_0d 2 (week d)) ds)
  | Day => ds <- fold_dates set_date_doy 366 (s_days s) (Z.to_nat n) d2000 1 ;; Ret (named (fun d => ` "DOY-" ++ print_0d 3 (doy d)) ds)
  | Trd => ns <- omap (fun t => of_option (get_at trd_tags t)) (zupto n) ;; Ret (map (fun x => Some (mkLabel d2000 BLEND x)) ns)
  | Cat => ns <- omap (fun t => of_option (get_at cat_tags t)) (zupto n) ;; Ret (map (fun x => Some (mkLabel d2000 BLEND x)) ns)
  | Udf bands => bs <- omap (fun t => of_option (get_at bands t)) (zupto n) ;; Ret (map (fun x => Some (mkLabel (snd x) BLEND (fst x))) bs)
  end.

(** All entries, if none is missing. *)
Fixpoint all_some {A} (l : list (option A)) : option (list A) :=
  match l with
  | [] => Some []
  | None :: _ => None
  | Some x :: l => match all_some l with Some r => Some (x :: r) | None => None end
  end.

(** compile_tsa_brick: tsa-hl.c:836-895; the overflow of the directory name is not
    modelled.  allocate_brick refuses less than one band: brick_base-cl.c:56-58. *)
Definition file_name (p : tpar) (index product : list Z) : option (list Z) :=
  fits (compact (tp_lo p) ++ ` "-" ++ compact (tp_hi p) ++ ` "_" ++ print_0d 3 (tp_doy_lo p) ++ ` "-" ++ print_0d 3 (tp_doy_hi p) ++
        ` "_HL_TSA_" ++ tp_target p ++ ` "_" ++ index ++ ` "_" ++ product).

(** One product: tsa-hl.c:617-785.  [Ret None]: error++; [Ret (Some None)]: not enabled. *)
Definition compile_product (p : tpar) (imgs : list image) (nt nr : Z) (index : list Z) (i : info) : outcome (option (option brick)) :=
  if i_enable i >? 0 then
    if i_len i <? 1 then Ret None
    else match file_name p index (i_name i) with
    | None => Ret None
    | Some f =>
        ls <- labels p imgs nt nr i ;;
        match all_some ls with
        | None => Ret None
        | Some ls => Ret (Some (Some (mkBrick (i_name i) f (negb (i_write i =? 0)) ls)))
        end
    end
  else Ret (Some None).

(** compile_tsa: tsa-hl.c:564-824; NULL if there was an error. *)
Definition compile_tsa (p : tpar) (imgs : list image) (nt nr ni : Z) (index : list Z) : outcome (option (list (option brick))) :=
  l <- infos p nt nr ni ;;
  bs <- omap (compile_product p imgs nt nr index) l ;;
  Ret (all_some bs).

(** tsa-hl.c:940-945: the quotient of two ints is an int before ceil sees it. *)
Definition n_steps (p : tpar) (nt : Z) : Z :=
  if tp_none p then nt else Z.quot (ce (tp_hi p) - ce (tp_lo p) + 1) (tp_step p).
(** tsa-hl.c:947-954. *)
Definition n_nrt (p : tpar) (imgs : list image) : Z :=
  if tp_nrt p then fold_left (fun n im => if ce (im_date im) >? tp_fit_end p then n + 1 else n) imgs 0 else 0.

(** time_series_analysis: tsa-hl.c:912-1024 without the pixels: the bricks of all
    indices one after the other, nothing if one index fails. *)
Definition time_series (p : tpar) (imgs : list image) : outcome (option (list (option brick))) :=
  let nt := zlen imgs in
  r <- omap (compile_tsa p imgs nt (n_nrt p imgs) (n_steps p nt)) (tp_index p) ;;
  Ret (match all_some r with Some l => Some (concat l) | None => None end).
