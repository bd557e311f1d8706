(** Water vapour: tables from MODIS and their use.  Model of
    src/modules/lower-level/modwvp-ll.c, src/main/lower-level/force-lut-modis.c,
    src/modules/lower-level/gas-ll.c:600-749 and src/modules/cross-level/datesys-cl.c:60-110.
    Sums of doubles are exact here; downloads, file names and the HDF files are left
    out: a granule is what was read from it, a table is its parsed lines. *)
From Coq Require Import Reals.
From Verif Require Import Base CStr Loops RoundModel StatsModel L1Model DateModel.
#[local] Open Scope Z_scope.

Definition Rltb (x y : R) : bool := if Rlt_dec x y then true else false.
Definition Rleb (x y : R) : bool := if Rle_dec x y then true else false.

(** int2bit: modwvp-ll.c:98-108 (start 0). *)
Fixpoint int2bit (x : Z) (size : nat) : list bool :=
  match size with O => [] | S n => negb (Z.rem x 2 =? 0) :: int2bit (Z.quot x 2) n end.

(** What is read from one granule: 700-806. *)
Record granule := mkG { g_nx : Z; g_ny : Z; g_nxc : Z; g_nyc : Z; g_xoff : Z; g_yoff : Z; g_scl : R; g_off : R; g_fill : Z;
                        g_pw : list Z; g_cld : list Z; g_lat : list R; g_lon : list R }.
(** The box around a coordinate: west, east, north, south. *)
Record box := mkBox { b_w : R; b_e : R; b_n : R; b_s : R }.
(** sumwvp, ctrwvp, ctrall. *)
Record acc := mkAcc { a_sum : R; a_used : Z; a_all : Z }.

(** One pixel: modwvp-ll.c:812-831. *)
Definition pixel (g : granule) (b : box) (y yc x xc : Z) (a : acc) : outcome acc :=
  let pos := g_nx g * y + x in let posc := g_nxc g * yc + xc in
  lon <- of_option (get_at (g_lon g) posc) ;;
  if Rleb (b_w b) lon && Rleb lon (b_e b) then
    lat <- of_option (get_at (g_lat g) posc) ;;
    if Rleb lat (b_n b) && Rleb (b_s b) lat then
      pw <- of_option (get_at (g_pw g) pos) ;;
      if pw =? g_fill g then Ret (mkAcc (a_sum a) (a_used a) (a_all a + 1))
      else
        cld <- of_option (get_at (g_cld g) pos) ;;
        let bit := int2bit cld 8 in
        if nth 2 bit false && nth 4 bit false
        then Ret (mkAcc (a_sum a + g_scl g * (IZR pw - g_off g))%R (a_used a + 1) (a_all a + 1))
        else Ret (mkAcc (a_sum a) (a_used a) (a_all a + 1))
    else Ret a
  else Ret a.
(** if ((xct++) >= 5){ xct = 1; xc++;}: 833, 835. *)
Definition tick (s : Z * Z) : Z * Z := let '(c, ct) := s in if ct >=? 5 then (c + 1, 1) else (c, ct + 1).
(** One line of pixels, all lines: 809-836. *)
Definition row (g : granule) (b : box) (y yc : Z) (a : acc) : outcome (acc * (Z * Z)) :=
  ofold (fun s x => a' <- pixel g b y yc x (fst (snd s)) (fst s) ;; Ret (a', tick (snd s))) (zrange (g_xoff g) (g_nx g - 1)) (a, (0, 1)).
Definition image (g : granule) (b : box) (a : acc) : outcome (acc * (Z * Z)) :=
  ofold (fun s y => r <- row g b y (fst (snd s)) (fst s) ;; Ret (fst r, tick (snd s))) (zrange (g_yoff g) (g_ny g - 1)) (a, (0, 1)).
(** The granules of one coordinate: 582-584, 601-840. *)
Definition gather (gs : list granule) (b : box) : outcome acc :=
  ofold (fun a g => r <- image g b a ;; Ret (fst r)) gs (mkAcc 0 0 0).
(** 842-845; the comparison of ctrwvp with ctrall/10 is exact (whole numbers). *)
Definition average (a : acc) : R := if (a_all a >? 0) && (10 * a_used a >=? a_all a) then (a_sum a / IZR (a_used a))%R else 9999%R.
(** compile_modis_wvp for one coordinate: average and count. *)
Definition compile (gs : list granule) (b : box) : outcome (R * Z) := a <- gather gs b ;; Ret (average a, a_all a).

(** choose_modis_wvp for one coordinate, after the initialisation of create_wvp_lut: 882-905, 1028-1031. *)
Definition choose (aqua : bool) (modavg mydavg : R) (modctr mydctr : Z) : R * list Z :=
  let mod_ := (rnd32 modavg, if Rltb (rnd32 modavg) 9999 then `"MOD" else `"TBD") in
  let myd := (rnd32 mydavg, if Rltb (rnd32 mydavg) 9999 then `"MYD" else `"TBD") in
  if negb aqua then mod_
  else if Rltb modavg 9999 && Rltb mydavg 9999 then (if modctr >=? mydctr then mod_ else myd)
  else if Rltb modavg 9999 && Rleb 9999 mydavg then mod_
  else if Rleb 9999 modavg && Rltb mydavg 9999 then myd
  else (9999%R, `"TBD").
(** create_wvp_lut: 1018-1117, with the averages and counts of each sensor per coordinate; the Aqua list is only used once Aqua was commissioned.  [None]: no table is written. *)
Definition aqua_flies (y m d : Z) : bool := y * 10000 + m * 100 + d >=? 20020703.
Record site := mkSite { s_mod : R * Z; s_myd : R * Z }.
Definition create_lut (y m d : Z) (sites : list site) : option (list (R * list Z)) :=
  let lut := map (fun s => choose (aqua_flies y m d) (fst (s_mod s)) (fst (s_myd s)) (snd (s_mod s)) (snd (s_myd s))) sites in
  if 0 <? zlen (filter (fun r => if Req_EM_T (fst r) 9999 then false else true) lut) then Some lut else None.

(** Length of a month in the calendar of mktime. *)
Definition mlen (y m : Z) : Z :=
  if m =? 2 then (if (y mod 4 =? 0) && (negb (y mod 100 =? 0) || (y mod 400 =? 0)) then 29 else 28)
  else if (m =? 4) || (m =? 6) || (m =? 9) || (m =? 11) then 30 else 31.
(** mktime normalises: a day behind the end of the month belongs to the next one (libc; months in 1..12, days from 1 to 99). *)
Fixpoint mktime (n : nat) (y m d : Z) : Z * Z * Z :=
  match n with
  | O => (y, m, d)
  | S k => if d <=? mlen y m then (y, m, d) else if m =? 12 then mktime k (y + 1) 1 (d - mlen y m) else mktime k y (m + 1) (d - mlen y m)
  end.
(** date_set and date_plus: datesys-cl.c:70-83, 93-110 (year, month and day; the time of the day does not matter). *)
Definition date_plus (t : Z * Z * Z) : Z * Z * Z :=
  let '(y, m, d) := t in let '(y1, m1, d1) := mktime 4 y m d in mktime 4 y1 m1 (d1 + 1).
(** The loops over the days: force-lut-modis.c:231-260, 283-320: body, test, next day.  [None]: still running after [fuel] days. *)
Definition same_day (a b : Z * Z * Z) : bool := let '(y, m, d) := a in let '(y2, m2, d2) := b in (y =? y2) && (m =? m2) && (d =? d2).
Fixpoint days (fuel : nat) (t e : Z * Z * Z) : option (list (Z * Z * Z)) :=
  match fuel with
  | O => None
  | S k => if same_day t e then Some [t] else match days k (date_plus t) e with Some l => Some (t :: l) | None => None end
  end.
(** The check of the arguments: force-lut-modis.c:119-136 without the comparison with today; date_order on days of 365-day years. *)
Definition accepted (t e : Z * Z * Z) : bool :=
  let '(y, m, d) := t in let '(y2, m2, d2) := e in
  match date_order (set_date init_date y m d) (set_date init_date y2 m2 d2) with SUCCESS => true | _ => false end.

(** read_wvp_lut: modwvp-ll.c:973-1004, lines given as (x, y, value). *)
Fixpoint read_lut (coo : list (R * R)) (lines : list (R * R * R)) : outcome (list R) :=
  match coo with
  | [] => Ret []
  | c :: r => match lines with
    | [] => Exit
    | (x, y, v) :: t => if Rltb (1 / 10000) (Rabs (x - fst c)) || Rltb (1 / 10000) (Rabs (y - snd c)) then Exit else w <- read_lut r t ;; Ret (v :: w)
    end
  end.
(** The sums per month for coordinate [c]: force-lut-modis.c:294-312.  [days]: every day with its table, if it exists. *)
Definition is_9999 (v : R) : bool := if Req_EM_T v 9999 then true else false.
Definition month_of (t : Z * Z * Z) : Z := snd (fst t).
Fixpoint gather_month (m : Z) (c : nat) (coo : list (R * R)) (l : list ((Z * Z * Z) * option (list (R * R * R)))) (n : nat) (s : var) : outcome (nat * var) :=
  match l with
  | [] => Ret (n, s)
  | (_, None) :: r => gather_month m c coo r n s
  | (t, Some lut) :: r =>
      w <- read_lut coo lut ;;
      if month_of t =? m then
        match nth_error w c with
        | None => UB
        | Some v => if is_9999 v then gather_month m c coo r n s
                    else gather_month m c coo r (S n) (match n with O => mkVar v 0 | _ => var_recurrence v s (INR (S n)) end)
        end
      else gather_month m c coo r n s
  end.
(** 322-336: average, standard deviation, count of a month. *)
Definition climatology (m : Z) (c : nat) (coo : list (R * R)) (l : list ((Z * Z * Z) * option (list (R * R * R)))) : outcome (R * R * nat) :=
  r <- gather_month m c coo l 0 (mkVar 0 0) ;;
  let n := fst r in
  Ret (match n with O => 9999%R | _ => r_mx (snd r) end, match n with O | 1%nat => 9999%R | _ => standdev (r_vx (snd r)) (INR n) end, n).

(** water_vapor_from_lut: gas-ll.c:623-749.  A line of a table is (x, y, value); [None]: a blank line, atof(NULL). *)
Definition dist (cx cy x y : R) : R :=
  let dx := rnd64 (cx - x) in let dy := rnd64 (cy - y) in rnd32 (rnd64 (sqrt (rnd64 (rnd64 (dx * dx) + rnd64 (dy * dy)))))%R.
(** 697-718: (min_dist, wvp); LONG_MAX is 2^63 as a float. *)
Definition closest (cx cy : R) (lines : list (option (R * R * R))) (wvp : R) : outcome (R * R) :=
  ofold (fun s l => match l with
    | None => UB
    | Some (x, y, v) => let d := dist cx cy x y in if Rltb d (fst s) && Rltb d (3 / 2) then Ret (d, v) else Ret s
    end) lines (9223372036854775808%R, wvp).
(** 658-749.  [const]: no directory of tables given, the value of the parameter file; the two tables if they exist. *)
Definition lut_wvp (const : option R) (strict : bool) (clim daily : option (list (option (R * R * R)))) (cx cy : R) : outcome R :=
  match const with
  | Some v => Ret v
  | None =>
      avg <- match clim with None => Ret (-1)%R | Some l => s <- closest cx cy l (-1) ;; Ret (snd s) end ;;
      wvp <- match daily with None => Ret avg | Some l => s <- closest cx cy l avg ;; Ret (snd s) end ;;
      if Rltb wvp 0 && strict then Ret (-1)%R
      else if Rltb wvp 0 || Rltb 10 wvp then Ret avg else Ret wvp
  end.

(** The outline of a granule: modwvp-ll.c:331-349.  Corners as (lon, lat). *)
Definition unwrap (a b : R) : R :=
  let m0 := Rabs (a - b) in let m1 := Rabs (a - (b + 360)) in let m2 := Rabs (a - (b - 360)) in
  if Rltb m1 m0 && Rltb m1 m2 then (b + 360)%R else if Rltb m2 m0 && Rltb m2 m1 then (b - 360)%R else b.
Record outline := mkO { o0 : R * R; o1 : R * R; o2 : R * R; o3 : R * R }.
Definition fix_datum (o : outline) : outline :=
  let f (p : R * R) := (unwrap (fst (o0 o)) (fst p), snd p) in mkO (o0 o) (f (o1 o)) (f (o2 o)) (f (o3 o)).
Definition reorder (o : outline) : outline :=
  if Rltb (fst (o2 o)) (fst (o0 o)) && Rltb (snd (o0 o)) (snd (o2 o)) then mkO (o2 o) (o3 o) (o0 o) (o1 o) else o.
(** Granules that are kept: 281-284, 319-325.  West, east, north, south of the bounding box. *)
Definition kept (flag : list Z) (w e n s : R) : bool :=
  (if list_eq_dec Z.eq_dec flag (`"D") then true else if list_eq_dec Z.eq_dec flag (`"B") then true else false) &&
  negb ((if Req_EM_T w (-180) then true else false) && (if Req_EM_T e 180 then true else false) || Rltb 89 (Rabs n) || Rltb 89 (Rabs s)).
