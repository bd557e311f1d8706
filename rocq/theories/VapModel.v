(** Water vapour and gas transmittance of Sentinel-2.  Model of src/modules/lower-level/gas-ll.c: wvp_transmitt_lut (45-102),
    the table of fun_wvp (144-167), water_vapor (198-455) and gas_transmittance (468-537).
    The minimiser of GSL is a function of its start, of the reflectances, the elevation class and the block; sums of reflectances and of
    estimates are exact; the terms of radiative transfer are left out. *)
From Coq Require Import Reals.
From Flocq Require Import Core.
From Verif Require Import Base Loops RoundModel.
#[local] Open Scope Z_scope.

Definition Rltb (a b : R) : bool := if Rlt_dec a b then true else false.
Definition Rleb (a b : R) : bool := if Rle_dec a b then true else false.

(** ** The table: 45-102 *)
(** The double 0.01. *)
Definition hundredth : R := rnd64 (1 / 100).
(** 66-80: first and last column, of cosines that are floats. *)
Definition km_min (s v : R) : Z := Zfloor (rnd64 ((if Rltb s v then s else v) * 100)).
Definition km_max (s v : R) : Z := Zceil (rnd64 ((if Rltb v s then s else v) * 100)).
(** 88-101: transmittance of column [km] and line [kw]; alloc_3D fills with 0 ([None] here: never computed).  [None]: index outside of the table. *)
Definition table {A} (transmitt : R -> R -> A) (first last kw km : Z) : option (option A) :=
  if (0 <=? kw) && (kw <? 701) && (0 <=? km) && (km <? 101)
  then Some (if (first <=? km) && (km <=? last) then Some (transmitt (rnd32 (rnd64 (IZR kw * hundredth))) (rnd32 (rnd64 (IZR km * hundredth)))) else None)
  else None.
(** 159-161, 507-514: (int)floor(x/0.01). *)
Definition slot (x : R) : Z := Zfloor (rnd64 (x / hundredth)).

(** ** Water vapour: 198-455 *)
(** The image: flags of QAI, reflectance of the two channels, elevation class. *)
Record img := mkImg { i_nx : Z; i_ny : Z; i_off : list bool; i_shadow : list bool; i_water : list bool; i_ref : list Z; i_meas : list Z; i_dem : list Z }.
Definition every_sixth (n : Z) : list Z := map (fun k => 6 * k) (zupto ((n + 5) / 6)).
Definition blocks (nx ny : Z) : list (Z * Z) := flat_map (fun i => map (fun j => (i, j)) (every_sixth nx)) (every_sixth ny).
Definition offs6 : list (Z * Z) := flat_map (fun ii => map (fun jj => (ii, jj)) (zupto 6)) (zupto 6).
Definition pos (nx : Z) (b d : Z * Z) : Z := (fst b + fst d) * nx + snd b + snd d.
(** 290-309: sum of reflectances, of elevations, number. *)
Definition gather (g : img) (b : Z * Z) : outcome (R * Z * Z) :=
  ofold (fun s d => let p := pos (i_nx g) b d in
    o <- of_option (get_at (i_off g) p) ;;
    if o then Ret s else
    sh <- of_option (get_at (i_shadow g) p) ;;
    if sh then Ret s else
    w <- of_option (get_at (i_water g) p) ;;
    if w then Ret s else
    t <- of_option (get_at (i_ref g) p) ;;
    if t <? 1500 then Ret s else
    e <- of_option (get_at (i_dem g) p) ;;
    Ret ((fst (fst s) + IZR t / 10000)%R, snd (fst s) + e, snd s + 1)) offs6 (0%R, 0, 0).
(** 310-370: the estimate of a block, if any, and the start of the next one.  roundf(dem/k): whole sums of at most 36 numbers, so the division in float does not matter.
    [seen]: there is a view angle. *)
Definition estimate (opt : R -> R -> Z -> Z -> Z * Z -> R) (seen : Z * Z -> bool) (g : img) (w : R) (b : Z * Z) : outcome (option R * R) :=
  s <- gather g b ;;
  let k := snd s in
  if k =? 0 then Ret (None, w)
  else
    m <- of_option (get_at (i_meas g) (fst b * i_nx g + snd b)) ;;
    if negb (seen b) then Ret (None, w)
    else let e := rnd32 (opt w (fst (fst s) / IZR k)%R m ((2 * snd (fst s) + k) / (2 * k)) b) in
         if Rltb 7 e || Rleb e 0 then Ret (None, 3%R) else Ret (Some e, e).
(** (short)(w*1000). *)
Definition stored (e : R) : Z := to_short (Ztrunc (rnd32 (e * 1000))).
(** 381-391. *)
Definition write (g : img) (b : Z * Z) (v : Z) (wvp : list Z) : outcome (list Z) :=
  ofold (fun m d => let p := pos (i_nx g) b d in o <- of_option (get_at (i_off g) p) ;; if o then Ret m else of_option (set_at m p v)) offs6 wvp.
(** One thread: 256-396; sum, number, map. *)
Record acc := mkAcc { a_w : R; a_sum : R; a_num : Z; a_map : list Z }.
Definition block (opt : R -> R -> Z -> Z -> Z * Z -> R) (seen : Z * Z -> bool) (g : img) (a : acc) (b : Z * Z) : outcome acc :=
  e <- estimate opt seen g (a_w a) b ;;
  match fst e with
  | None => Ret (mkAcc (snd e) (a_sum a) (a_num a) (a_map a))
  | Some v => m <- write g b (stored v) (a_map a) ;; Ret (mkAcc (snd e) (a_sum a + v)%R (a_num a + 1) m)
  end.
Definition thread opt seen g (a : acc) (bs : list (Z * Z)) : outcome acc := ofold (block opt seen g) bs (mkAcc 3 (a_sum a) (a_num a) (a_map a)).
(** 419-443: fill; the second result are the flags of filled pixels. *)
Definition fill (g : img) (a : acc) : outcome (list Z * list bool) :=
  if 0 <? a_num a then
    l <- omap (fun p => o <- of_option (get_at (i_off g) p) ;; v <- of_option (get_at (a_map a) p) ;;
                 Ret (if o || (0 <? v) then (v, false) else (stored (rnd32 (a_sum a / IZR (a_num a))), true))) (zupto (i_nx g * i_ny g)) ;;
    Ret (map fst l, map snd l)
  else Ret (a_map a, repeat false (Z.to_nat (i_nx g * i_ny g))).
(** The whole; [threads]: the blocks that each thread gets, in its order. *)
Definition water_vapor opt seen g (threads : list (list (Z * Z))) : outcome (list Z * list bool) :=
  a <- ofold (thread opt seen g) threads (mkAcc 3 0 0 (repeat 0 (Z.to_nat (i_nx g * i_ny g)))) ;; fill g a.

(** ** Transmittance: 468-537.  [tg]: the transmittance for water vapour line [kw] of the block, scaled. *)
Definition gas (tg : Z -> Z * Z -> Z) (seen : Z * Z -> bool) (g : img) (wvp : list Z) : outcome (list Z) :=
  ofold (fun m b =>
    if negb (seen b) then Ret m
    else
      v <- of_option (get_at wvp (fst b * i_nx g + snd b)) ;;
      let kw := slot (rnd32 (rnd64 (IZR v / 1000))) in
      write g b (tg kw b) m) (blocks (i_nx g) (i_ny g)) (repeat 0 (Z.to_nat (i_nx g * i_ny g))).
