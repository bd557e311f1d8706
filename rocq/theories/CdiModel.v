(** Cloud displacement index of Sentinel-2.  Model of cloud_parallax,
    src/modules/lower-level/cloud-ll.c:1040-1203, on the coarse grid of [nx] columns and [ny] rows: the two ratios
    of each cell (0 where there is no candidate) and its probability by colour are input, and are numbers.
    Doubles are exact, the index is rounded to the float that holds it.  Region growing, what follows, is in CldModel.v. *)
From Coq Require Import Reals.
From Flocq Require Import Core.
From Verif Require Import Base Loops RoundModel StatsModel CldModel.
#[local] Open Scope Z_scope.

(** Value of the array cdi_: -9999, not a number (0/0), or a number. *)
Inductive idx := Nodata | Nan | Val (x : R).
(** for (ii=-r; ii<=r; ii++) for (jj=-r; jj<=r; jj++). *)
Definition offsets (r : Z) : list (Z * Z) := flat_map (fun ii => map (fun jj => (ii, jj)) (zrange (- r) r)) (zrange (- r) r).
Definition outside (nx ny ni nj : Z) : bool := (ni <? 0) || (ny <=? ni) || (nj <? 0) || (nx <=? nj).
Definition Reqb (a b : R) : bool := if Req_EM_T a b then true else false.
Definition Rltb (a b : R) : bool := if Rlt_dec a b then true else false.
Definition Rleb (a b : R) : bool := if Rle_dec a b then true else false.

(** 1064-1083: k and the five sums. *)
Definition feed_cell (r0 r1 : list R) (nx ny i j : Z) (s : Z * covar) (d : Z * Z) : outcome (Z * covar) :=
  let ni := i + fst d in let nj := j + snd d in
  if outside nx ny ni nj then Ret s
  else
    x <- of_option (get_at r0 (ni * nx + nj)) ;;
    if Reqb x 0 then Ret s
    else
      y <- of_option (get_at r1 (ni * nx + nj)) ;;
      let k := fst s + 1 in
      Ret (k, if k =? 1 then mkCovar x y (c_vx (snd s)) (c_vy (snd s)) (c_cv (snd s)) else covar_recurrence x y (snd s) (IZR k)).
(** 1051-1089. *)
Definition cdi_at (r0 r1 : list R) (nx ny i j : Z) : outcome idx :=
  x <- of_option (get_at r0 (i * nx + j)) ;;
  if Reqb x 0 then Ret Nodata
  else
    s <- ofold (feed_cell r0 r1 nx ny i j) (offsets 3) (0, mkCovar 0 0 0 0 0) ;;
    if fst s >? 2 then
      let varx := variance (c_vx (snd s)) (IZR (fst s)) in let vary := variance (c_vy (snd s)) (IZR (fst s)) in
      Ret (if Reqb (varx + vary) 0 then Nan else Val (rnd32 ((varx - vary) / (varx + vary))))
    else Ret Nodata.
(** 1092-1109: smallest probability of 15 x 15 cells; [None] is INT_MAX.  0 where there is no ratio (calloc). *)
Definition least (r0 var2 : list R) (nx ny i j : Z) (m : option R) (d : Z * Z) : outcome (option R) :=
  let ni := i + fst d in let nj := j + snd d in
  if outside nx ny ni nj then Ret m
  else
    x <- of_option (get_at r0 (ni * nx + nj)) ;;
    if Reqb x 0 then Ret m
    else v <- of_option (get_at var2 (ni * nx + nj)) ;; Ret (match m with None => if Rltb v 2147483647 then Some v else None | Some w => if Rltb v w then Some v else m end).
Definition var3_at (r0 var2 : list R) (nx ny i j : Z) : outcome R :=
  x <- of_option (get_at r0 (i * nx + j)) ;;
  if Reqb x 0 then Ret 0%R
  else m <- ofold (least r0 var2 nx ny i j) (offsets 7) None ;; Ret (match m with Some v => v | None => 0%R end).
(** 1145-1171. *)
Definition eight_tenths : R := rnd64 (8 / 10).
Definition spoils (c : idx) (v : R) : bool :=
  match c with Nodata => true | Nan => false | Val x => Rltb (- (1 / 2)) x && Rltb v eight_tenths end.
Definition starts (c : idx) (v : R) : bool :=
  match c with Nodata | Nan => false | Val x => Rleb x (- (1 / 2)) || (Rltb eight_tenths v && Rltb x 0) end.
Definition check_cell (cdi : list idx) (var3 : list R) (nx ny i j : Z) (valid : bool) (d : Z * Z) : outcome bool :=
  let ni := i + fst d in let nj := j + snd d in
  if outside nx ny ni nj then Ret valid
  else
    c <- of_option (get_at cdi (ni * nx + nj)) ;;
    v <- of_option (get_at var3 (ni * nx + nj)) ;;
    Ret (if spoils c v then false else valid).
Definition seed_at (cdi : list idx) (var3 : list R) (nx ny i j : Z) : outcome bool :=
  c <- of_option (get_at cdi (i * nx + j)) ;;
  v <- of_option (get_at var3 (i * nx + j)) ;;
  if starts c v then ofold (check_cell cdi var3 nx ny i j) (offsets 1) true else Ret false.
(** 1224, 1256: a cell that clouds grow into. *)
Definition grows_into (c : idx) : bool := match c with Nodata => false | Nan => false | Val x => Rltb x (- (1 / 4)) && Rleb (-1) x end.
(** The whole: the three arrays. *)

Definition parallax (r0 r1 var2 : list R) (nx ny : Z) : outcome (list bool * list bool) :=
  cdi <- omap (fun c => cdi_at r0 r1 nx ny (fst c) (snd c)) (cells nx ny) ;;
  var3 <- omap (fun c => var3_at r0 var2 nx ny (fst c) (snd c)) (cells nx ny) ;;
  seeds <- omap (fun c => seed_at cdi var3 nx ny (fst c) (snd c)) (cells nx ny) ;;
  Ret (seeds, map grows_into cdi).
