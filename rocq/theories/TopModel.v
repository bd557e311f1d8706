(** Topography: src/modules/lower-level/topo-ll.c.  Images are functions of row and column
    (all loops address pixels by row and column and, where they run in parallel, write their
    own pixels only).  Elevations, slopes and angles are real numbers and the constants for
    degrees are exact; the binning of elevations is computed in rounded floats. *)
From Coq Require Import Reals.
From Flocq Require Import Core.
From Verif Require Import Base Loops RoundModel RadModel.
#[local] Open Scope nat_scope.

Definition grid (A : Type) := nat -> nat -> A.

(** ** ocean_topography, 75-152.  None is nodata (fequal, for a nodata value other than 0). *)
Definition sea (a b : option R) : option R :=
  match a, b with Some z, None => if Req_bool z 0 then Some 0%R else None | _, _ => b end.
(** 91-102: each column from the first row on; row [i] is read after row [i-1] was written. *)
Fixpoint down (g : grid (option R)) (i j : nat) : option R :=
  match i with O => g 0 j | S i' => sea (down g i' j) (g i j) end.
Definition flip {A} (ny : nat) (g : grid A) : grid A := fun i j => g (ny - 1 - i) j.
Definition turn {A} (g : grid A) : grid A := fun i j => g j i.
(** 105-116, 119-130, 133-144 *)
Definition up (ny : nat) (g : grid (option R)) : grid (option R) := flip ny (down (flip ny g)).
Definition right (g : grid (option R)) : grid (option R) := turn (down (turn g)).
Definition left (nx : nat) (g : grid (option R)) : grid (option R) := turn (up nx (turn g)).
Definition ocean (ny nx : nat) (g : grid (option R)) : grid (option R) := left nx (right (up ny (down g))).

(** ** smooth_topography, 160-238: mean of the valid pixels of a window of [2k+1] pixels; [k] is 30/res cut. *)
Definition window (ny nx k i j : nat) : list (nat * nat) :=
  filter (fun q => (Nat.leb i (fst q + k) && Nat.leb (fst q) (i + k)) && (Nat.leb j (snd q + k) && Nat.leb (snd q) (j + k)))
    (flat_map (fun ni => map (fun nj => (ni, nj)) (seq 0 nx)) (seq 0 ny)).
Fixpoint values (g : grid (option R)) (l : list (nat * nat)) : list R :=
  match l with [] => [] | q :: l => match g (fst q) (snd q) with Some v => v :: values g l | None => values g l end end.
Fixpoint rsum (l : list R) : R := match l with [] => 0%R | v :: l => (v + rsum l)%R end.
Definition smooth (ny nx : nat) (res : R) (g : grid (option R)) : grid (option R) :=
  if Rle_bool 30 res then g
  else fun i j =>
    match g i j with
    | None => None
    | Some _ =>
        let l := values g (window ny nx (Z.to_nat (Ztrunc (30 / res))) i j) in
        match l with [] => None | _ => Some (rsum l / INR (length l))%R end
    end.

(** ** exposition_topography, 247-420 *)
(** atan2 of the C library for arguments that are not both 0. *)
Definition atan2 (y x : R) : R :=
  if Rlt_bool 0 x then atan (y / x)
  else if Rlt_bool x 0 then (if Rle_bool 0 y then atan (y / x) + PI else atan (y / x) - PI)%R
  else (if Rlt_bool 0 y then PI / 2 else - (PI / 2))%R.
Definition degree : R := (PI / 180)%R.
(** State of a pixel: off flag and slope flag of the quality information, slope and aspect as stored. *)
Record expo := mkExpo { x_off : bool; x_steep : bool; x_slp : Z; x_asp : Z }.
Definition set_off (e : expo) : expo := mkExpo true (x_steep e) (x_slp e) (x_asp e).
Definition copy (e s : expo) : expo := mkExpo (x_off e) (x_steep e) (x_slp s) (x_asp s).
(** The conversion to 16 bits without sign: undefined out of range, shown not to happen. *)
Definition ushort_of (x : R) : outcome Z := let v := Ztrunc x in if ((0 <=? v) && (v <=? 65535))%Z then Ret v else UB.
(** 303-306 *)
Definition devx (d : grid R) (res : R) : R := (((d 0%nat 2%nat + 2 * d 1%nat 2%nat + d 2%nat 2%nat) - (d 0%nat 0%nat + 2 * d 1%nat 0%nat + d 2%nat 0%nat)) / (8 * res))%R.
Definition devy (d : grid R) (res : R) : R := (((d 2%nat 0%nat + 2 * d 2%nat 1%nat + d 2%nat 2%nat) - (d 0%nat 0%nat + 2 * d 0%nat 1%nat + d 0%nat 2%nat)) / (8 * res))%R.
(** 308-322, degree *)
Definition slope_of (dx dy : R) : R := (atan (sqrt (dx * dx + dy * dy)) / degree)%R.
Definition aspect_of (dx dy : R) : R :=
  let a := (atan2 dy (-1 * dx) / degree)%R in
  if Rlt_bool a 0 then (90 - a)%R else if Rlt_bool 90 a then (360 - a + 90)%R else (90 - a)%R.
(** 283-331: one pixel; [w] the elevations around it. *)
Definition window9 (g : grid (option R)) (i j : nat) : grid (option R) := fun a b => g (i + a - 1) (j + b - 1).
Definition complete (w : grid (option R)) : bool :=
  forallb (fun a => forallb (fun b => match w a b with Some _ => true | None => false end) [0; 1; 2]) [0; 1; 2].
Definition valid (w : grid (option R)) : grid R := fun a b => match w a b with Some v => v | None => 0%R end.
Definition inner (w : grid (option R)) (res : R) (e : expo) : outcome expo :=
  if x_off e then Ret e
  else if complete w then
    let dx := devx (valid w) res in let dy := devy (valid w) res in
    let slope := slope_of dx dy in
    let aspect := if Rlt_bool 0 slope then aspect_of dx dy else 0%R in
    s <- ushort_of (slope * degree * 10000) ;;
    a <- ushort_of (aspect * degree * 10000) ;;
    Ret (mkExpo false (x_steep e || Rlt_bool 2 slope) s a)
  else Ret (set_off e).
(** A border pixel takes over from its neighbour [s], 343-410. *)
Definition take (e s : expo) : expo := if x_off e then e else if x_off s then set_off e else copy e s.
(** 343-353, 362-372, 381-391, 400-410 *)
Definition left_col (x : grid expo) : grid expo := fun i j => if Nat.eqb j 0 then take (x i 0) (x i 1) else x i j.
Definition right_col (nx : nat) (x : grid expo) : grid expo := fun i j => if Nat.eqb j (nx - 1) then take (x i (nx - 1)) (x i (nx - 2)) else x i j.
Definition top_row (x : grid expo) : grid expo := fun i j => if Nat.eqb i 0 then take (x 0 j) (x 1 j) else x i j.
Definition bottom_row (ny : nat) (x : grid expo) : grid expo := fun i j => if Nat.eqb i (ny - 1) then take (x (ny - 1) j) (x (ny - 2) j) else x i j.
Definition borders (ny nx : nat) (x : grid expo) : grid expo := bottom_row ny (top_row (right_col nx (left_col x))).
(** The interior pixels, from images that start with slope and aspect 0: [q] holds the flags. *)
Definition interior (ny nx i j : nat) : bool := (Nat.leb 1 i && Nat.ltb i (ny - 1)) && (Nat.leb 1 j && Nat.ltb j (nx - 1)).
(** [inside]: a result of the loop over the interior, 276-336. *)
Definition inside (ny nx : nat) (g : grid (option R)) (res : R) (q x : grid expo) : Prop :=
  forall i j, if interior ny nx i j then inner (window9 g i j) res (q i j) = Ret (x i j) else x i j = q i j.

(** ** illumination_topography, 542-571: one pixel that is not off; [zen], [azi]: sun. *)
Definition short_of' (x : R) : outcome Z := let v := Ztrunc x in if ((-32768 <=? v) && (v <=? 32767))%Z then Ret v else UB.
Definition illuminate (zen azi : R) (slp asp : Z) : outcome (Z * Z * Z) :=
  let s := (IZR slp / 10000)%R in let a := (IZR asp / 10000)%R in
  ill <- short_of' ((if Req_bool s 0 then cos zen else illumin (cos zen) (sin zen) (cos s) (sin s) azi a) * 10000) ;;
  let cls := if (ill <? 0)%Z then 3%Z else if Rlt_bool (IZR ill) 1736.482 then 2%Z else if Rlt_bool (IZR ill) 5735.764 then 1%Z else 0%Z in
  sky <- ushort_of (10000 - (s / PI) * 10000) ;;
  Ret (ill, cls, sky).

(** ** stats_topography, 431-503; [l] the elevations (float, m) of the pixels that are not off. *)
Definition km (x : R) : R := rnd32 (rnd64 (x / 1000)).
Definition lowest (l : list R) : R := fold_left (fun m x => if Rlt_bool x m then x else m) (map km l) 32767%R.
Definition highest (l : list R) : R := fold_left (fun m x => if Rlt_bool m x then x else m) (map km l) (-32768)%R.
Definition dem_max (l : list R) : R := rnd32 (rnd64 (highest l + rnd64 (1 / 1000))).
Definition dem_step (l : list R) : R := rnd32 (rnd32 (dem_max l - lowest l) / 255).
Definition elevation_class (l : list R) (x : R) : Z := Zfloor (rnd32 (rnd32 (km x - lowest l) / dem_step l)).
(** 486-489 *)
Definition dem_ok (l : list R) : bool := negb (Rlt_bool (lowest l) (-0.5) || Rlt_bool 9 (dem_max l)).

(** ** cfactor_topography, 737-997 *)
(** 803-814: offsets of the sample; [n0] = 3000/res cut, [lim] = 100/res.  The memory (801) has 6000/res+1 places. *)
Fixpoint offsets (fuel : nat) (k : Z) (lim : R) : option (list Z) :=
  match fuel with
  | O => None
  | S fuel => if Rlt_bool lim (IZR k) then match offsets fuel (Ztrunc (IZR k / sqrt 2)) lim with Some l => Some (k :: l) | None => None end
              else Some [k]
  end.
Definition sample_kernel (res : R) : option (list Z) :=
  match offsets (S (Z.to_nat (Ztrunc (3000 / res)))) (Ztrunc (3000 / res)) (100 / res) with
  | None => None
  | Some l =>
      let l := if (last l 0 =? 0)%Z then l else l ++ [0%Z] in
      Some (l ++ map Z.opp (rev (removelast l)))
  end.
(** 870-935: the factor of an illuminated pixel.  [est]: offset and gain of the regression, if the
    pixel has slope and more than two samples; [my], [mx] means of reflectance and illumination;
    [c] the theoretical factor, [rho] the path reflectance. *)
Definition raw_factor (c rho : R) (est : option (R * R * R * R)) : R :=
  let cor := match est with
    | None => 0%R
    | Some (offset, gain, mx, my) =>
        let og := if Rlt_bool offset rho then (rho, (my - rho) / mx)%R else (offset, gain) in
        if Rlt_bool (fst og) (10 * snd og) then c_factor_emp (fst og) (snd og) else 10%R
    end in
  let cor := if Rlt_bool cor 0 || Rlt_bool cor c then c else cor in
  if Rlt_bool (65535 / 10000) cor then (65535 / 10000)%R else cor.
(** 948-982: mean of the illuminated pixels of 3 x 3; None: off or not illuminated. *)
Definition stored_factor (ny nx : nat) (cor : grid (option R)) (i j : nat) : outcome (option Z) :=
  match cor i j with
  | None => Ret None
  | Some c =>
      let l := values cor (window ny nx 1 i j) in
      let cf := (match l with [] => c * 10000 | _ => rsum l / INR (length l) * 10000 end)%R in
      let cf := if Rlt_bool 65535 cf then 65535%R else cf in
      v <- ushort_of cf ;; Ret (match l with [] => None | _ => Some v end)
  end.
