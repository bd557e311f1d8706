(** Sharpening of the 20 m bands of Sentinel-2: regression, ImproPhe and STARFM.
    Source: /repo/src/modules/lower-level/resmerge-ll.c (resolution_merge_1 91-231, resolution_merge_2 255-325, resolution_merge_3 339-505, rescale_weight_resmerge 517-530, improphe_resmerge 553-698, starfm 716-945).
    Simplified: real numbers instead of float and double (except [lone_pixel]); images are functions of the pixel number, which is
    checked to be in range by the code before any access; the fit of the regression (GSL) is a relation. *)
From Coq Require Import Reals.
From Flocq Require Import Core.
From Verif Require Import Base Loops RoundModel ImpModel.
From Verif Require Import LsmModel.
#[local] Open Scope R_scope.

(** Size; nodata, and pixels that are neither nodata nor cloud nor shadow; green, red, broad NIR; the six bands to be sharpened. *)
Record scene2 := mkS2 { z_nx : Z; z_ny : Z; z_off : Z -> bool; z_use : Z -> bool; z_fine : list (Z -> Z); z_coarse : list (Z -> Z) }.
Definition outside (sc : scene2) (ni nj : Z) : bool := ((ni <? 0) || (nj <? 0) || (ni >=? z_ny sc) || (nj >=? z_nx sc))%Z.

(** ** ImproPhe *)
(** 626-628 *)
Definition spectral2 (fine : list (Z -> Z)) (p q : Z) : R := fold_left (fun s b => s + Rabs (IZR (b p - b q) / 10000)) fine 0 / IZR (zlen fine).
(** 573: Sthr *)
Definition thresholds2 : list R := [0.0025; 0.005; 0.01; 0.02; 0.025].
(** 611-651: one position of the kernel; no texture *)
Definition neighbour2 (sc : scene2) (h i j : Z) (d : Z * Z) : option neighbour :=
  let ni := (i + fst d)%Z in let nj := (j + snd d)%Z in
  if outside sc ni nj then None
  else
    let np := (z_nx sc * ni + nj)%Z in
    if Rlt_bool (IZR h) (kdist (fst d) (snd d)) then None
    else if negb (z_use sc np) then None
    else
      let S := spectral2 (z_fine sc) (i * z_nx sc + j)%Z np in
      match class_of S 0 thresholds2 with
      | None => None
      | Some c => Some (mkNb c S 0 [] (map (fun b => b np) (z_coarse sc)))
      end.
Definition gather2 (sc : scene2) (h i j : Z) : list neighbour := flat_map (fun d => match neighbour2 sc h i j d with None => [] | Some n => [n] end) (kernel h).
(** 669-680: weighted sums; [rescale_weight_resmerge] (517-530) is [rescale_weight] *)
Definition weight2 (c : Z) (l : list neighbour) (n : neighbour) : R := 1 / rescale_weight (n_S n) (fst (range c n_S l)) (snd (range c n_S l)).
Definition band_sums2 (c b : Z) (l : list neighbour) : outcome (R * R) :=
  ofold (fun acc n =>
    if (c <? n_class n)%Z then Ret acc
    else
      m <- of_option (get_at (n_M n) b) ;;
      Ret (fst acc + weight2 c l n * (IZR m / 10000), snd acc + weight2 c l n)) l (0, 0).
(** 682 *)
Definition predict2 (c : Z) (l : list neighbour) (b : Z) : outcome Z :=
  s <- band_sums2 c b l ;;
  if Req_bool (snd s) 0 then UB else real_short (fst s / snd s * 10000).
(** 587-683; None if the pixel is skipped *)
Definition improphe2 (sc : scene2) (h mink i j : Z) : outcome (option (list Z)) :=
  let p := (i * z_nx sc + j)%Z in
  if negb (z_use sc p) then Ret None
  else match gather2 sc h i j with
    | [] => Ret (Some (map (fun b => b p) (z_coarse sc)))
    | l => v <- omap (predict2 (cutoff mink l) l) (zupto (zlen (z_coarse sc))) ;; Ret (Some v)
    end.
(** resolution_merge_2: 255-325: bands to be sharpened at a pixel; the prediction is complete before the bands change *)
Definition merge2 (sc : scene2) (p : Z) : outcome (list Z) :=
  r <- improphe2 sc 2 3 (p / z_nx sc) (p mod z_nx sc) ;;
  Ret (if z_use sc p then (match r with Some v => v | None => map (fun _ => 0%Z) (z_coarse sc) end) else map (fun b => b p) (z_coarse sc)).
(** 647, 675-682 in double for a pixel that is its only neighbour *)
Definition lone_pixel (t : Z) : Z := Ztrunc (rnd64 (rnd64 (rnd64 (0 + rnd64 (1 * rnd64 (IZR t / 10000))) / 1) * 10000)).

(** ** STARFM *)
(** 760-785: width of a class of similar values, from the standard deviation *)
Definition slice_of (sd : R) : R := sd * 2.0 / 40.
Definition unc1 : R := 0.002.
Definition unc_r : R := sqrt (unc1 * unc1 + unc1 * unc1).
Definition unc_all : R := sqrt (unc_r * unc_r + unc_r * unc_r).
(** A candidate: distance in columns and rows, fine value, differences *)
Record candidate := mkCand { c_dx : Z; c_dy : Z; c_fine : R; c_rc : R; c_rf : R }.
(** 811-831: smallest differences at the central pixel; start SHRT_MAX *)
Definition least (l : list R) : R := fold_left (fun m x => if Rlt_bool (Rabs x) m then Rabs x else m) l 32767.
Section Starfm.
(** Two pairs (fine, coarse) and the coarse band to be sharpened. *)
Context (sc : scene2) (fine coarse : Z -> Z -> R) (target : Z -> R) (slice : Z -> R) (r : Z).
Definition pairs : list Z := [0; 1]%Z.
Definition min_rc (p : Z) : R := least (map (fun k => coarse k p - target p) pairs).
Definition min_rf (p : Z) : R := least (map (fun k => coarse k p - fine k p) pairs).
(** 837-867 *)
Definition candidates_at (i j : Z) (d : Z * Z) : list candidate :=
  let p := (i * z_nx sc + j)%Z in let ni := (i + fst d)%Z in let nj := (j + snd d)%Z in
  if outside sc ni nj then []
  else
    let np := (ni * z_nx sc + nj)%Z in
    if z_off sc np then []
    else flat_map (fun k =>
      if Rlt_bool (slice k) (Rabs (fine k np - fine k p)) then []
      else
        let rc := coarse k np - target np in let rf := coarse k np - fine k np in
        if Rlt_bool (Rabs rc) (min_rc p + unc_r) || Rlt_bool (Rabs rf) (min_rf p + unc_r) then [mkCand (snd d) (fst d) (fine k np) rc rf] else []) pairs.
Definition candidates (i j : Z) : list candidate := flat_map (candidates_at i j) (kernel r).
(** 880-905: inverted weight *)
Definition c_weight (c : candidate) : R :=
  let T := Rabs (c_rc c) + 0.0001 in let S := Rabs (c_rf c) + 0.0001 in
  if Rlt_bool (T * S) unc_all then 1 else 1 / (T * S * (1 + sqrt (IZR (c_dx c * c_dx c + c_dy c * c_dy c)) / IZR r)).
(** 877-930: prediction; nodata pixels stay 0 *)
Definition starfm_at (i j : Z) : R :=
  let p := (i * z_nx sc + j)%Z in
  if z_off sc p then 0
  else match candidates i j with
    | [] => target p
    | l => let C := fold_left (fun s c => s + c_weight c) l 0 in fold_left (fun s c => s + c_weight c / C * (c_fine c - c_rc c)) l 0
    end.
End Starfm.
(** 427-468: averages over blocks of 2 x 2; the pixel that is asked for nodata is the number of the block, 427-430 *)
Definition block_pixels (sc : scene2) (i j : Z) : list Z :=
  filter (fun q => negb (z_off sc q)) (flat_map (fun d => let ni := (i + fst d)%Z in let nj := (j + snd d)%Z in if ((ni >=? z_ny sc) || (nj >=? z_nx sc))%Z then [] else [(ni * z_nx sc + nj)%Z]) [(0, 0); (0, 1); (1, 0); (1, 1)]%Z).
Definition block_step (sc : scene2) (img : Z -> R) (ij : Z * Z * Z) : Z -> R :=
  let '(i, j, p) := ij in
  if z_off sc p then img
  else match block_pixels sc i j with
    | [] => img
    | l => let m := fold_left (fun s q => s + img q) l 0 / IZR (zlen l) in fun q => if existsb (Z.eqb q) l then m else img q
    end.
(** the blocks with their number *)
Definition blocks (sc : scene2) : list (Z * Z * Z) :=
  let w := ((z_nx sc + 1) / 2)%Z in flat_map (fun a => map (fun b => (2 * a, 2 * b, a * w + b)%Z) (zupto w)) (zupto ((z_ny sc + 1) / 2)).
Definition block_average (sc : scene2) (img : Z -> R) : Z -> R := fold_left (block_step sc) (blocks sc) img.

(** ** Regression *)
(** 169-204: observations of a pixel: predictors (1, green, red, broad NIR) and response; filled with zeros to 25 *)
Definition window_rows (sc : scene2) (i j : Z) (band : Z -> Z) : list (list R * R) :=
  flat_map (fun d => let ni := (i + fst d)%Z in let nj := (j + snd d)%Z in
    if outside sc ni nj then [] else let np := (ni * z_nx sc + nj)%Z in
    if z_off sc np then [] else [(1 :: map (fun b => IZR (b np) / 10000) (z_fine sc), IZR (band np) / 10000)]) (kernel 2).
Definition filled (sc : scene2) (l : list (list R * R)) : list (list R * R) := l ++ repeat (1 :: map (fun _ => 0) (z_fine sc), 0) (25 - length l).
Definition dot (a b : list R) : R := fold_left (fun s xy => s + fst xy * snd xy) (combine a b) 0.
Definition cost (rows : list (list R * R)) (c : list R) : R := fold_left (fun s r => s + (dot (fst r) c - snd r) * (dot (fst r) c - snd r)) rows 0.
(** what gsl_multifit_linear gives: coefficients of least squares *)
Definition least_squares (n : nat) (rows : list (list R * R)) (c : list R) : Prop := length c = n /\ forall c', length c' = n -> cost rows c <= cost rows c'.
(** 206-213: a band after the pixel (i, j) has been done, in place *)
Definition regress_step (sc : scene2) (i j : Z) (band band' : Z -> Z) : Prop :=
  let p := (i * z_nx sc + j)%Z in
  if negb (z_use sc p) then forall q, band' q = band q
  else exists c, least_squares (S (length (z_fine sc))) (filled sc (window_rows sc i j band)) c /\
    band' p = Ztrunc (dot (1 :: map (fun b => IZR (b p) / 10000) (z_fine sc)) c * 10000) /\ forall q, q <> p -> band' q = band q.
(** the pixels in the order in which the threads come to them *)
Fixpoint regress (sc : scene2) (order : list (Z * Z)) (band band' : Z -> Z) : Prop :=
  match order with
  | [] => forall q, band' q = band q
  | (i, j) :: o => exists b1, regress_step sc i j band b1 /\ regress sc o b1 band'
  end.
