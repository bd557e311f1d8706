(** Matching of cloud shadows.
    Source: /repo/src/modules/lower-level/cloud-ll.c: shadow_position (1364-1385), shadow_matching (1408-1712).
    Simplified: real numbers, except for the base height, which is a float (rnd32) because the loop over it depends on
    rounding; the temperature of the cloud base (a quantile) and the objects (binary_to_objects) are inputs; shadows are
    the list of pixels set to true (most recent first); the parallel loop over objects only ever sets pixels to true and
    is run in order. *)
From Coq Require Import Reals.
From Flocq Require Import Core.
From Verif Require Import Base RoundModel.
#[local] Open Scope R_scope.

(** Entries tZEN, sAZI, cAZI of a coarse cell. *)
Record ang := { tz : R; sa : R; ca : R }.
(** (int)round(x): half away from zero; undefined outside of int. *)
Definition int_of (x : R) : outcome Z := let z := Znearest (Zle_bool 0) x in if ((-2147483648 <=? z) && (z <=? 2147483647))%Z then Ret z else UB.
(** shadow_position: 1364-1385 *)
Definition shadow_position (h : R) (x y : Z) (res : R) (sun view : ang) : outcome (Z * Z) :=
  let across := h * tz view / res in let cast := h * tz sun / res in
  nx <- int_of (IZR x + across * sa view - cast * sa sun) ;;
  ny <- int_of (IZR y - across * ca view + cast * ca sun) ;;
  Ret (nx, ny).

(** Image: size, resolution, angles of the coarse cell of a pixel (row, column), shadow probability, clouds, flat water, objects (CCL), threshold shdprob*10000. *)
Record scene := { nx : Z; ny : Z; res : R; sun : Z -> Z -> ang; view : Z -> Z -> ang; spr : Z -> Z; cld : Z -> bool; flatwater : Z -> bool; ccl : Z -> Z; thr : R }.
(** 1502-1507: pixels of objects that are used (row i, column j). *)
Definition sampled (r : R) (i j : Z) : bool :=
  let skip := Zfloor (30 / r) in negb (Rlt_bool r 30 && (negb (i mod skip =? 0)%Z || negb (j mod skip =? 0)%Z)).
(** 1619-1625: projection of one pixel (x, y) in height h; -1 outside of the image. *)
Definition project1 (sc : scene) (h : R) (x y : Z) : outcome Z :=
  q <- shadow_position h x y (res sc) (sun sc y x) (view sc y x) ;;
  let x := fst q in let y := snd q in
  Ret (if ((y <? 0) || (ny sc <=? y) || (x <? 0) || (nx sc <=? x))%Z then (-1)%Z else (nx sc * y + x)%Z).
Fixpoint project (sc : scene) (l : list (R * (Z * Z))) : outcome (list Z) :=
  match l with [] => Ret [] | (h, (x, y)) :: r => p <- project1 sc h x y ;; t <- project sc r ;; Ret (p :: t) end.
(** 1633-1640: the match; pixels outside of the image do not count. *)
Definition hits (sc : scene) (p : Z) : bool := Rlt_bool (thr sc) (IZR (spr sc p)) && negb (cld sc p) && negb (flatwater sc p).
Fixpoint shadow_sum (sc : scene) (P : list Z) : R :=
  match P with [] => 0 | p :: r => if (p =? -1)%Z then shadow_sum sc r else (if hits sc p then IZR (spr sc p) / 750 else 0) + shadow_sum sc r end.
Fixpoint total_count (sc : scene) (id : Z) (P : list Z) : Z :=
  match P with [] => 0%Z | p :: r => if (p =? -1)%Z then total_count sc id r else ((if (ccl sc p =? id + 1)%Z then 0 else 1) + total_count sc id r)%Z end.
Definition match_of (sc : scene) (id : Z) (P : list Z) : R := let t := total_count sc id P in if (0 <? t)%Z then shadow_sum sc P / IZR t else 0.
Definition keep (P : list Z) : list Z := filter (fun p => negb (p =? -1)%Z) P.

(** Cloud object: identifier (from 0), pixels (x, y, temperature), and temperature of the base if there is a temperature band. *)
Record cloud := { id : Z; pix : list (Z * Z * Z); basetemp : option R }.
(** 1579-1583, 1610-1614: height of a pixel above the base *)
Definition above (bt : option R) (t : Z) : R := match bt with None => 0 | Some b => let t := if Rlt_bool b (IZR t) then Ztrunc b else t in (b - IZR t) / (65 / 100) end.
Definition lifted (c : cloud) (base : R) : list (R * (Z * Z)) := map (fun q => (above (basetemp c) (snd q) + base, fst q)) (pix c).
(** 1586-1594: range of base heights *)
Definition base_min (low : R) (bt : option R) : R := match bt with None => 200 | Some b => let m := rnd32 ((low - 400 - b) / (98 / 100)) in if Rlt_bool m 200 then 200 else m end.
Definition base_max (high : R) (bt : option R) : R := match bt with None => 12000 | Some b => let m := rnd32 ((high + 400 - b) / (10 / 100)) in if Rlt_bool 12000 m then 12000 else m end.

(** 1600-1663: loop over the base height; [None]: not finished after [fuel] rounds. *)
Fixpoint lift (fuel : nat) (sc : scene) (c : cloud) (base bmax step best : R) (bestP drawn : list Z) : outcome (option (R * list Z * list Z)) :=
  match fuel with
  | O => Ret None
  | S f =>
      if Rle_bool base bmax then
        P <- project sc (lifted c base) ;;
        let m := match_of sc (id c) P in
        let drawn := if Rle_bool (85 / 100) m then keep P ++ drawn else drawn in
        if Rlt_bool best m then lift f sc c (rnd32 (base + step)) bmax step m P drawn else lift f sc c (rnd32 (base + step)) bmax step best bestP drawn
      else Ret (Some (best, bestP, drawn))
  end.
(** 1557-1680: one object *)
Definition match_object (fuel : nat) (sc : scene) (step low high : R) (c : cloud) (drawn : list Z) : outcome (option (list Z)) :=
  let bmin := base_min low (basetemp c) in let bmax := base_max high (basetemp c) in
  if Rlt_bool bmax bmin then Ret (Some drawn) else
  r <- lift fuel sc c bmin bmax step 0 [] drawn ;;
  match r with
  | None => Ret None
  | Some (best, bestP, drawn) => Ret (Some (if Rlt_bool best (85 / 100) && Rlt_bool 0 best then keep bestP ++ drawn else drawn))
  end.
Fixpoint match_objects (fuel : nat) (sc : scene) (step low high : R) (l : list cloud) (drawn : list Z) : outcome (option (list Z)) :=
  match l with
  | [] => Ret (Some drawn)
  | c :: r => d <- match_object fuel sc step low high c drawn ;; match d with None => Ret None | Some d => match_objects fuel sc step low high r d end
  end.
(** shadow_matching: 1530 (step from the tangent of the sun zenith in the middle of the image), 1556-1680 *)
Definition shadow_matching (fuel : nat) (sc : scene) (tzmid low high : R) (l : list cloud) : outcome (option (list Z)) :=
  match_objects fuel sc (rnd32 (50 / tzmid)) low high l [].
