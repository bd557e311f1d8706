(** Spectral adjustment of Landsat and MODIS images to Sentinel-2: spectral_predict and
    spectral_adjust, src/modules/higher-level/spec-adjust-hl.c:776-1040.  The cluster
    centres are those of AdjTable.v or any others, the regression coefficients are a
    parameter.  The spectral angle is computed with rounded doubles (libm functions are
    rounded correctly); the prediction itself is computed with real numbers. *)
From Coq Require Import Reals.
From Flocq Require Import Core.
From Verif Require Import Base Loops CStr RoundModel L1Model.
#[local] Open Scope Z_scope.

(** 39-53: numbers of clusters and thresholds (radian). *)
Definition GLOBAL : nat := 50.
Definition N_SIM : nat := 10.
Definition GOOD : R := rnd64 (698132 / 10000000).
Definition MEDI : R := rnd64 (2094395 / 10000000).
Definition POOR : R := rnd64 (2617995 / 10000000).
Definition weight_at (sam : R) : R := rnd64 (1 - rnd64 (sam / POOR)).
Definition MIN_WEIGHT : R := weight_at GOOD.
Definition MED_WEIGHT : R := weight_at MEDI.

(** 825-831: sums of products of 16 bit numbers, exact in double. *)
Fixpoint sum_prod (x y : list Z) : Z := match x, y with a :: x, b :: y => a * b + sum_prod x y | _, _ => 0 end.
(** 833-837; None: acos of something outside of -1..1 is NaN. *)
Definition angle (x y : list Z) : option R :=
  let xy := sum_prod x y in let xx := sum_prod x x in let yy := sum_prod y y in
  if (0 <? xx) && (0 <? yy) then
    let q := rnd64 (IZR xy / rnd64 (sqrt (rnd64 (IZR xx * IZR yy)))) in
    if Rle_bool (-1) q && Rle_bool q 1 then Some (rnd64 (acos q)) else None
  else Some 1%R.
(** 839-845 *)
Definition weight (sam : R) : R := if Rlt_bool POOR sam then rnd64 (1 / 100000) else weight_at sam.
(** Centre of cluster [s]: a column of the table. *)
Definition center (table : list (list Z)) (s : nat) : list Z := map (fun r => nth s r 0) table.
(** 822-873: weights of all clusters (NaN as UB, which is shown not to happen). *)
Definition weights (table : list (list Z)) (x : list Z) : outcome (list R) :=
  omap (fun s => match angle x (center table s) with Some a => Ret (weight a) | None => UB end) (seq 0 (S GLOBAL)).

(** 860-867 and 902-909: largest weight and its cluster, in the order of the clusters. *)
Fixpoint best (w : list R) (ok : nat -> bool) (s : nat) (mw : R) (mc : nat) : R * nat :=
  match w with
  | [] => (mw, mc)
  | x :: w => if Rlt_bool mw x && ok s then best w ok (S s) x s else best w ok (S s) mw mc
  end.
(** 818-819, 862: s != _SPECHOMO_N_SIM_-1 *)
Definition first_best (w : list R) : R * nat := best w (fun s => negb (Nat.eqb s (N_SIM - 1))) 0 (-1) 0.
(** 904: s < _SPECHOMO_N_CLS_-1 *)
Definition next_best (w : list R) (mc : nat) : R * nat := best w (fun s => Nat.ltb s GLOBAL) 0 (-1) mc.
(** 880-915: the clusters used and their weights. *)
Fixpoint choose (n : nat) (w : list R) (m : R * nat) : list (nat * R) :=
  match n with
  | O => []
  | S n =>
    let g := nth GLOBAL w 0%R in
    if Rlt_bool MIN_WEIGHT (fst m) || (Rlt_bool MED_WEIGHT (fst m) && Rlt_bool g (fst m)) then
      let w' := list_set w (snd m) 0%R in
      (snd m, fst m) :: choose n w' (next_best w' (snd m))
    else [(GLOBAL, g)]
  end.
Definition used (w : list R) : list (nat * R) := choose N_SIM w (first_best w).

(** 929-946: [coef b k s]; the last coefficient is the offset. *)
Fixpoint terms (c : nat -> R) (x : list Z) (k : nat) : R :=
  match x with [] => c k | v :: x => (c k * IZR v + terms c x (S k))%R end.
Definition predict (coef : nat -> nat -> nat -> R) (x : list Z) (b s : nat) : R := terms (fun k => coef b k s) x 0.
Fixpoint wsum (u : list (nat * R)) (f : nat -> R) : R := match u with [] => 0%R | (s, w) :: u => (w * f s + wsum u f)%R end.
Definition blended (coef : nat -> nat -> nat -> R) (x : list Z) (u : list (nat * R)) (b : nat) : outcome Z :=
  if Req_bool (wsum u (fun _ => 1%R)) 0 then UB else short_of (wsum u (predict coef x b) / wsum u (fun _ => 1%R))%R.

(** 810-962, one pixel with its bands.  [src], [dst]: positions of the bands. *)
Fixpoint write_bands (bands : list Z) (dst : list Z) (vals : list Z) : outcome (list Z) :=
  match dst, vals with
  | d :: dst, v :: vals => bands' <- of_option (set_at bands d v) ;; write_bands bands' dst vals
  | _, _ => Ret bands
  end.
Definition adjust_pixel (table : list (list Z)) (coef : nat -> nat -> nat -> R) (src dst : list Z) (valid : bool) (bands : list Z) : outcome (list Z) :=
  if negb valid then Ret bands
  else
    x <- omap (fun b => of_option (get_at bands b)) src ;;
    w <- weights table x ;;
    vals <- omap (blended coef x (used w)) (seq 0 (length dst)) ;;
    write_bands bands dst vals.

(** 55-60: sensors and domains. *)
Definition SENSORS : list (list Z) := [` "LND04"; ` "LND05"; ` "LND07"; ` "LND08"; ` "LND09"; ` "MOD01"; ` "MOD02"].
Definition SRC : list (list Z) := [` "BLUE"; ` "GREEN"; ` "RED"; ` "NIR"; ` "SWIR1"; ` "SWIR2"].
Definition DST : list (list Z) :=
  [` "BLUE"; ` "GREEN"; ` "RED"; ` "REDEDGE1"; ` "REDEDGE2"; ` "REDEDGE3"; ` "BROADNIR"; ` "NIR"; ` "SWIR1"; ` "SWIR2"].
Definition same (a b : list Z) : bool := if list_eq_dec Z.eq_dec a b then true else false.
(** find_domain, brick_base-cl.c:807-817: first band with the domain. *)
Fixpoint find_domain (domains : list (list Z)) (d : list Z) (b : Z) : option Z :=
  match domains with [] => None | x :: r => if same x d then Some b else find_domain r d (b + 1) end.
Fixpoint find_all (domains : list (list Z)) (ds : list (list Z)) : option (list Z) :=
  match ds with
  | [] => Some []
  | d :: ds => match find_domain domains d 0, find_all domains ds with Some b, Some r => Some (b :: r) | _, _ => None end
  end.
(** An image: sensor, domains of the bands, for each pixel whether it is valid (both masks) and its bands. *)
Record himage := mkHimage { hi_sensor : list Z; hi_domains : list (list Z); hi_pixels : list (bool * list Z) }.
(** 998-1036: one image; [tables] and [coefs] by sensor. *)
Definition adjust_image (tables : list (list (list Z))) (coefs : list (nat -> nat -> nat -> R)) (im : himage) : outcome himage :=
  match find_domain SENSORS (hi_sensor im) 0 with
  | None =>
      if negb (zlen (hi_domains im) =? zlen DST) then Exit
      else match find_all (hi_domains im) DST with None => Exit | Some _ => Ret im end
  | Some sid =>
      match find_all (hi_domains im) SRC, find_all (hi_domains im) DST with
      | Some src, Some dst =>
          table <- of_option (get_at tables sid) ;;
          coef <- of_option (get_at coefs sid) ;;
          ps <- omap (fun p => b <- adjust_pixel table coef src dst (fst p) (snd p) ;; Ret (fst p, b)) (hi_pixels im) ;;
          Ret (mkHimage (hi_sensor im) (hi_domains im) ps)
      | _, _ => Exit
      end
  end.
