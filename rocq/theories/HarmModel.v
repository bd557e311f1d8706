(** Interpolation with harmonic models and the near real time residuals:
    interpolate_harmonic, interpolate-hl.c:470-706, for one pixel.  The robust
    regression of GSL is a parameter [fit] that gives the coefficients for the
    design matrix (the rows with their observations); doubles are real numbers. *)
From Verif Require Import Base Loops L1Model.
From Coq Require Import Reals.
#[local] Open Scope Z_scope.

(** harm_nmodes, harm_trend, harm_fit_range, onrt: par_tsi_t. *)
Record hpar := mkHpar { h_modes : Z; h_trend : bool; h_lo : Z; h_hi : Z; h_nrt : bool }.

(** 480-512: number of coefficients. *)
Definition n_coef (p : hpar) : Z :=
  1 + (if h_trend p then 1 else 0) + (if h_modes p >=? 1 then 2 else 0) + (if h_modes p >=? 2 then 2 else 0) + (if h_modes p >=? 3 then 2 else 0).

(** 566-588 and 598-620, 636-658: the terms for a day. *)
Definition wave (k : Z) (ce : Z) : list R := [cos (IZR k * PI / 365 * IZR ce); sin (IZR k * PI / 365 * IZR ce)]%R.
Definition row (p : hpar) (ce : Z) : list R :=
  [1%R] ++ (if h_trend p then [IZR ce] else []) ++ (if h_modes p >=? 1 then wave 2 ce else []) ++
  (if h_modes p >=? 2 then wave 4 ce else []) ++ (if h_modes p >=? 3 then wave 6 ce else []).
(** gsl_matrix_set, gsl_vector_set: the rows have [n_coef] columns. *)
Definition checked_row (p : hpar) (ce : Z) : outcome (list R) := if zlen (row p ce) <=? n_coef p then Ret (row p ce) else UB.

(** gsl_multifit_robust_est: the product of the terms and the coefficients. *)
Fixpoint dot (a b : list R) : R := match a, b with x :: a, y :: b => (x * y + dot a b)%R | _, _ => 0%R end.

(** 535-546, 557-563: the observations used, (day, value) pairs. *)
Definition in_fit (p : hpar) (nodata : Z) (o : Z * Z) : bool :=
  negb ((snd o =? nodata) || (fst o <? h_lo p) || (fst o >? h_hi p)).

(** 624-668: residuals of the images after the period of the fit; [k] counts them, [nrt] are the bands. *)
Fixpoint residuals (p : hpar) (nodata : Z) (c : list R) (obs : list (Z * Z)) (k : Z) (nrt : list Z) : outcome (list Z) :=
  match obs with
  | [] => Ret nrt
  | (d, v) :: obs =>
      if d <=? h_hi p then residuals p nodata c obs k nrt
      else
        x <- (if v =? nodata then Ret nodata else r <- checked_row p d ;; short_of (IZR v - dot r c)%R) ;;
        nrt <- of_option (set_at nrt k x) ;;
        residuals p nodata c obs (k + 1) nrt
  end.

(** The pixel: 528-700.  [nrt]: what the bands of the near real time product held
    before, i.e. 0 (allocate_brick: calloc) when this function is called.
    [None]: FAILURE (507-512). *)
Definition harmonic (fit : list (list R * Z) -> list R) (p : hpar) (nodata : Z) (masked : bool) (obs : list (Z * Z)) (steps : list Z) (nrt : list Z)
  : outcome (option (list Z * list Z)) :=
  if n_coef p <? 3 then Ret None
  else if masked then Ret (Some (map (fun _ => nodata) steps, nrt))
  else
    let used := filter (in_fit p nodata) obs in
    if zlen used <? n_coef p then Ret (Some (map (fun _ => nodata) steps, nrt))
    else
      xs <- omap (fun o => r <- checked_row p (fst o) ;; Ret (r, snd o)) used ;;
      let c := fit xs in
      tsi <- omap (fun d => r <- checked_row p d ;; short_of (dot r c)) steps ;;
      nrt <- (if h_nrt p then residuals p nodata c obs 0 nrt else Ret nrt) ;;
      Ret (Some (tsi, nrt)).
