(** Model of src/modules/higher-level/interpolate-hl.c: rbf_kernel and
    interpolate_rbf for one pixel.  Simplified: float and double are the real
    numbers, so rounding of weights, sums and quotients is not modelled.  A
    division by zero gives infinity or NaN, whose conversion to short is
    undefined; the model stops at the division. *)
From Coq Require Import Reals.
From Flocq Require Import Core.
From Verif Require Import Base Loops.
#[local] Open Scope Z_scope.

(** 391-392: weight of an observation [d] days away. *)
Definition weight (sigma d : Z) : R :=
  (1 / (sqrt (2 * PI) * IZR sigma) * exp (- (1 / 2) * IZR d * IZR d / (IZR sigma * IZR sigma)))%R.

(** rbf_t restricted to kernel k. *)
Record kern := mkKern { kernel : list R; max_ce : Z; max_w : R }.

(** nbin and hbin: 373, 381; [last] is rbf_sigma[nk-1]. *)
Definition nbin_of (last : Z) : Z := let n := 8 * last in if n mod 2 =? 0 then n + 1 else n.
Definition hbin_of (last : Z) : Z := (nbin_of last - 1) / 2.

(** The loop body 387-405: (kernel so far, sum, max_ce, max_w). *)
Definition kern_step (sigma : Z) (cutoff : R) (hbin : Z) (a : list R * R * Z * R) (bin : Z) : list R * R * Z * R :=
  let '(ker, sum, ce, w) := a in
  let dce := bin - hbin in
  let v := weight sigma dce in
  if 0 <=? dce then
    let sum' := (sum + v)%R in
    if Rle_dec sum' (cutoff / 2) then (ker ++ [v], sum', dce, (w + v)%R)
    else (ker ++ [v], sum', ce, w)
  else (ker ++ [v], sum, ce, w).

(** 384-409: arrays come zeroed from alloc. *)
Definition make_kern (cutoff : R) (last sigma : Z) : kern :=
  let '(ker, _, ce, w) := fold_left (kern_step sigma cutoff (hbin_of last)) (zupto (nbin_of last)) ([], 0%R, 0, 0%R) in
  mkKern ker ce (w * 2)%R.

(** rbf_kernel: 363-418; no kernel at all: rbf_sigma[-1] is read. *)
Definition rbf_kernel (cutoff : R) (sigmas : list Z) : outcome (Z * list kern) :=
  l <- of_option (get_at sigmas (zlen sigmas - 1)) ;;
  Ret (hbin_of l, map (make_kern cutoff l) sigmas).

(** 299-317 for one kernel: the series from index [t] on; (sum_yw, sum_w, t_left). *)
Fixpoint rbf_scan (nodata hbin : Z) (k : kern) (x t : Z) (s : list (Z * Z)) (yw w : R) (tl : Z) : outcome (R * R * Z) :=
  match s with
  | [] => Ret (yw, w, tl)
  | (c, y) :: r =>
    if max_ce k <? x - c then rbf_scan nodata hbin k x (t + 1) r yw w t
    else if max_ce k <? c - x then Ret (yw, w, tl)
    else if y =? nodata then rbf_scan nodata hbin k x (t + 1) r yw w tl
    else v <- of_option (get_at (kernel k) (c - x + hbin)) ;;
         rbf_scan nodata hbin k x (t + 1) r (yw + IZR y * v)%R (w + v)%R tl
  end.

(** 295-319: all kernels, each with its t_left. *)
Fixpoint rbf_scans (nodata hbin x : Z) (s : list (Z * Z)) (ks : list kern) (tls : list Z) : outcome (list (R * R * Z)) :=
  match ks, tls with
  | k :: ks', tl :: tls' =>
    r <- rbf_scan nodata hbin k x tl (skipn (Z.to_nat tl) s) 0%R 0%R tl ;;
    rs <- rbf_scans nodata hbin x s ks' tls' ;; Ret (r :: rs)
  | _, _ => Ret []
  end.

(** 324-333: (sum_kd, sum_d). *)
Fixpoint rbf_sums (ks : list kern) (rs : list (R * R * Z)) (kd d : R) : outcome (R * R) :=
  match ks, rs with
  | k :: ks', (yw, w, _) :: rs' =>
    if Rlt_dec 0 w then
      if Req_EM_T (max_w k) 0 then UB else rbf_sums ks' rs' (kd + yw / max_w k)%R (d + w / max_w k)%R
    else rbf_sums ks' rs' kd d
  | _, _ => Ret (kd, d)
  end.

(** 336-342: the conversion truncates. *)
Definition rbf_value (nodata : Z) (kd d : R) : outcome Z :=
  if Rlt_dec 0 d then let z := Ztrunc (kd / d)%R in if in_shortb z then Ret z else UB else Ret nodata.

(** 289-344 *)
Fixpoint rbf_loop (nodata hbin : Z) (ks : list kern) (s : list (Z * Z)) (tls : list Z) (grid : list Z) : outcome (list Z) :=
  match grid with
  | [] => Ret []
  | x :: r =>
    rs <- rbf_scans nodata hbin x s ks tls ;;
    p <- rbf_sums ks rs 0%R 0%R ;;
    y <- rbf_value nodata (fst p) (snd p) ;;
    ys <- rbf_loop nodata hbin ks s (map snd rs) r ;;
    Ret (y :: ys)
  end.

(** interpolate_rbf for one pixel: 258-356. *)
Definition rbf_pixel (nodata : Z) (cutoff : R) (sigmas : list Z) (masked : bool) (s : list (Z * Z)) (grid : list Z) : outcome (list Z) :=
  k <- rbf_kernel cutoff sigmas ;;
  if masked then Ret (map (fun _ => nodata) grid)
  else rbf_loop nodata (fst k) (snd k) s (map (fun _ => 0) (snd k)) grid.
