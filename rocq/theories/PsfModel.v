(** Model of the reduction of the spatial resolution with a point spread function:
    reduce_psf (src/modules/higher-level/read-ard-hl.c:58-171) with find_sigma and gauss_kernel
    (src/modules/cross-level/imagefuns-cl.c:36-97).  [hr] is the image on disc (16 bit),
    row by row.  The loops over the pixels are parallel, every pixel is written by one
    iteration only.  Simplified: the search of the width and the entries of the kernel are
    real numbers, the entries are rounded once when they are stored as float; everything
    behind is float and double arithmetic as in the code. *)
From Coq Require Import Reals.
From Flocq Require Import Core.
From Verif Require Import Base Loops RoundModel L1Model.
#[local] Open Scope Z_scope.

(** Conversion of an int to float. *)
Definition float_of (n : Z) : R := rnd32 (IZR n).

(** read-ard-hl.c:71: ratio of the resolutions, from the columns. *)
Definition ratio (nx NX : Z) : R := fdiv (float_of nx) (float_of NX).
(** 73: kernel width, odd. *)
Definition kernel_width (r : R) : Z := let n := Ztrunc (r * 2) in if n mod 2 =? 0 then n + 1 else n.

(** imagefuns-cl.c:43-52: one round of the search, [true]: stop. *)
Definition wide_enough (r2 sigma : R) : bool :=
  let sig := (sigma * sigma * 2)%R in
  let amp := (1 / (PI * sig))%R in
  let k := (amp * exp (- r2 / sig))%R in
  Rle_bool (amp / 2 - k)%R 0.
(** The while loop; [n] rounds are done, None: more rounds needed. *)
Fixpoint search (fuel : nat) (r2 : R) (n : Z) : option Z :=
  match fuel with
  | O => None
  | S fuel => if wide_enough r2 (IZR (n + 1) / 100)%R then Some (n + 1) else search fuel r2 (n + 1)
  end.
(** 36-58: the last step is taken back. *)
Definition find_sigma (fuel : nat) (r : R) : option R :=
  option_map (fun n => (IZR (n - 1) / 100)%R) (search fuel (r / 2 * (r / 2))%R 0).

(** imagefuns-cl.c:83-92: entry [i][j]. *)
Definition kernel_at (nk : Z) (sigma : R) (i j : Z) : R :=
  let sig := (sigma * sigma * 2)%R in
  let hx := - ((nk - 1) / 2) + j in
  let hy := - ((nk - 1) / 2) + i in
  rnd32 (1 / (PI * sig) * exp (- IZR (hx * hx + hy * hy) / sig))%R.

(** All pairs of a nested loop. *)
Definition pairs (n m : Z) : list (Z * Z) := flat_map (fun i => map (pair i) (zupto m)) (zupto n).

(** read-ard-hl.c:100-115: weighted sum and sum of the weights. *)
Fixpoint convolve (hr : list Z) (nx ny nodata nk : Z) (k : Z -> Z -> R) (i j : Z) (ws : list (Z * Z)) (sum num : R) : outcome (R * R) :=
  match ws with
  | [] => Ret (sum, num)
  | (ii, jj) :: rest =>
    let ni := - ((nk - 1) / 2) + ii + i in
    let nj := - ((nk - 1) / 2) + jj + j in
    if (ni <? 0) || (ny <=? ni) || (nj <? 0) || (nx <=? nj) then convolve hr nx ny nodata nk k i j rest sum num
    else
      v <- of_option (get_at hr (ni * nx + nj)) ;;
      if v =? nodata then convolve hr nx ny nodata nk k i j rest sum num
      else convolve hr nx ny nodata nk k i j rest
             (rnd64 (sum + rnd64 (rnd64 (IZR v / 10000) * k ii jj))) (rnd64 (num + k ii jj))
  end.
(** 90-119, one pixel. *)
Definition gauss_pixel (hr : list Z) (nx ny nodata nk : Z) (k : Z -> Z -> R) (p : Z) : outcome R :=
  v <- of_option (get_at hr p) ;;
  if v =? nodata then Ret (float_of nodata)
  else
    sn <- convolve hr nx ny nodata nk k (p / nx) (p mod nx) (pairs nk nk) 0 0 ;;
    Ret (if Rlt_bool 0 (snd sn) then rnd32 (rnd64 (fst sn / snd sn)) else float_of nodata).

(** 150-156: share of row (column) [a] of the image in row (column) [i] of the result. *)
Definition edge (r : R) (i a : Z) : R := fsub (fdiv (float_of a) r) (float_of i).
Definition cap1 (x : R) : R := if Rlt_bool 1 x then 1%R else x.
Definition cap0 (x : R) : R := if Rlt_bool x 0 then 0%R else x.
Definition share (r : R) (i a : Z) : R := fsub (cap1 (edge r i (a + 1))) (cap0 (edge r i a)).
(** 136-165 *)
Fixpoint aggregate (g : list R) (nx ny nodata : Z) (r : R) (i j : Z) (ws : list (Z * Z)) (sum num : R) : outcome (R * R) :=
  match ws with
  | [] => Ret (sum, num)
  | (ii, jj) :: rest =>
    let ni := Zfloor (fmul (float_of i) r) + ii in
    let nj := Zfloor (fmul (float_of j) r) + jj in
    if (ny <=? ni) || (nx <=? nj) then aggregate g nx ny nodata r i j rest sum num
    else
      x <- of_option (get_at g (ni * nx + nj)) ;;
      if Req_bool x (float_of nodata) then aggregate g nx ny nodata r i j rest sum num
      else
        let w := fmul (share r i ni) (share r j nj) in
        aggregate g nx ny nodata r i j rest (rnd64 (sum + fmul x w)) (rnd64 (num + w))
  end.
(** 127-169, one pixel; the loops run while ii < r. *)
Definition reduced_pixel (g : list R) (nx ny nodata NX : Z) (r : R) (p : Z) : outcome Z :=
  sn <- aggregate g nx ny nodata r (p / NX) (p mod NX) (pairs (Zceil r) (Zceil r)) 0 0 ;;
  if Rlt_bool 0 (snd sn) then short_of (rnd64 (rnd64 (fst sn / snd sn) * 10000)) else Ret nodata.

(** read-ard-hl.c:58-171 *)
Definition reduce_psf (fuel : nat) (hr : list Z) (nx ny NX NY nodata : Z) : outcome (option (list Z)) :=
  let r := ratio nx NX in
  let nk := kernel_width r in
  match find_sigma fuel r with
  | None => Ret None
  | Some sigma =>
    g <- omap (gauss_pixel hr nx ny nodata nk (kernel_at nk sigma)) (zupto (nx * ny)) ;;
    lr <- omap (reduced_pixel g nx ny nodata NX r) (zupto (NX * NY)) ;;
    Ret (Some lr)
  end.
