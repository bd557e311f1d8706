(** Model of connected component labelling, src/modules/cross-level/imagefuns-cl.c:475-690:
    connectedcomponents_, ccl_tracer, ccl_contourtrace, binary_to_objects. *)
From Verif Require Import Base Loops.
#[local] Open Scope Z_scope.

(** neighbor[8][2]: 533. *)
Definition neighbor (dir : Z) : outcome (Z * Z) :=
  of_option (get_at [(0, 1); (1, 1); (1, 0); (1, -1); (0, -1); (-1, -1); (-1, 0); (-1, 1)] dir).

(** ccl_tracer: 531-566.  Position and direction are returned with CCL; [n] is the
    number of remaining iterations (7 at first). *)
Fixpoint tracer (n : nat) (img : list bool) (nx ny cy cx dir : Z) (ccl : list Z) : outcome (Z * Z * Z * list Z) :=
  match n with
  | O => Ret (cy, cx, dir, ccl)
  | S n' =>
    d <- neighbor dir ;;
    let y := cy + fst d in
    let x := cx + snd d in
    if (0 <=? y) && (y <? ny) && (0 <=? x) && (x <? nx) then
      b <- of_option (get_at img (y * nx + x)) ;;
      if (b : bool) then Ret (y, x, dir, ccl)
      else ccl' <- of_option (set_at ccl (y * nx + x) (-1)) ;; tracer n' img nx ny cy cx ((dir + 1) mod 8) ccl'
    else tracer n' img nx ny cy cx ((dir + 1) mod 8) ccl
  end.

(** The while loop of ccl_contourtrace: 585-607.  Exit: out of fuel. *)
Fixpoint contour (fuel : nat) (img : list bool) (nx ny sy sx fy fx label : Z) (stop : bool) (cy cx dir : Z) (ccl : list Z) : outcome (list Z) :=
  match fuel with
  | O => Exit
  | S f =>
    ccl1 <- of_option (set_at ccl (cy * nx + cx) label) ;;
    r <- tracer 7 img nx ny cy cx ((dir + 6) mod 8) ccl1 ;;
    let '(cy', cx', dir', ccl2) := r in
    if (cx' =? sx) && (cy' =? sy) then contour f img nx ny sy sx fy fx label true cy' cx' dir' ccl2
    else if stop then
      if (cx' =? fx) && (cy' =? fy) then Ret ccl2
      else contour f img nx ny sy sx fy fx label false cy' cx' dir' ccl2
    else contour f img nx ny sy sx fy fx label stop cy' cx' dir' ccl2
  end.

(** ccl_contourtrace: 573-611. *)
Definition contourtrace (fuel : nat) (img : list bool) (nx ny cy cx label dir : Z) (ccl : list Z) : outcome (list Z) :=
  r <- tracer 7 img nx ny cy cx dir ccl ;;
  let '(y, x, d, ccl1) := r in
  if negb (x =? cx) || negb (y =? cy) then contour fuel img nx ny cy cx y x label false y x d ccl1 else Ret ccl1.

(** One pixel of connectedcomponents_: 482-516, state (k, label, CCL). *)
Definition ccl_pixel (fuel : nat) (img : list bool) (nx ny i : Z) (st : Z * Z * list Z) (j : Z) : outcome (Z * Z * list Z) :=
  let '(k, label, ccl) := st in
  let p := i * nx + j in
  b <- of_option (get_at img p) ;;
  if (b : bool) then
    if negb (label =? 0) then ccl' <- of_option (set_at ccl p label) ;; Ret (k, label, ccl')
    else
      l <- of_option (get_at ccl p) ;;
      if l =? 0 then
        ccl1 <- contourtrace fuel img nx ny i j (k + 1) 0 ccl ;;
        ccl2 <- of_option (set_at ccl1 p (k + 1)) ;; Ret (k + 1, k + 1, ccl2)
      else Ret (k, l, ccl)
  else if negb (label =? 0) then
    l <- of_option (get_at ccl p) ;;
    ccl1 <- (if l =? 0 then contourtrace fuel img nx ny i (j - 1) label 1 ccl else Ret ccl) ;;
    Ret (k, 0, ccl1)
  else Ret st.

(** connectedcomponents_: 475-528.  The label is reset at the start of a row. *)
Definition ccl_row (fuel : nat) (img : list bool) (nx ny : Z) (st : Z * list Z) (i : Z) : outcome (Z * list Z) :=
  r <- ofold (ccl_pixel fuel img nx ny i) (zrange 0 (nx - 1)) (fst st, 0, snd st) ;;
  let '(k, _, ccl) := r in Ret (k, ccl).
Definition connectedcomponents (fuel : nat) (img : list bool) (ccl : list Z) (nx ny : Z) : outcome (Z * list Z) :=
  r <- ofold (ccl_row fuel img nx ny) (zrange 0 (ny - 1)) (0, ccl) ;;
  Ret (fst r, map (fun v => if v <? 0 then 0 else v) (snd r)).

(** binary_to_objects: 624-690.  Object sizes are counted at 646-650 and 668-672. *)
Definition count_sizes (img : list bool) (ccl : list Z) (no nc : Z) : outcome (list Z) :=
  ofold (fun ccs p =>
    b <- of_option (get_at img p) ;;
    if (b : bool) then id <- of_option (get_at ccl p) ;; c <- of_option (get_at ccs (id - 1)) ;; of_option (set_at ccs (id - 1) (c + 1))
    else Ret ccs) (zrange 0 (nc - 1)) (repeat 0 (Z.to_nat no)).
(** 652-656. *)
Definition drop_small (img : list bool) (ccl ccs : list Z) (nmin nc : Z) : outcome (list bool) :=
  ofold (fun im p =>
    b <- of_option (get_at im p) ;;
    if (b : bool) then
      id <- of_option (get_at ccl p) ;; c <- of_option (get_at ccs (id - 1)) ;;
      if c <? nmin then of_option (set_at im p false) else Ret im
    else Ret im) (zrange 0 (nc - 1)) img.
(** 668-672: background pixels are reset. *)
Definition clear_background (img : list bool) (ccl : list Z) (nc : Z) : outcome (list Z) :=
  ofold (fun c p => b <- of_option (get_at img p) ;; if (b : bool) then Ret c else of_option (set_at c p 0)) (zrange 0 (nc - 1)) ccl.

(** The image after the call, the number of objects and, if there are any, the
    segmentation and the sizes (otherwise the returned pointers dangle). *)
Definition binary_to_objects (fuel : nat) (img : list bool) (nx ny nmin : Z) : outcome (list bool * Z * option (list Z * list Z)) :=
  let nc := nx * ny in
  let zero := repeat 0 (Z.to_nat nc) in
  img0 <- of_option (set_at img 0 false) ;;
  r1 <- connectedcomponents fuel img0 zero nx ny ;;
  if fst r1 >? 0 then
    ccs1 <- count_sizes img0 (snd r1) (fst r1) nc ;;
    img1 <- drop_small img0 (snd r1) ccs1 nmin nc ;;
    r2 <- connectedcomponents fuel img1 zero nx ny ;;
    if fst r2 >? 0 then
      ccl2 <- clear_background img1 (snd r2) nc ;;
      ccs2 <- count_sizes img1 (snd r2) (fst r2) nc ;;
      Ret (img1, fst r2, Some (ccl2, ccs2))
    else Ret (img1, fst r2, None)
  else Ret (img0, fst r1, None).
