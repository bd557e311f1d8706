(** Model of dist_transform_, dt_dfun and dt_Sep,
    src/modules/cross-level/imagefuns-cl.c:312-432.  The parallel loops are run
    sequentially (every column resp. row only touches its own cells). *)
From Flocq Require Import Core IEEE754.BinarySingleNaN.
From Verif Require Import Base Loops Float.
#[local] Open Scope Z_scope.

Definition to_ushort (z : Z) : Z := z mod 65536.

(** Scan 1, 332-341: one column. *)
Definition scan1_step (img : list bool) (nx x : Z) (G : list Z) (y : Z) : outcome (list Z) :=
  b <- of_option (get_at img (y * nx + x)) ;;
  if b then of_option (set_at G (y * nx + x) 0)
  else g <- of_option (get_at G ((y - 1) * nx + x)) ;; of_option (set_at G (y * nx + x) (to_ushort (1 + g))).

(** Scan 2, 344-348. *)
Definition scan2_step (nx x : Z) (G : list Z) (y : Z) : outcome (list Z) :=
  a <- of_option (get_at G ((y + 1) * nx + x)) ;; b <- of_option (get_at G (y * nx + x)) ;;
  if a <? b then of_option (set_at G (y * nx + x) (to_ushort (1 + a))) else Ret G.

Definition column (img : list bool) (nx ny : Z) (G : list Z) (x : Z) : outcome (list Z) :=
  b <- of_option (get_at img x) ;;
  G0 <- of_option (set_at G x (if b then 0 else to_ushort (nx + ny))) ;;
  G1 <- ofold (scan1_step img nx x) (zrange 1 (ny - 1)) G0 ;;
  ofold (scan2_step nx x) (rev (zrange 0 (ny - 2))) G1.

(** dt_dfun: 411-417. *)
Definition dt_dfun (nx x i y : Z) (G : list Z) : outcome Z :=
  g <- of_option (get_at G (nx * y + i)) ;;
  a <- chk_int ((x - i) * (x - i)) ;; b <- chk_int (g * g) ;; chk_int (a + b).

(** dt_Sep: 423-432. *)
Definition dt_Sep (nx i u y : Z) (G : list Z) : outcome Z :=
  gu <- of_option (get_at G (nx * y + u)) ;; gi <- of_option (get_at G (nx * y + i)) ;;
  a <- chk_int (u * u) ;; b <- chk_int (i * i) ;; c <- chk_int (gu * gu) ;; d <- chk_int (gi * gi) ;;
  e <- chk_int (a - b + c) ;; f <- chk_int (e - d) ;;
  if 2 * (u - i) =? 0 then UB else Ret (Z.quot f (2 * (u - i))).

(** The while loop 373: the new q.  Exit: out of fuel. *)
Fixpoint pop (fuel : nat) (nx y u : Z) (G s t : list Z) (q : Z) : outcome Z :=
  match fuel with
  | O => Exit
  | S f =>
    if q <? 0 then Ret q
    else
      tq <- of_option (get_at t q) ;; sq <- of_option (get_at s q) ;;
      a <- dt_dfun nx tq sq y G ;; b <- dt_dfun nx tq u y G ;;
      if a >? b then pop f nx y u G s t (q - 1) else Ret q
  end.

(** Scan 3, 371-387: (q, s, t). *)
Definition scan3_step (nx y : Z) (G : list Z) (st : Z * list Z * list Z) (u : Z) : outcome (Z * list Z * list Z) :=
  let '(q0, s, t) := st in
  q <- pop (Z.to_nat (nx + 1)) nx y u G s t q0 ;;
  if q <? 0 then s' <- of_option (set_at s 0 u) ;; Ret (0, s', t)
  else
    sq <- of_option (get_at s q) ;; sep <- dt_Sep nx sq u y G ;;
    let w := 1 + sep in
    if w <? nx then
      s' <- of_option (set_at s (q + 1) u) ;; t' <- of_option (set_at t (q + 1) w) ;; Ret (q + 1, s', t')
    else Ret (q, s, t).

(** (ushort) sqrt(d): out of range conversions are undefined. *)
Definition ushort_sqrt (d : Z) : outcome Z :=
  match trunc_of (Bsqrt mode_NE (f64_of_Z d)) with
  | Some z => if (0 <=? z) && (z <=? 65535) then Ret z else UB
  | None => UB
  end.

(** Scan 4, 390-393: (distance, q). *)
Definition scan4_step (nx y : Z) (G s t : list Z) (st : list Z * Z) (u : Z) : outcome (list Z * Z) :=
  let '(dist, q) := st in
  sq <- of_option (get_at s q) ;; d <- dt_dfun nx u sq y G ;; v <- ushort_sqrt d ;;
  dist' <- of_option (set_at dist (y * nx + u) v) ;; tq <- of_option (get_at t q) ;;
  Ret (dist', if u =? tq then q - 1 else q).

(** One row, 366-395: s and t keep the content of the previous row. *)
Definition row (nx : Z) (G : list Z) (st : list Z * list Z * list Z) (y : Z) : outcome (list Z * list Z * list Z) :=
  let '(dist, s, t) := st in
  s0 <- of_option (set_at s 0 0) ;; t0 <- of_option (set_at t 0 0) ;;
  r <- ofold (scan3_step nx y G) (zrange 1 (nx - 1)) (0, s0, t0) ;;
  let '(q, s1, t1) := r in
  r4 <- ofold (scan4_step nx y G s1 t1) (rev (zrange 0 (nx - 1))) (dist, q) ;;
  Ret (fst r4, s1, t1).

(** dist_transform_: 312-405. *)
Definition zeros (n : Z) : list Z := repeat 0 (Z.to_nat n).
Definition dist_transform (img : list bool) (nx ny : Z) : outcome (list Z) :=
  G <- ofold (column img nx ny) (zrange 0 (nx - 1)) (zeros (nx * ny)) ;;
  r <- ofold (row nx G) (zrange 0 (ny - 1)) (zeros (nx * ny), zeros nx, zeros nx) ;;
  Ret (fst (fst r)).
