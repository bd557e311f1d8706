(** Model of greyscale_reconstruction_, src/modules/cross-level/imagefuns-cl.c:728-849. *)
From Verif Require Import Base Loops QueueModel.
#[local] Open Scope Z_scope.

(** np1 and np2: 733-734. *)
Definition np1 (nx : Z) : list Z := [- nx - 1; - nx; - nx + 1; -1].
Definition np2 (nx : Z) : list Z := [nx + 1; nx; nx - 1; 1].

(** 744-747. *)
Definition mask_max (mask : list Z) (n : Z) : outcome Z :=
  ofold (fun mx p => v <- of_option (get_at mask p) ;; Ret (if v >? mx then v else mx)) (zrange 0 (n - 1)) (-32768).

(** 750-761. *)
Definition init_cell (mask : list Z) (mx nx ny i : Z) (marker : list Z) (j : Z) : outcome (list Z) :=
  if (i =? 0) || (j =? 0) || (i =? ny - 1) || (j =? nx - 1) then
    v <- of_option (get_at mask (i * nx + j)) ;; of_option (set_at marker (i * nx + j) v)
  else of_option (set_at marker (i * nx + j) mx).
Definition init_marker (mask : list Z) (mx nx ny : Z) (marker : list Z) : outcome (list Z) :=
  ofold (fun m i => ofold (init_cell mask mx nx ny i) (zrange 0 (nx - 1)) m) (zrange 0 (ny - 1)) marker.

(** The smallest value among the pixel and the given neighbours, clipped at the
    mask: 769-777 and 787-795. *)
Definition lowest (marker : list Z) (p : Z) (nb : list Z) (min : Z) : outcome Z :=
  ofold (fun mn o => v <- of_option (get_at marker (p + o)) ;; Ret (if v <? mn then v else mn)) nb min.
Definition seq_cell (mask marker : list Z) (nb : list Z) (p : Z) : outcome (list Z) :=
  m0 <- of_option (get_at marker p) ;; mn <- lowest marker p nb m0 ;; k <- of_option (get_at mask p) ;;
  of_option (set_at marker p (if mn >? k then mn else k)).

(** Raster scan: 765-780. *)
Definition raster (mask : list Z) (nx ny : Z) (marker : list Z) : outcome (list Z) :=
  ofold (fun m i => ofold (fun m' j => seq_cell mask m' (np1 nx) (i * nx + j)) (zrange 1 (nx - 2)) m) (zrange 1 (ny - 2)) marker.

(** State of the rest of the function: FAILURE stands for "has returned FAILURE". *)
Record rstate := mkR { r_rc : rc; r_marker : list Z; r_queue : queue }.

Definition returned (st : rstate) : bool := match r_rc st with SUCCESS => false | _ => true end.

Definition put (st : rstate) (marker : list Z) (x y : Z) : outcome rstate :=
  r <- enqueue (r_queue st) x y ;; Ret (mkR (fst r) marker (snd r)).

(** 797-808: one neighbour.  The "continue" of line 805 only ends this iteration. *)
Definition check_cell (mask : list Z) (nx i j : Z) (st : rstate) (o : Z) : outcome rstate :=
  if returned st then Ret st
  else
    let p := i * nx + j in
    a <- of_option (get_at (r_marker st) (p + o)) ;; b <- of_option (get_at (r_marker st) p) ;;
    c <- of_option (get_at mask (p + o)) ;;
    if (a >? b) && (a >? c) then put st (r_marker st) j i else Ret st.

(** Anti-raster scan: 784-811. *)
Definition anti_cell (mask : list Z) (nx i : Z) (st : rstate) (j : Z) : outcome rstate :=
  if returned st then Ret st
  else
    m <- seq_cell mask (r_marker st) (np2 nx) (i * nx + j) ;;
    ofold (check_cell mask nx i j) (np2 nx) (mkR SUCCESS m (r_queue st)).
Definition anti_raster (mask : list Z) (nx ny : Z) (st : rstate) : outcome rstate :=
  ofold (fun s i => ofold (anti_cell mask nx i) (rev (zrange 1 (nx - 2))) s) (rev (zrange 1 (ny - 2))) st.

(** 820-838: the eight neighbours (ii, jj) of the dequeued pixel, in order. *)
Definition eight : list (Z * Z) := [(-1, -1); (-1, 0); (-1, 1); (0, -1); (0, 1); (1, -1); (1, 0); (1, 1)].
Definition prop_cell (mask : list Z) (nx i j : Z) (st : rstate) (d : Z * Z) : outcome rstate :=
  if returned st then Ret st
  else
    let p := nx * i + j in
    let np := (i + fst d) * nx + j + snd d in
    a <- of_option (get_at (r_marker st) np) ;; b <- of_option (get_at (r_marker st) p) ;; c <- of_option (get_at mask np) ;;
    if (a >? b) && negb (c =? a) then
      m <- of_option (set_at (r_marker st) np (if b >? c then b else c)) ;; put st m (j + snd d) (i + fst d)
    else Ret st.

(** The while loop 816-841.  Exit: out of fuel. *)
Fixpoint drain (fuel : nat) (mask : list Z) (nx : Z) (st : rstate) : outcome rstate :=
  match fuel with
  | O => Exit
  | S f =>
    if returned st then Ret st
    else
      r <- dequeue (r_queue st) ;;
      match r with
      | (SUCCESS, Some (j, i), q) =>
          st' <- ofold (prop_cell mask nx i j) eight (mkR SUCCESS (r_marker st) q) ;; drain f mask nx st'
      | (_, _, q) => Ret (mkR SUCCESS (r_marker st) q)
      end
  end.

(** 728-849: return code and MARKER.  [fuel] bounds the number of dequeued
    pixels; the initial content of MARKER is [marker]. *)
Definition greyscale_reconstruction (fuel : nat) (mask marker : list Z) (nx ny : Z) : outcome (rc * list Z) :=
  q <- create_queue (Z.quot (nx * ny) 2) ;;
  mx <- mask_max mask (nx * ny) ;;
  m0 <- init_marker mask mx nx ny marker ;;
  m1 <- raster mask nx ny m0 ;;
  s1 <- anti_raster mask nx ny (mkR SUCCESS m1 q) ;;
  s2 <- drain fuel mask nx s1 ;;
  Ret (r_rc s2, r_marker s2).
