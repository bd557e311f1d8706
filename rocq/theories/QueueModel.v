(** Model of src/modules/cross-level/queue-cl.c (whole file). *)
From Verif Require Import Base.

(** queue_t: queue-cl.h:42-48.  The two buffers are lists of 16-bit values. *)
Record queue := mkQ { buf_x : list Z; buf_y : list Z; head : Z; tail : Z; size : Z }.

(** create_queue: queue-cl.c:37-47.  alloc() is calloc: zero filled.
    Simplification: alloc() failing (exit) is not modelled; a negative size is
    an (almost always failing) huge allocation in C and is modelled as Exit. *)
Definition create_queue (sz : Z) : outcome queue :=
  if sz <? 0 then Exit
  else Ret (mkQ (repeat 0 (Z.to_nat sz)) (repeat 0 (Z.to_nat sz)) 0 0 sz).

(** enqueue: queue-cl.c:73-86. *)
Definition enqueue (q : queue) (x y : Z) : outcome (rc * queue) :=
  if (head q + 1 =? tail q) || ((head q + 1 =? size q) && (tail q =? 0)) then
    Ret (FAILURE, q)
  else
    bx <- of_option (set_at (buf_x q) (head q) (to_short x)) ;;
    by_ <- of_option (set_at (buf_y q) (head q) (to_short y)) ;;
    let h := head q + 1 in
    let h := if h =? size q then 0 else h in
    Ret (SUCCESS, mkQ bx by_ h (tail q) (size q)).

(** dequeue: queue-cl.c:95-108.  The returned pair is [None] when *x and *y
    are left unwritten (FAILURE). *)
Definition dequeue (q : queue) : outcome (rc * option (Z * Z) * queue) :=
  if negb (tail q =? head q) then
    x <- of_option (get_at (buf_x q) (tail q)) ;;
    y <- of_option (get_at (buf_y q) (tail q)) ;;
    let t := tail q + 1 in
    let t := if t =? size q then 0 else t in
    Ret (SUCCESS, Some (x, y), mkQ (buf_x q) (buf_y q) (head q) t (size q))
  else Ret (FAILURE, None, q).

(** A client of the queue: any finite history of calls, with the answers. *)
Inductive qop := Enq (x y : Z) | Deq.
Inductive qans := AEnq (r : rc) | ADeq (r : rc) (v : option (Z * Z)).

Fixpoint run_queue (q : queue) (ops : list qop) : outcome (list qans * queue) :=
  match ops with
  | [] => Ret ([], q)
  | Enq x y :: ops' =>
      r <- enqueue q x y ;;
      rest <- run_queue (snd r) ops' ;;
      Ret (AEnq (fst r) :: fst rest, snd rest)
  | Deq :: ops' =>
      r <- dequeue q ;;
      rest <- run_queue (snd r) ops' ;;
      Ret (ADeq (fst (fst r)) (snd (fst r)) :: fst rest, snd rest)
  end.
