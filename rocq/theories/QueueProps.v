(** C01: the coordinate queue is a bounded FIFO. *)
From Verif Require Import Base QueueModel QueueSpec QueueProofs.

(** Every history with 16-bit coordinates answers exactly like the ideal bounded
    FIFO of capacity n-1 (in particular: never [UB]). *)
Theorem C01_queue_is_bounded_fifo : forall n ops,
  1 <= n -> Forall op_in_short ops ->
  exists q q', create_queue n = Ret q /\
    run_queue q ops = Ret (fst (fifo_run exact (n - 1) [] ops), q').
Proof. exact queue_fifo_exact. Qed.
Print Assumptions C01_queue_is_bounded_fifo.

(** Arbitrary int coordinates: same answers, pairs truncated to 16 bits. *)
Theorem C01_queue_any_coordinates : forall n ops,
  1 <= n ->
  exists q q', create_queue n = Ret q /\
    run_queue q ops = Ret (fst (fifo_run short_pair (n - 1) [] ops), q').
Proof. exact queue_fifo_trunc. Qed.
Print Assumptions C01_queue_any_coordinates.

(** Never more than n-1 pairs are queued; a pair is accepted exactly when fewer are, and
    one is delivered exactly when there is one. *)
Theorem C01_queue_capacity n ops q ans q' : 1 <= n -> create_queue n = Ret q -> run_queue q ops = Ret (ans, q') ->
  forall pre r post, ans = pre ++ r :: post ->
    0 <= balance pre <= n - 1 /\ (forall c, r = AEnq c -> (c = SUCCESS <-> balance pre < n - 1)) /\
    (forall c v, r = ADeq c v -> (c = SUCCESS <-> 0 < balance pre)).
Proof. apply queued_bound. Qed.
Print Assumptions C01_queue_capacity.

(** Coordinates beyond 16 bits do not come back (images wider than 32768 pixels). *)
Theorem C01_large_coordinates_refuted :
  exists n ops q q', 1 <= n /\ create_queue n = Ret q /\
    run_queue q ops = Ret ([AEnq SUCCESS; ADeq SUCCESS (Some (-25536, 5))], q') /\
    ops = [Enq 40000 5; Deq].
Proof. exact queue_large_coord_refuted. Qed.
Print Assumptions C01_large_coordinates_refuted.

(** A queue of size 0 (greyscale reconstruction of a 1x1 image asks for it)
    writes out of bounds on the first enqueue. *)
Theorem C01_size_zero_ub : forall x y, exists q, create_queue 0 = Ret q /\ enqueue q x y = UB.
Proof. exact enqueue_size0_ub. Qed.
Print Assumptions C01_size_zero_ub.

(** The hypotheses are met by a history that wraps around and hits both
    FAILURE answers. *)
Example C01_example :
  let ops := [Deq; Enq 1 2; Enq 3 4; Enq 5 6; Deq; Enq 7 8; Deq; Deq; Deq] in
  Forall op_in_short ops /\
  fst (fifo_run exact (3 - 1) [] ops) =
    [ADeq FAILURE None; AEnq SUCCESS; AEnq SUCCESS; AEnq FAILURE;
     ADeq SUCCESS (Some (1, 2)); AEnq SUCCESS; ADeq SUCCESS (Some (3, 4));
     ADeq SUCCESS (Some (7, 8)); ADeq FAILURE None].
Proof. split; [repeat constructor; unfold in_short; simpl; lia | reflexivity]. Qed.
