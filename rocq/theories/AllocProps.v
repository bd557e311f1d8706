(** C13: resizing arrays. *)
From Verif Require Import Base AllocModel AllocSpec AllocProofs.

Theorem C13_re_alloc : forall A (zero undef : A) arr o n, length arr = o -> (0 < n)%nat ->
  exists a', re_alloc zero undef arr o n = Ret a' /\ resized1 zero arr o n a'.
Proof. exact @re_alloc_spec. Qed.
Print Assumptions C13_re_alloc.

Theorem C13_re_alloc_2D : forall A (zero undef : A) a o1 o2 n1 n2,
  shape2 a o1 o2 -> (0 < n1)%nat -> (0 < n2)%nat ->
  exists a', re_alloc_2D zero undef a o1 o2 n1 n2 = Ret a' /\ resized2 zero a o1 o2 n1 n2 a'.
Proof. exact @re_alloc_2D_spec. Qed.
Print Assumptions C13_re_alloc_2D.

Theorem C13_re_alloc_3D : forall A (zero undef : A) a o1 o2 o3 n1 n2 n3,
  shape3 a o1 o2 o3 -> (0 < n1)%nat -> (0 < n2)%nat -> (0 < n3)%nat ->
  exists a', re_alloc_3D zero undef a o1 o2 o3 n1 n2 n3 = Ret a' /\
    resized3 zero a o1 o2 o3 n1 n2 n3 a'.
Proof. exact @re_alloc_3D_spec. Qed.
Print Assumptions C13_re_alloc_3D.

(** The contiguous variant is only correct while the row length is unchanged. *)
Theorem C13_re_alloc_2DC_partial : forall A (zero undef : A) flat o1 n1 n2,
  length flat = (o1 * n2)%nat -> (0 < o1)%nat -> (0 < n1)%nat -> (0 < n2)%nat ->
  exists f', re_alloc_2DC zero undef flat o1 n2 n1 n2 = Ret f' /\ length f' = (n1 * n2)%nat /\
    forall i j, (i < n1)%nat -> (j < n2)%nat ->
      cell2c zero f' n2 i j = if (i <? o1)%nat then cell2c zero flat n2 i j else zero.
Proof. exact @re_alloc_2DC_spec. Qed.
Print Assumptions C13_re_alloc_2DC_partial.

Theorem C13_re_alloc_2DC_refuted : exists (flat f' : list Z) n2_now n2,
  length flat = (2 * n2_now)%nat /\ re_alloc_2DC 0 0 flat 2 n2_now 2 n2 = Ret f' /\
  cell2c 0 flat n2_now 1 0 = 3 /\ cell2c 0 f' n2 1 0 = 0.
Proof. exact re_alloc_2DC_refuted. Qed.
Print Assumptions C13_re_alloc_2DC_refuted.

(** Shrinking to nothing is treated as out of memory. *)
Theorem C13_shrink_to_zero_exits : forall A (zero undef : A) arr o, (0 < o)%nat ->
  re_alloc zero undef arr o 0 = Exit.
Proof. exact @re_alloc_zero_exits. Qed.
Print Assumptions C13_shrink_to_zero_exits.

Example C13_example :
  shape2 [[1; 2]; [3; 4]; [5; 6]] 3 2 /\
  re_alloc_2D 0 99 [[1; 2]; [3; 4]; [5; 6]] 3 2 2 4 = Ret [[1; 2; 0; 0]; [3; 4; 0; 0]] /\
  re_alloc_3D 0 99 [[[1; 2]; [3; 4]]] 1 2 2 2 1 3 = Ret [[[1; 2; 0]]; [[0; 0; 0]]] /\
  re_alloc 0 99 [1; 2; 3] 3 5 = Ret [1; 2; 3; 0; 0].
Proof.
  split; [|repeat split]. split; [reflexivity|].
  intros [|[|[|i]]] r E; inversion E; try reflexivity. destruct i; discriminate.
Qed.
