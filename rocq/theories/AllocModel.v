(** Model of src/modules/cross-level/alloc-cl.c.
    Memory blocks are lists of elements; an element stands for [size] bytes and
    [zero] for all-zero bytes.  [undef] is the content of memory that realloc
    handed out but nobody initialised.  Overflow of n*size and out-of-memory are
    not modelled.  As with glibc, realloc to 0 bytes returns NULL, which the code
    treats as out of memory (exit), while calloc of 0 bytes succeeds. *)
From Verif Require Import Base.

Section Alloc.
Context {A : Type} (zero undef : A).

(** alloc: alloc-cl.c:38-46. *)
Definition alloc (n : nat) : list A := repeat zero n.

(** realloc of libc. *)
Definition realloc (undef : A) (arr : list A) (n : nat) : outcome (list A) :=
  match n with O => Exit | _ => Ret (firstn n arr ++ repeat undef (n - length arr)) end.

(** memset of elements [from, from+cnt) to zero; outside the block is UB. *)
Definition memset0 (arr : list A) (from cnt : nat) : outcome (list A) :=
  if (from + cnt <=? length arr)%nat
  then Ret (firstn from arr ++ repeat zero cnt ++ skipn (from + cnt) arr)
  else UB.

(** re_alloc: alloc-cl.c:126-142. *)
Definition re_alloc (arr : list A) (n_now n : nat) : outcome (list A) :=
  if (n_now =? n)%nat then Ret arr
  else
    a <- realloc undef arr n ;;
    if (n_now <? n)%nat then memset0 a n_now (n - n_now) else Ret a.
End Alloc.

Section Alloc2.
Context {A : Type} (zero undef : A).

(** alloc_2D: alloc-cl.c:57-66. *)
Definition alloc_2D (n1 n2 : nat) : list (list A) := repeat (alloc zero n2) n1.

(** re_alloc_2D: alloc-cl.c:156-186.  The pointer array is resized first (new
    pointers are NULL = None, uninitialised ones are None too); then every row is
    allocated or resized.  Freed rows are simply dropped. *)
Fixpoint resize_rows (rows : list (option (list A))) (i n1_now n2_now n2 : nat)
  : outcome (list (list A)) :=
  match rows with
  | [] => Ret []
  | r :: rest =>
    row <- (if (n1_now <=? i)%nat then Ret (alloc zero n2)
            else match r with
                 | Some row => re_alloc zero undef row n2_now n2
                 | None => UB
                 end) ;;
    rows' <- resize_rows rest (S i) n1_now n2_now n2 ;;
    Ret (row :: rows')
  end.
Definition re_alloc_2D (arr : list (list A)) (n1_now n2_now n1 n2 : nat)
  : outcome (list (list A)) :=
  if (n1_now =? n1)%nat && (n2_now =? n2)%nat then Ret arr
  else
    ptrs <- re_alloc None None (map Some arr) n1_now n1 ;;
    resize_rows ptrs 0 n1_now n2_now n2.

(** re_alloc_2DC: alloc-cl.c:202-215.  One contiguous block; row i starts at
    element i*n2.  Reading the first row pointer of an array without rows is UB. *)
Definition re_alloc_2DC (flat : list A) (n1_now n2_now n1 n2 : nat) : outcome (list A) :=
  if (n1_now =? 0)%nat then UB
  else if (n1_now =? n1)%nat && (n2_now =? n2)%nat then Ret flat
  else
    f <- re_alloc zero undef flat (n1_now * n2_now) (n1 * n2) ;;
    _ <- re_alloc None None (repeat (Some tt) n1_now) n1_now n1 ;;
    Ret f.
End Alloc2.

Section Alloc3.
Context {A : Type} (zero undef : A).

(** alloc_3D: alloc-cl.c:102-114. *)
Definition alloc_3D (n1 n2 n3 : nat) : list (list (list A)) := repeat (alloc_2D zero n2 n3) n1.

(** Loop over the first n1_now planes: alloc-cl.c:238 (arr[i], i < n1_now). *)
Fixpoint resize_planes (planes : list (list (list A))) (k n2_now n3_now n2 n3 : nat)
  : outcome (list (list (list A))) :=
  match k with
  | O => Ret planes
  | S k' => match planes with
            | [] => UB
            | p :: rest =>
              p' <- re_alloc_2D zero undef p n2_now n3_now n2 n3 ;;
              rest' <- resize_planes rest k' n2_now n3_now n2 n3 ;;
              Ret (p' :: rest')
            end
  end.

(** Planes n1_now..n1-1 are allocated: alloc-cl.c:251-256. *)
Fixpoint fill_planes (planes : list (option (list (list A)))) (i n1_now n2 n3 : nat)
  : outcome (list (list (list A))) :=
  match planes with
  | [] => Ret []
  | p :: rest =>
    q <- (if (n1_now <=? i)%nat then Ret (alloc_2D zero n2 n3)
          else match p with Some x => Ret x | None => UB end) ;;
    rest' <- fill_planes rest (S i) n1_now n2 n3 ;;
    Ret (q :: rest')
  end.

(** re_alloc_3D: alloc-cl.c:231-260. *)
Definition re_alloc_3D (arr : list (list (list A))) (n1_now n2_now n3_now n1 n2 n3 : nat)
  : outcome (list (list (list A))) :=
  if (n1_now =? n1)%nat && (n2_now =? n2)%nat && (n3_now =? n3)%nat then Ret arr
  else
    a <- (if negb (n2_now =? n2)%nat || negb (n3_now =? n3)%nat
          then resize_planes arr n1_now n2_now n3_now n2 n3 else Ret arr) ;;
    ptrs <- re_alloc None None (map Some a) n1_now n1 ;;
    fill_planes ptrs 0 n1_now n2 n3.
End Alloc3.
