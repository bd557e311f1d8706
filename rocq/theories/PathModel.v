(** Model of the path functions of src/modules/cross-level/dir-cl.c:183-322.
    A path is a NUL-terminated buffer, modelled by its characters; truncating it
    (writing a NUL) drops the characters behind.  Output buffers have the announced
    size (precondition of copy_string). *)
From Verif Require Import Base CStr.

Definition slash : Z := 47.
Definition dot : Z := 46.

(** libc strchr / strrchr as offsets. *)
Fixpoint strchr (c : Z) (l : list Z) : option nat :=
  match l with
  | [] => None
  | x :: t => if x =? c then Some O else match strchr c t with Some k => Some (S k) | None => None end
  end.
Fixpoint strrchr (c : Z) (l : list Z) : option nat :=
  match l with
  | [] => None
  | x :: t => match strrchr c t with
              | Some k => Some (S k)
              | None => if x =? c then Some O else None
              end
  end.

(** while (path[plen-1] == '/') : dir-cl.c:264-267.  The read at index -1 is
    outside of the string: UB. *)
Fixpoint strip_slashes (fuel : nat) (path : list Z) (plen : Z) : outcome (list Z) :=
  c <- of_option (get_at path (plen - 1)) ;;
  if c =? slash then
    match fuel with
    | O => UB
    | S f => strip_slashes f (firstn (Z.to_nat (plen - 1)) path) (plen - 1)
    end
  else Ret path.

(** basename_with_ext: dir-cl.c:249-280.  Yields the (modified!) path and the
    basename. *)
Definition basename_with_ext (path : list Z) (size : Z) : outcome (list Z * list Z) :=
  p <- strip_slashes (length path) path (zlen path) ;;
  let start := match strrchr slash p with None => p | Some k => skipn (S k) p end in
  b <- copy_string size start ;;
  Ret (p, b).

(** extension / extension2: dir-cl.c:183-224 (first resp. last dot of the basename). *)
Definition extension_by (find : list Z -> option nat) (path : list Z) (size : Z) : outcome (list Z * list Z) :=
  r <- basename_with_ext path 1024 ;;
  let '(p, b) := r in
  match find b with
  | Some k => e <- copy_string size (skipn k b) ;; Ret (p, e)
  | None => Ret (p, [])
  end.
Definition extension := extension_by (strchr dot).
Definition extension2 := extension_by (strrchr dot).

(** basename_without_ext: dir-cl.c:234-246. *)
Definition basename_without_ext (path : list Z) (size : Z) : outcome (list Z * list Z) :=
  r <- basename_with_ext path size ;;
  let '(p, b) := r in
  Ret (p, match strchr dot b with Some k => firstn k b | None => b end).

(** directoryname: dir-cl.c:290-322.  [cwd]: what getcwd finds. *)
Definition directoryname (cwd : list Z) (path : list Z) (size : Z) : outcome (list Z) :=
  d <- copy_string size path ;;
  match strrchr slash d with
  | Some k => Ret (firstn k d)
  | None => if zlen cwd >=? size then Exit else Ret cwd
  end.
