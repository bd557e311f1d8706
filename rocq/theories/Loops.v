(** Counting loops and line input: shared by several models. *)
From Verif Require Import Base.

(** The values of i in  for (i=lo; i<=hi; i++)  resp.  for (i=lo; i<hi; i++). *)
Definition zrange (lo hi : Z) : list Z :=
  map (fun k => lo + Z.of_nat k) (seq 0 (Z.to_nat (hi - lo + 1))).
Definition zupto (n : Z) : list Z := map Z.of_nat (seq 0 (Z.to_nat n)).

(** A loop body threading a state through the iterations. *)
Fixpoint ofold {A S} (f : S -> A -> outcome S) (l : list A) (s : S) : outcome S :=
  match l with
  | [] => Ret s
  | a :: t => s' <- f s a ;; ofold f t s'
  end.

(** libc fgets(buffer, n, fp): up to n-1 characters, ending after a newline;
    None at end of file. *)
Fixpoint take_line (n : nat) (l : list Z) : list Z * list Z :=
  match n, l with
  | O, _ => ([], l)
  | _, [] => ([], [])
  | S n', c :: t => if c =? 10 then ([c], t)
                    else let (a, b) := take_line n' t in (c :: a, b)
  end.
Definition fgets (n : Z) (file : list Z) : option (list Z * list Z) :=
  match file with [] => None | _ => Some (take_line (Z.to_nat (n - 1)) file) end.

(** fgets into a buffer: bytes behind the new NUL keep their old content. *)
Definition fgets_buf (buf file : list Z) : option (list Z * list Z) :=
  match fgets (zlen buf) file with
  | None => None
  | Some (line, rest) => Some (line ++ 0 :: skipn (length line + 1) buf, rest)
  end.
