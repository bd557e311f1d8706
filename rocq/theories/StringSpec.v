(** Specification of string operations. *)
From Verif Require Import Base CStr StringModel.

(** A buffer holds string [s]: the characters of s followed by a NUL. *)
Definition holds (buf s : list Z) : Prop := exists rest, buf = s ++ 0 :: rest.

(** [search] occurs at offset i of [l]. *)
Definition occurs_at (search l : list Z) (i : nat) : Prop :=
  exists pre post, l = pre ++ search ++ post /\ length pre = i.
Definition first_at (search l : list Z) (i : nat) : Prop :=
  occurs_at search l i /\ forall j, (j < i)%nat -> ~ occurs_at search l j.

(** Latest string written to position p, [] if none. *)
Fixpoint last_written (ops : list (nat * list Z)) (p : nat) : list Z :=
  match ops with
  | [] => []
  | (q, s) :: rest => if existsb (fun o => (fst o =? p)%nat) rest then last_written rest p
                      else if (q =? p)%nat then s else []
  end.

(** Source strings contain no NUL. *)
Definition chars_ok (s : list Z) : Prop := Forall (fun c => c <> 0) s.

(** Position p is written by some call. *)
Definition pos_in (ops : list (nat * list Z)) (p : nat) : Prop := exists s, In (p, s) ops.

(** The string a reader finds at position p. *)
Definition string_at (v : svec) (p : nat) : option (list Z) :=
  match nth_error (sv_rows v) p with Some row => cstr_of row | None => None end.
