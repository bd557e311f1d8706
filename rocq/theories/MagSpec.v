(** What the files should be that are made from magic parameters. *)
From Verif Require Import Base CStr MagModel.

(** The file if each key has the value that [value] gives; other braces stay. *)
Definition filled (value : text -> option text) (body : list piece) : text :=
  concat (map (fun p => match p with Lit t => t | Hole k => match value k with Some v => v | None => `"{%" ++ k ++ `"%}" end end) body).
(** [value] chooses one of the values for each key, and nothing else. *)
Definition chosen (vs : vectors) (value : text -> option text) : Prop :=
  (forall k l, In (k, l) vs -> exists v, In v l /\ value k = Some v) /\ (forall k, ~ In k (map fst vs) -> value k = None).
(** [value] gives the i-th value to each key. *)
Definition ith (i : nat) (vs : vectors) (value : text -> option text) : Prop :=
  (forall k l, In (k, l) vs -> exists v, nth_error l i = Some v /\ value k = Some v) /\ (forall k, ~ In k (map fst vs) -> value k = None).
Definition product (l : list nat) : nat := fold_right Nat.mul 1%nat l.
