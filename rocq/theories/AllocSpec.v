(** Specification of array resizing. *)
From Verif Require Import Base.

Section Spec.
Context {A : Type} (zero : A).

Definition shape2 (a : list (list A)) (n1 n2 : nat) : Prop :=
  length a = n1 /\ forall i r, nth_error a i = Some r -> length r = n2.
Definition shape3 (a : list (list (list A))) (n1 n2 n3 : nat) : Prop :=
  length a = n1 /\ forall i r, nth_error a i = Some r -> shape2 r n2 n3.

Definition cell1 (a : list A) (i : nat) : A := nth i a zero.
Definition cell2 (a : list (list A)) (i j : nat) : A := nth j (nth i a []) zero.
Definition cell3 (a : list (list (list A))) (i j k : nat) : A := nth k (nth j (nth i a []) []) zero.

(** Old cells stay where they are, all others are zero. *)
Definition resized1 (a : list A) (o n : nat) (a' : list A) : Prop :=
  length a' = n /\ forall i, (i < n)%nat ->
    cell1 a' i = if (i <? o)%nat then cell1 a i else zero.
Definition resized2 (a : list (list A)) (o1 o2 n1 n2 : nat) (a' : list (list A)) : Prop :=
  shape2 a' n1 n2 /\ forall i j, (i < n1)%nat -> (j < n2)%nat ->
    cell2 a' i j = if (i <? o1)%nat && (j <? o2)%nat then cell2 a i j else zero.
Definition resized3 (a : list (list (list A))) (o1 o2 o3 n1 n2 n3 : nat)
    (a' : list (list (list A))) : Prop :=
  shape3 a' n1 n2 n3 /\ forall i j k, (i < n1)%nat -> (j < n2)%nat -> (k < n3)%nat ->
    cell3 a' i j k = if (i <? o1)%nat && (j <? o2)%nat && (k <? o3)%nat
                     then cell3 a i j k else zero.
End Spec.
