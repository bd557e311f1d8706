(** Textbook definitions of the statistics. *)
From Coq Require Import Reals List.
Import ListNotations.
Open Scope R_scope.

Fixpoint sum {A} (f : A -> R) (l : list A) : R :=
  match l with [] => 0 | x :: t => f x + sum f t end.
Definition size {A} (l : list A) : R := INR (length l).
Definition mean (l : list R) : R := sum (fun x => x) l / size l.

(** Sum of the k-th powers of the deviations from the mean. *)
Definition dev (k : nat) (l : list R) : R := sum (fun x => (x - mean l) ^ k) l.
(** Sum of the products of deviations. *)
Definition codev (l : list (R * R)) : R :=
  sum (fun p => (fst p - mean (map fst l)) * (snd p - mean (map snd l))) l.

(** Population standard deviation. *)
Definition pop_sd (l : list R) : R := sqrt (dev 2 l / size l).

(** Sum of squared residuals of the line with slope b and offset a. *)
Definition ssr (a b : R) (l : list (R * R)) : R :=
  sum (fun p => (snd p - (a + b * fst p)) ^ 2) l.
