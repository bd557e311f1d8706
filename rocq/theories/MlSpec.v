(** Specification of machine learning predictions. *)
From Coq Require Import Reals Sorting.Permutation.
From Verif Require Import Base StatsSpec ModeSpec.
#[local] Open Scope Z_scope.

(** The s-th of consecutive blocks of given sizes. *)
Definition start (sizes : list Z) (s : nat) : Z := zsum (firstn s sizes).
Definition block {A} (sizes : list Z) (flat : list A) (s : nat) : list A :=
  firstn (Z.to_nat (nth s sizes 0)) (skipn (Z.to_nat (start sizes s)) flat).

(** The number of predictions used: at least three, until the mean changes by less than [conv]; else all. *)
Definition mean_of (l : list R) (n : nat) : R := mean (firstn n l).
Definition change (l : list R) (n : nat) : R := Rabs (mean_of l n - mean_of l (n - 1)).
Definition stops (conv : R) (l : list R) (n : nat) : Prop :=
  (n <= length l)%nat /\
  (forall i, (3 <= i < n)%nat -> (conv <= change l i)%R) /\
  ((n < length l)%nat -> (3 <= n)%nat /\ (change l n < conv)%R).
(** Sample standard deviation. *)
Definition sample_sd (l : list R) : R := sqrt (dev 2 l / (size l - 1)).
(** The range of 16-bit integers. *)
Definition to_range (x : R) : R := Rmax (-32768) (Rmin 32767 x).

(** A most frequent value. *)
Definition most_frequent (v : Z) (l : list Z) : Prop := In v l /\ forall w, (count w l <= count v l)%nat.
(** A label with most votes. *)
Definition most_votes (v : Z) (votes : list (Z * Z)) : Prop := exists n, In (v, n) votes /\ forall w k, In (w, k) votes -> k <= n.

(** The largest and the second largest element. *)
Definition two_largest (l : list R) (a b : R) : Prop := exists l2, Permutation l (a :: b :: l2) /\ (b <= a)%R /\ Forall (fun x => x <= b)%R l2.
