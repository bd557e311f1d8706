(** What the split of samples and the class weights should be. *)
From Coq Require Import Reals.
From Verif Require Import Base.

(** The samples are those of [a] and those of [b], each once, and each of the two in the order of the samples. *)
Inductive interleaved {A} : list A -> list A -> list A -> Prop :=
  | il_nil : interleaved [] [] []
  | il_left x a b l : interleaved a b l -> interleaved (x :: a) b (x :: l)
  | il_right x a b l : interleaved a b l -> interleaved a (x :: b) (x :: l).
(** Every sample is drawn in this part of the random numbers. *)
Definition covers (nrow : Z) (rs : list Z) : Prop := forall s, 0 <= s < nrow -> exists r, In r rs /\ r mod nrow = s.
(** How often a class occurs. *)
Definition often (v : Z) (l : list Z) : R := IZR (Z.of_nat (count_occ Z.eq_dec l v)).
Definition total (l : list R) : R := fold_right Rplus 0%R l.
