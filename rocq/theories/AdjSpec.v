(** What is asked of the spectral adjustment. *)
From Coq Require Import Reals.
From Flocq Require Import Core.
From Verif Require Import Base RoundModel AdjModel.
#[local] Open Scope R_scope.

(** Cosine of the angle between two spectra. *)
Definition cosine (x y : list Z) : R := IZR (sum_prod x y) / (sqrt (IZR (sum_prod x x)) * sqrt (IZR (sum_prod y y))).
(** Angles of 4 and 12 degrees as the code has them. *)
Definition deg4 : R := rnd64 (698132 / 10000000).
Definition deg12 : R := rnd64 (2094395 / 10000000).
(** A cluster that may be used: [a] its angle, [g] the angle of the global cluster. *)
Definition similar (a g : R) : Prop := a < deg4 \/ (a < deg12 /\ a < g).

(** Weights of the clusters used, and the value predicted from cluster [s] for band [b]. *)
Definition linear (c : nat -> R) (x : list Z) : R :=
  fold_right Rplus (c (length x)) (map (fun i => c i * IZR (nth i x 0%Z)) (seq 0 (length x))).
Fixpoint total (l : list (R * R)) : R := match l with [] => 0 | (w, v) :: l => w * v + total l end.
(** Weighted mean. *)
Definition mean (l : list (R * R)) : R := total l / total (map (fun p => (fst p, 1)) l).
(** Whole part that fits into 16 bits. *)
Definition cut16 (r : R) (v : Z) : Prop := v = Ztrunc r /\ (-32768 <= v <= 32767)%Z.

(** The choice of the clusters, [w] the weights of all (the last one the global one). *)
Definition nth_weight (w : list R) (s : nat) : R := nth s w 0.
Record chosen (n : nat) (w : list R) (ok : nat -> Prop) (u : list (nat * R)) : Prop := {
  ch_distinct : NoDup (map fst u);
  ch_number : (length u <= n)%nat;
  ch_weight : forall s x, In (s, x) u -> (s <= 50)%nat /\ x = nth_weight w s;
  ch_ok : forall s, In s (map fst u) -> (s < 50)%nat -> ok s;
  ch_best : forall s, (s < 50)%nat -> ok s -> In s (map fst u) \/
              (length u = n /\ ~ In 50%nat (map fst u) /\ forall t, In t (map fst u) -> nth_weight w s <= nth_weight w t);
  ch_global : In 50%nat (map fst u) <-> exists l, NoDup l /\ (forall s, In s l <-> (s < 50)%nat /\ ok s) /\ (length l < n)%nat
}.

(** Six values of 16 bits, and a table of cluster centres. *)
Definition spectrum (x : list Z) : Prop := (length x <= 6)%nat /\ Forall (fun v => -32768 <= v <= 32767)%Z x.
Definition table6 (table : list (list Z)) : Prop := (length table <= 6)%nat /\ Forall (Forall (fun v => -32768 <= v <= 32767)%Z) table.
(** Angle between a pixel and the centre of a cluster as computed, and the weights. *)
Definition angle_of (table : list (list Z)) (x : list Z) (s : nat) : R := match angle x (center table s) with Some a => a | None => 0 end.
Definition all_weights (table : list (list Z)) (x : list Z) : list R := map (fun s => weight (angle_of table x s)) (seq 0 51).
(** What the clusters used say for a band, with their weights. *)
Definition votes (coef : nat -> nat -> nat -> R) (x : list Z) (b : nat) (u : list (nat * R)) : list (R * R) :=
  map (fun p => (snd p, linear (fun k => coef b k (fst p)) x)) u.
(** The first band with a domain. *)
Definition first_band (domains : list (list Z)) (d : list Z) (b : Z) : Prop := get_at domains b = Some d /\ forall j, (0 <= j < b)%Z -> get_at domains j <> Some d.
