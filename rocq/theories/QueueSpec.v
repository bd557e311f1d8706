(** Specification of the coordinate queue: a plain list, oldest element first,
    with a capacity.  Independent of QueueModel except for the operation and
    answer vocabulary. *)
From Verif Require Import Base QueueModel.

(** A bounded FIFO; [st] is what happens to a pair when it is put in
    (identity for the ideal queue). *)
Definition fifo_step (st : Z * Z -> Z * Z) (cap : Z) (l : list (Z * Z)) (o : qop)
  : qans * list (Z * Z) :=
  match o with
  | Enq x y => if zlen l <? cap then (AEnq SUCCESS, l ++ [st (x, y)])
               else (AEnq FAILURE, l)
  | Deq => match l with
           | [] => (ADeq FAILURE None, [])
           | p :: t => (ADeq SUCCESS (Some p), t)
           end
  end.

Fixpoint fifo_run (st : Z * Z -> Z * Z) (cap : Z) (l : list (Z * Z)) (ops : list qop)
  : list qans * list (Z * Z) :=
  match ops with
  | [] => ([], l)
  | o :: ops' => let r := fifo_step st cap l o in
                 let rest := fifo_run st cap (snd r) ops' in
                 (fst r :: fst rest, snd rest)
  end.

(** The ideal queue stores pairs unchanged; the 16-bit one truncates. *)
Definition exact (p : Z * Z) : Z * Z := p.
Definition short_pair (p : Z * Z) : Z * Z := (to_short (fst p), to_short (snd p)).

(** All coordinates put into the queue fit in a short. *)
Definition op_in_short (o : qop) : Prop :=
  match o with Enq x y => in_short x /\ in_short y | Deq => True end.

(** Pairs accepted minus pairs delivered, as seen from the answers. *)
Fixpoint balance (ans : list qans) : Z :=
  match ans with
  | [] => 0
  | AEnq SUCCESS :: t => balance t + 1
  | ADeq SUCCESS _ :: t => balance t - 1
  | _ :: t => balance t
  end.
