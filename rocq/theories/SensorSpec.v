(** Bands common to all sensors. *)
From Verif Require Import Base SensorModel.

(** [l] consists of the elements of [whole] that satisfy [P], in their order. *)
Inductive selected {A} (P : A -> Prop) : list A -> list A -> Prop :=
| sel_nil : selected P [] []
| sel_take a whole l : P a -> selected P whole l -> selected P (a :: whole) (a :: l)
| sel_skip a whole l : ~ P a -> selected P whole l -> selected P (a :: whole) l.

(** Band number [n], from 1, of a sensor is the first that is called [b]; 0: it has none. *)
Definition number_of (sensor : list (list Z)) (b : list Z) (n : Z) : Prop :=
  (n = 0 /\ ~ In b sensor) \/ (get_at sensor (n - 1) = Some b /\ forall k, k < n - 1 -> get_at sensor k <> Some b).

(** The target sensor has as many bands as [bands] and each of [bands]. *)
Definition suits (defs : definitions) (target : list Z) (bands : list (list Z)) : Prop :=
  exists tb, defs target = Some tb /\ zlen tb = zlen bands /\ forall b, In b bands -> In b tb.
