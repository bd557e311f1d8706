(** The parts of a path, independently of the functions that compute them. *)
From Verif Require Import Base.

(** A single component: no slash (47). *)
Definition component (b : list Z) : Prop := ~ In 47 b.

(** base is the last component of path in front of its trailing slashes. *)
Definition last_component (path base : list Z) : Prop :=
  component base /\ base <> [] /\
  exists front trailing, path = front ++ base ++ repeat 47 trailing /\
    (front = [] \/ exists f, front = f ++ [47]).

(** base splits at its first / last dot (46) into stem and ext. *)
Definition first_dot_split (base stem ext : list Z) : Prop :=
  base = stem ++ ext /\ ~ In 46 stem /\ (ext = [] \/ exists e, ext = 46 :: e).
Definition last_dot_split (base stem ext : list Z) : Prop :=
  base = stem ++ ext /\ ((ext = [] /\ ~ In 46 base) \/ exists e, ext = 46 :: e /\ ~ In 46 e).
