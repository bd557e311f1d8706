(** Specification of the processing loop. *)
From Verif Require Import Base ProgressModel.

(** Steps of a trace that concern one unit, in order. *)
Definition of_unit (pu : Z) (t : list (Z * step)) : list step :=
  map snd (filter (fun e => fst e =? pu) t).

(** Steps of one stage, in order. *)
Definition is_out (s : step) : bool := match s with OutWrite | OutFree => true | _ => false end.
Definition is_comp (s : step) : bool := match s with CompReset | CompRun | CompFree => true | _ => false end.
Definition is_read (s : step) : bool := match s with ReadReset | ReadLoad => true | _ => false end.
Definition of_stage (st : step -> bool) (t : list (Z * step)) : list (Z * step) :=
  filter (fun e => st (snd e)) t.

(** Sum of the bytes of all units. *)
Definition sum_bytes (l : list Z) : Z := fold_right Z.add 0 l.

(** Per unit: None = the stage broke off before it reported, Some b = it reported
    b bytes. *)
Definition byte_count (o : option Z) : Prop := match o with Some b => 0 <= b | None => True end.
Definition no_bytes (o : option Z) : Prop := match o with Some b => b = 0 | None => True end.

(** A layout as produced by chunk_layout. *)
Definition layout_ok (ch : chunks) : Prop :=
  1 <= c_cols ch /\ 1 <= c_rows ch /\ c_cells ch = c_cols ch * c_rows ch.

(** The three counters follow each other at distance one. *)
Definition staggered (u : units) : Prop := u_now u = u_next u - 1 /\ u_last u = u_next u - 2.
