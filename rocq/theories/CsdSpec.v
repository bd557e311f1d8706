(** What the download of images should do. *)
From Verif Require Import Base CsdModel.
From Coq Require Import Sorting.Sorted.

(** The scene satisfies the query. *)
Definition satisfies (q : query) (s : scene) : Prop := q_listed q s = true /\ q_from q <= c_date s <= q_to q /\ q_clow q <= c_cloud s <= q_chigh q.
(** For each scene of the catalogue that satisfies the query there is exactly one chosen scene of the same kind ([same]), in the newest version; nothing else is chosen; by date. *)
Definition chooses (same : scene -> scene -> Prop) (q : query) (catalogue chosen : list scene) : Prop :=
  (forall s, In s chosen -> In s catalogue /\ satisfies q s) /\
  (forall s, In s catalogue -> satisfies q s -> exists t, In t chosen /\ same s t /\ c_version s <= c_version t) /\
  (forall l1 s l2 t l3, chosen = l1 ++ s :: l2 ++ t :: l3 -> ~ same s t) /\
  Sorted (fun a b => c_date a <= c_date b) chosen.
Definition same_tile_and_day (s t : scene) : Prop := c_tile s = c_tile t /\ c_date s = c_date t.
Definition same_row_and_day (s t : scene) : Prop := c_tile s = c_tile t /\ c_row s = c_row t /\ c_date s = c_date t.

(** The scenes that are not in the pool yet. *)
Definition missing (links : list Z) (p : state) : list Z := filter (fun s => negb (present p s)) links.
(** A run stops while a file is transferred, after a scene was queued, or before anything happened. *)
Definition harmless (os : list op) : Prop := os = [] \/ exists pre s, os = pre ++ [Begin_file s] \/ os = pre ++ [Queue s].
