(** What a queue file means: a list of images with their status. *)
From Verif Require Import Base CStr L2qModel.
#[local] Open Scope Z_scope.

Definition entry := (text * text)%type.
(** Path, one blank, status. *)
Definition line (e : entry) : text := fst e ++ 32 :: snd e.
(** No white space: neither blank, tab nor carriage return. *)
Definition word (t : text) : Prop := t <> [] /\ ~ In 32 t /\ ~ In 9 t /\ ~ In 13 t.
(** Codes of the characters of regular expressions other than the dot, and the plus. *)
Definition magic : list Z := [92; 91; 93; 40; 41; 42; 63; 123; 125; 124; 94; 36; 43].
Definition absolute (p : text) : Prop := exists t, p = 47 :: t.
Definition path (p : text) : Prop := word p /\ absolute p /\ forall c, In c p -> ~ In c magic.
(** [w] occurs in [t]. *)
Definition occurs (w t : text) : Prop := exists a b, t = a ++ w ++ b.
(** [t] reads like [p], where a dot in [p] stands for any character. *)
Definition resembles (p t : text) : Prop := Forall2 (fun a b => a = 46 \/ a = b) p t.
(** No path reads like the end of another one. *)
Definition apart (ps : list text) : Prop := forall p q a b, In p ps -> In q ps -> q = a ++ b -> resembles p b -> p = q.

(** The meaning of recording a status and of adding an image. *)
Definition set_status (p st : text) (es : list entry) : list entry :=
  map (fun e => if list_eq_dec Z.eq_dec (fst e) p then (p, st) else e) es.

(** Entries of a queue. *)
Definition good (U : list text) (es : list entry) : Prop := Forall (fun e => In (fst e) U /\ word (snd e)) es.

Definition waits (e : entry) : bool := if list_eq_dec Z.eq_dec (snd e) QUEUED then true else false.
(** QUEUED is no part of a path, and of no status but itself. *)
Definition unambiguous (e : entry) : Prop := ~ occurs QUEUED (fst e) /\ (occurs QUEUED (snd e) -> snd e = QUEUED).

Definition blank (t : text) : Prop := Forall (fun c => c = 32 \/ c = 9) t.

(** Meaning of a history without cleaning. *)
Fixpoint meaning (w : world) (tmp : text) (es : list entry) (evs : list event) : list entry :=
  match evs with
  | [] => es
  | Finished img :: t => meaning w tmp (match process w tmp img with Some st => set_status img st es | None => es end) t
  | Enqueued p :: t => meaning w tmp (es ++ [(p, QUEUED)]) t
  | _ :: t => meaning w tmp es t
  end.
Definition concerns (U : list text) (e : event) : Prop :=
  match e with Finished p | Enqueued p => In p U | _ => False end.

