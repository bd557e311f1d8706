(** What is read for a chunk. *)
From Verif Require Import Base QaiModel ReadModel.

(** All files that are needed can be read. *)
Definition readable (w : want) (f : files) : Prop :=
  (w_ref w = true -> f_main f <> None) /\ (w_qai w = true -> w_quality w = true -> f_qual f <> None) /\ (w_aux w = true -> ~ In None (f_aux f)).
(** Every band has a value for every pixel of the chunk. *)
Definition regular (nc : Z) (f : files) : Prop := forall d, f_main f = Some d -> Forall (fun band => zlen band = nc) d.
(** The quality [q] flags exactly the pixels that lack one of the bands, and nothing else. *)
Definition flags_missing (nc nodata : Z) (bands : list (list Z)) (q : list Z) : Prop :=
  zlen q = nc /\ forall p v, get_at q p = Some v ->
    (get_flag Off v = 1 <-> exists band, In band bands /\ get_at band p = Some nodata) /\ forall f, f <> Off -> get_flag f v = 0.
(** The entry [e] holds what the files [f] hold. *)
Definition image_of (nc : Z) (w : want) (f : files) (e : entry) : Prop :=
  e_dat e = (if w_ref w then f_main f else None) /\
  (if w_qai w then (if w_quality w then e_qai e = f_qual f else exists d q, f_main f = Some d /\ e_qai e = Some q /\ flags_missing nc (-9999) d q) else e_qai e = None) /\
  (if w_aux w then exists a, e_aux e = Some a /\ map Some a = f_aux f else e_aux e = None).
(** The parameters ask for something that exists: auxiliary products come with images, a missing quality product is made from them. *)
Definition sensible (w : want) : Prop := (w_aux w = true -> w_ref w = true) /\ (w_qai w = true -> w_quality w = true \/ w_ref w = true).
(** The products that a module needs (param-hl.c:1015-1025). *)
Definition wanted (m : hl_module) (quality aux : bool) : want := mkWant (match m with CSO => false | _ => true end) true quality aux.
