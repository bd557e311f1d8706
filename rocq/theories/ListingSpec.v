(** Which files of a tile are asked for. *)
From Verif Require Import Base CStr DateSpec DateTextSpec ListingModel.

(** A name in a directory. *)
Definition entry (n : list Z) : Prop := n <> [] /\ zlen n <= 255 /\ ~ In 47 n.

Definition contains (word text : list Z) : Prop := exists a b, text = a ++ word ++ b.

(** Image of the product from one of the sensors; the extension starts at the first dot. *)
Definition candidate (rq : request) (n : list Z) : Prop :=
  (exists stem ext, n = stem ++ ext /\ ~ In 46 stem /\ In ext [`".dat"; `".bsq"; `".bil"; `".tif"; `".vrt"]) /\
  contains (rq_product rq) n /\ exists s, In s (rq_sensors rq) /\ contains s n.

(** The name starts with a date. *)
Definition dated (n : list Z) (y m d : Z) : Prop :=
  1900 <= y <= 2099 /\ valid_md m d /\ exists rest, n = yyyymmdd y m d ++ rest /\ ends_word rest.

(** Within the time span and the season, Landsat 7 not after its last date. *)
Definition in_time (rq : request) (n : list Z) : Prop := exists y m d, dated n y m d /\
  rq_min rq <= 365 * y + spec_doy m d <= rq_max rq /\
  (exists v, get_at (rq_days rq) (spec_doy m d) = Some v /\ v <> 0) /\
  ~ (contains (`"LND07") n /\ rq_ignore7 rq < 365 * y + spec_doy m d).

(** Byte order of names. *)
Fixpoint name_le (a b : list Z) : Prop :=
  match a, b with
  | [], _ => True
  | _ :: _, [] => False
  | x :: a, y :: b => x < y \/ x = y /\ name_le a b
  end.
