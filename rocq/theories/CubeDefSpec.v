(** Datacube definitions that survive the text format. *)
From Verif Require Import Base Float DecSpec CubeDefModel.

Definition numbers_ok (c : cdef) : Prop :=
  six_decimals (cd_geo_x c) /\ six_decimals (cd_geo_y c) /\ six_decimals (cd_map_x c) /\ six_decimals (cd_map_y c) /\
  six_decimals (cd_size_x c) /\ six_decimals (cd_size_y c).

(** One line of text: no line end. *)
Definition one_line (l : list Z) : Prop := ~ In 10 l /\ ~ In 13 l.
(** One word: additionally no blank (32) and no equal sign (61). *)
Definition one_word (l : list Z) : Prop := one_line l /\ ~ In 32 l /\ ~ In 61 l /\ l <> [].

(** The first word of a text (in the sense of the tag/value syntax). *)
Definition first_word (l w : list Z) : Prop :=
  one_word w /\ exists rest, l = w ++ rest /\ (rest = [] \/ exists c r, rest = c :: r /\ (c = 32 \/ c = 61)).
