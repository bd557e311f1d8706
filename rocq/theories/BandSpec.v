(** What band selection is meant to do, independently of how it is done. *)
From Verif Require Import Base CStr BandModel.

(** A well-formed sensor set: every array has the announced size, names fit
    their buffers. *)
Definition sen_ok (s : sen) : Prop :=
  zlen (sn_names s) = sn_bands s /\
  zlen (sn_number s) = sn_n s /\
  Forall (fun row => zlen row = sn_bands s) (sn_number s) /\
  Forall (fun nm => zlen nm < 1024) (sn_names s).

(** The bands an index needs: the band of that name if there is one; else all
    bands for spectral mixture analysis; else what the definition lists. *)
Inductive needs (defs : list Z -> option (list (list Z))) (names : list (list Z))
  : list Z -> list Z -> Prop :=
| needs_band i : In i names -> needs defs names i i
| needs_sma m : ~ In (lit "SMA") names -> In m names -> needs defs names (lit "SMA") m
| needs_def i l m : ~ In i names -> i <> lit "SMA" -> defs i = Some l -> In m l ->
    needs defs names i m.

(** An index can be served: it is defined, and all it needs is there. *)
Definition served (defs : list Z -> option (list (list Z))) (names : list (list Z)) (i : list Z) : Prop :=
  (In i names \/ i = lit "SMA" \/ defs i <> None) /\
  forall m, needs defs names i m -> In m names.

(** Band number of sensor k at band position b. *)
Definition number_at (s : sen) (k b : Z) : option Z :=
  match get_at (sn_number s) k with Some row => get_at row b | None => None end.

(** s' consists of the bands of s at the positions pos, in this order. *)
Definition taken (s s' : sen) (pos : list Z) : Prop :=
  sn_n s' = sn_n s /\ sn_bands s' = zlen pos /\ zlen (sn_names s') = zlen pos /\
  zlen (sn_number s') = sn_n s /\
  forall j b, get_at pos j = Some b ->
    get_at (sn_names s') j = get_at (sn_names s) b /\
    forall k, 0 <= k < sn_n s -> number_at s' k j = number_at s k b /\ number_at s k b <> None.
