(** Specification of tile selection. *)
From Verif Require Import Base CStr TileModel.
From Coq Require Import Sorting.Sorted.

(** Tile names as FORCE writes and documents them: X0003_Y-012. *)
Definition tile_name (t : Z * Z) : list Z :=
  `"X" ++ print_0d 4 (fst t) ++ `"_Y" ++ print_0d 4 (snd t).

(** Four characters suffice for these. *)
Definition tile_id_ok (t : Z * Z) : Prop := -999 <= fst t <= 9999 /\ -999 <= snd t <= 9999.

(** A tile allow-list file: number of tiles, then one name per line. *)
Definition list_file (ts : list (Z * Z)) (rest : list Z) : list Z :=
  print_d (zlen ts) ++ 10 :: concat (map (fun t => tile_name t ++ [10]) ts) ++ rest.

(** Row-major order: by y, then by x. *)
Definition before (a b : Z * Z) : Prop := snd a < snd b \/ (snd a = snd b /\ fst a < fst b).

Definition in_extent (e : extent) (t : Z * Z) : Prop :=
  xmin e <= fst t <= xmax e /\ ymin e <= snd t <= ymax e.

(** The tiles to process: [l] is THE list of tiles in the extent that are on the
    list (all, if the list is empty) in row-major order without repetition. *)
Definition is_selection (e : extent) (allow : list (Z * Z)) (l : list (Z * Z)) : Prop :=
  StronglySorted before l /\
  forall t, In t l <-> in_extent e t /\ (allow = [] \/ In t allow).

Definition extent_ok (e : extent) : Prop :=
  -2147483648 <= xmin e /\ xmin e <= xmax e + 1 /\ xmax e < 2147483647 /\
  -2147483648 <= ymin e /\ ymin e <= ymax e + 1 /\ ymax e < 2147483647 /\
  xmax e - xmin e + 1 <= 2147483647 /\ ymax e - ymin e + 1 <= 2147483647 /\
  (xmax e - xmin e + 1) * (ymax e - ymin e + 1) <= 2147483647.
