(** Suggested extent: model of bash/force-tile-extent.sh:152-183 with is_lt and is_gt of misc/force-bash-library.sh:124-134.
    Tiles are pairs of numbers from -999 to 9999, as they are cut out of the names of the directories (four characters each).  How force-cube makes them is left out. *)
From Verif Require Import Base.

(** 163-164: sed 's/^0*//'.  Leading zeros are taken away, of 0000 nothing is left: [None]. *)
Definition stripped (z : Z) : option Z := if z =? 0 then None else Some z.
(** awk compares the numbers, but texts if one of them is empty; the empty text is before all others. *)
Definition is_lt (a b : option Z) : bool :=
  match a, b with
  | Some x, Some y => x <? y
  | None, Some _ => true
  | _, None => false
  end.
Definition is_gt (a b : option Z) : bool := is_lt b a.
(** 166-169, for one of the coordinates: minimum and maximum so far. *)
Definition extend (r : option Z * option Z) (z : Z) : option Z * option Z :=
  let x := stripped z in
  let xmax := if is_gt x (snd r) then x else snd r in
  let xmin := if is_lt x (fst r) then x else fst r in
  (xmin, xmax).
(** 153-171. *)
Definition range (zs : list Z) : option Z * option Z := fold_left extend zs (Some 9999, Some (-999)).
(** 173-183: the allow-list, a number and the tiles, and the suggested ranges. *)
Definition tile_extent (tiles : list (Z * Z)) : (Z * list (Z * Z)) * (option Z * option Z) * (option Z * option Z) :=
  ((zlen tiles, tiles), range (map fst tiles), range (map snd tiles)).
