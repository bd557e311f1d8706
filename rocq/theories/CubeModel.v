(** Model of tile_find and tile_align in src/modules/cross-level/cube-cl.c.
    Coordinates are exact: integers counting a common (arbitrarily small) unit.
    Doubles are such multiples; what is simplified is that the repeated additions
    are exact.  The tile counters are unbounded.  Loops take fuel; None means the
    fuel ran out (the theorems exclude it). *)
From Verif Require Import Base.

(** while (x > t){ t += s; p++; }  : cube-cl.c:446-449. *)
Fixpoint up_while (fuel : nat) (x t s p : Z) : option (Z * Z) :=
  if x >? t then
    match fuel with O => None | S f => up_while f x (t + s) s (p + 1) end
  else Some (t, p).

(** while (x < t){ t -= s; p--; }  : cube-cl.c:458-461. *)
Fixpoint down_while (fuel : nat) (x t s p : Z) : option (Z * Z) :=
  if x <? t then
    match fuel with O => None | S f => down_while f x (t - s) s (p - 1) end
  else Some (t, p).

Definition fuel_for (x t : Z) : nat := Z.to_nat (Z.abs (x - t)).

(** x part of tile_find: cube-cl.c:443-462. *)
Definition find_x (x origin s : Z) : option (Z * Z) :=
  if x >? origin then
    match up_while (fuel_for x origin) x origin s 0 with
    | Some (t, p) => Some (t - s, p - 1)
    | None => None
    end
  else if x <? origin then down_while (fuel_for x origin) x origin s 0
  else Some (origin, 0).

(** y part of tile_find: cube-cl.c:466-485; rows are counted downwards. *)
Fixpoint y_down (fuel : nat) (y t s p : Z) : option (Z * Z) :=
  if y <? t then
    match fuel with O => None | S f => y_down f y (t - s) s (p + 1) end
  else Some (t, p).
Fixpoint y_up (fuel : nat) (y t s p : Z) : option (Z * Z) :=
  if y >? t then
    match fuel with O => None | S f => y_up f y (t + s) s (p - 1) end
  else Some (t, p).
Definition find_y (y origin s : Z) : option (Z * Z) :=
  if y <? origin then
    match y_down (fuel_for y origin) y origin s 0 with
    | Some (t, p) => Some (t + s, p - 1)
    | None => None
    end
  else if y >? origin then y_up (fuel_for y origin) y origin s 0
  else Some (origin, 0).

Record cube := mkCube { ox : Z; oy : Z; size_x : Z; size_y : Z; res : Z }.

Record found := mkFound { tile_x : Z; tile_y : Z; id_x : Z; id_y : Z }.

(** tile_find: cube-cl.c:438-498. *)
Definition tile_find (c : cube) (x y : Z) : option found :=
  match find_x x (ox c) (size_x c), find_y y (oy c) (size_y c) with
  | Some (tx, px), Some (ty, py) => Some (mkFound tx ty px py)
  | _, _ => None
  end.

(** while (t < u) t += r;  and  while (t > u) t -= r; : cube-cl.c:522, 528. *)
Fixpoint step_right (fuel : nat) (t u r : Z) : option Z :=
  if t <? u then match fuel with O => None | S f => step_right f (t + r) u r end else Some t.
Fixpoint step_down (fuel : nat) (t u r : Z) : option Z :=
  if t >? u then match fuel with O => None | S f => step_down f (t - r) u r end else Some t.

(** tile_align: cube-cl.c:512-533. *)
Definition tile_align (c : cube) (ulx uly : Z) : option (Z * Z) :=
  match tile_find c ulx uly with
  | None => None
  | Some f =>
    match step_right (fuel_for ulx (tile_x f)) (tile_x f) ulx (res c),
          step_down (fuel_for uly (tile_y f)) (tile_y f) uly (res c) with
    | Some tx, Some ty => Some (tx - res c, ty + res c)
    | _, _ => None
    end
  end.
