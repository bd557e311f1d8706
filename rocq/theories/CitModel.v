(** Citations: model of src/modules/cross-level/cite-cl.c, cite_crc8 (403-415), cite_me (422-434), cite_push (440-504).
    [A] are the entries of the file, a description and a reference.  The directory is a function from names of files to the entries in them.
    One process writes at a time; the lock is free and files can be written; the constant head of the file is left out. *)
From Verif Require Import Base CStr.

(** 410. *)
Definition crc_bit (c : Z) : Z := if Z.odd c then Z.lxor (Z.shiftr c 1) 178 else Z.shiftr c 1.
(** 409-410: one turn of the outer loop. *)
Definition crc_turn (c : Z) (cited : bool) : Z := Nat.iter 8 crc_bit (Z.lxor c (if cited then 1 else 0)).
Definition cite_crc8 (cited : list bool) : Z := Z.lxor (fold_left crc_turn cited 255) 255.
(** 422-434. *)
Definition cite_me (i : Z) (cited : list bool) : list bool := if (i <? 0) || (zlen cited <=? i) then cited else list_set cited (Z.to_nat i) true.
(** %#02x of a number below 256: 0x is put before, but not before 0. *)
Definition digit (d : Z) : Z := if d <? 10 then 48 + d else 87 + d.
Definition hex (c : Z) : list Z := if c =? 0 then [48; 48] else [48; 120] ++ (if c <? 16 then [digit c] else [digit (c / 16); digit (c mod 16)]).
(** 452. *)
Definition file_name (cited : list bool) : list Z := `"CITEME_" ++ hex (cite_crc8 cited) ++ `".txt".
(** 440-504. *)
Definition same_name (a b : list Z) : bool := if list_eq_dec Z.eq_dec a b then true else false.
Definition cite_push {A} (table : list A) (cited : list bool) (dir : list Z -> option (list A)) : list Z -> option (list A) :=
  match dir (file_name cited) with
  | Some _ => dir
  | None => fun f => if same_name f (file_name cited) then Some (map fst (filter snd (combine table cited))) else dir f
  end.
