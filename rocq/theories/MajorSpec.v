From Verif Require Import Base Loops ImgSpec.
#[local] Open Scope Z_scope.

(** Number of TRUE pixels among the eight neighbours of (i, j): sum over the
    3 x 3 window without its centre; pixels outside of the image count as FALSE. *)
Definition truth (img : list bool) (nx ny i j : Z) : Z :=
  if (0 <=? i) && (i <? ny) && (0 <=? j) && (j <? nx) then match pix img nx i j with Some true => 1 | _ => 0 end else 0.
Definition around (img : list bool) (nx ny i j : Z) : Z :=
  let t := truth img nx ny in
  t (i - 1) (j - 1) + t (i - 1) j + t (i - 1) (j + 1) + t i (j - 1) + t i (j + 1) + t (i + 1) (j - 1) + t (i + 1) j + t (i + 1) (j + 1).
