From Verif Require Import Base ImgSpec.
#[local] Open Scope Z_scope.

(** Two TRUE pixels are joined by a chain of 8-adjacent TRUE pixels. *)
Inductive connected (img : list bool) (nx ny : Z) : Z -> Z -> Z -> Z -> Prop :=
| conn_refl y x : is_true img nx ny y x -> connected img nx ny y x y x
| conn_step y x y1 x1 y2 x2 : connected img nx ny y x y1 x1 -> adjacent y1 x1 y2 x2 -> is_true img nx ny y2 x2 -> connected img nx ny y x y2 x2.

(** Running is never undefined; if it ends normally, [P] holds of the result.
    ([Exit]: the bound on the number of contour steps was too small.) *)
Definition yields {A} (P : A -> Prop) (o : outcome A) : Prop :=
  match o with Ret a => P a | Exit => True | UB => False end.

(** Number of pixels with a given label. *)
Definition label_count (l : list Z) (id : Z) : Z := Z.of_nat (count_occ Z.eq_dec l id).
