(** Model of buffer_, src/modules/cross-level/imagefuns-cl.c:153-207.
    The parallel loop is run in sequential order; all writes store TRUE. *)
From Verif Require Import Base Loops.
#[local] Open Scope Z_scope.

Definition put (t : list bool) (p : Z) : outcome (list bool) := of_option (set_at t p true).

(** Body of the while loop, 183-184. *)
Definition draw (nx i j : Z) (t : list bool) (xy : Z * Z) : outcome (list bool) :=
  let (x, y) := xy in
  t1 <- ofold (fun t k => t' <- put t (nx * k + j + x) ;; put t' (nx * k + j - x)) (zrange (i - y) (i + y)) t ;;
  ofold (fun t k => t' <- put t (nx * k + j + y) ;; put t' (nx * k + j - y)) (zrange (i - x) (i + x)) t1.

(** The values of (x, y) at the start of each iteration of the while loop 175-194:
    they do not depend on the pixel.  None: out of fuel. *)
Fixpoint octant (fuel : nat) (x y d : Z) : option (outcome (list (Z * Z))) :=
  if negb (x <=? y) then Some (Ret [])
  else match fuel with
  | O => None
  | S f =>
    let '(d', y') := if d <? 0 then (d + (4 * x) + 6, y) else (d + 4 * (x - y) + 10, y - 1) in
    if negb (in_intb d') then Some UB
    else match octant f (x + 1) y' d' with
         | Some (Ret l) => Some (Ret ((x, y) :: l))
         | other => other
         end
  end.

(** One pixel, 168-194. *)
Definition buffer_pixel (image : list bool) (nx i r : Z) (t : list bool) (j : Z) : outcome (list bool) :=
  b <- of_option (get_at image (nx * i + j)) ;;
  if negb b then Ret t
  else match octant (Z.to_nat (r + 2)) 0 r (3 - r) with
       | Some o => l <- o ;; ofold (draw nx i j) l t
       | None => Exit
       end.

(** buffer_: 153-207.  tmp is zero filled by alloc. *)
Definition buffer (image : list bool) (nx ny r : Z) : outcome (list bool) :=
  if r <=? 0 then Ret image
  else ofold (fun t i => ofold (buffer_pixel image nx i r) (zrange r (nx - r - 1)) t) (zrange r (ny - r - 1))
         (repeat false (Z.to_nat (nx * ny))).
