(** Model of majorfill_, src/modules/cross-level/imagefuns-cl.c:240-278.
    The loop over the rows runs in parallel on one shared image.  Every single
    read and write of the image is a step of its own, and a schedule may
    interleave the steps of all pixels in any order (the order within a thread is
    not enforced, so all real schedules are covered).  Memory is sequentially
    consistent; C itself leaves the data races undefined. *)
From Verif Require Import Base Loops.
#[local] Open Scope Z_scope.

(** 257-262: the neighbours of pixel (i, j) inside of the image, in order. *)
Definition neighbours (nx ny i j : Z) : list Z :=
  flat_map (fun d : Z * Z =>
    let (ni, nj) := (i + fst d, j + snd d) in
    if (ni <? 0) || (ni >=? ny) || (nj <? 0) || (nj >=? nx) then [] else [ni * nx + nj])
  [(-1, -1); (-1, 0); (-1, 1); (0, -1); (0, 1); (1, -1); (1, 0); (1, 1)].

(** Where a pixel is in its iteration: not begun, counting with some neighbours
    left, or finished. *)
Inductive phase := Todo | Count (rest : list Z) (k : Z) | Done.
Record mstate := mkM { m_image : list bool; m_phase : list phase }.

(** The next read or write of pixel p: 252 (own value), 264 (one neighbour), 268 (write). *)
Definition step (nx ny : Z) (st : mstate) (p : Z) : outcome mstate :=
  ph <- of_option (get_at (m_phase st) p) ;;
  match ph with
  | Done => Ret st
  | Todo =>
      b <- of_option (get_at (m_image st) p) ;;
      phs <- of_option (set_at (m_phase st) p (if b then Done else Count (neighbours nx ny (p / nx) (p mod nx)) 0)) ;;
      Ret (mkM (m_image st) phs)
  | Count (q :: rest) k =>
      b <- of_option (get_at (m_image st) q) ;;
      phs <- of_option (set_at (m_phase st) p (Count rest (k + if b then 1 else 0))) ;;
      Ret (mkM (m_image st) phs)
  | Count [] k =>
      img <- (if k >=? 5 then of_option (set_at (m_image st) p true) else Ret (m_image st)) ;;
      phs <- of_option (set_at (m_phase st) p Done) ;; Ret (mkM img phs)
  end.

Definition start (img : list bool) : mstate := mkM img (repeat Todo (length img)).
(** A schedule is the sequence of the pixels whose next step is made. *)
Definition run (img : list bool) (nx ny : Z) (schedule : list Z) : outcome mstate := ofold (step nx ny) schedule (start img).
Definition finished (st : mstate) : Prop := Forall (fun ph => ph = Done) (m_phase st).
(** One thread: every pixel is completed before the next one (at most 10 steps). *)
Definition sequential (n : nat) : list Z := flat_map (fun p => repeat (Z.of_nat p) 10) (seq 0 n).
