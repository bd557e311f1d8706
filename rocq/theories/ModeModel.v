(** Model of mode, n_uniq and histogram: src/modules/cross-level/stats-cl.c:688-799. *)
From Verif Require Import Base Loops.

(** comp (stats-cl.c:797-799) returns a - b: undefined if the difference does not
    fit an int. *)
Definition comp (a b : Z) : outcome Z := chk_int (a - b).

(** libc qsort with comp.  Simplified: any order of comparisons is allowed; if some
    pair of elements has no defined comparison the result is UB, else the result
    is the ascending order (the only possible one for ints). *)
Fixpoint insert (a : Z) (l : list Z) : list Z :=
  match l with
  | [] => [a]
  | b :: t => if a <=? b then a :: l else b :: insert a t
  end.
Fixpoint isort (l : list Z) : list Z :=
  match l with [] => [] | a :: t => insert a (isort t) end.
Definition comparable (l : list Z) : bool :=
  forallb (fun a => forallb (fun b => in_intb (a - b)) l) l.
Definition qsort (l : list Z) : outcome (list Z) :=
  if comparable l then Ret (isort l) else UB.

(** The loop of mode: stats-cl.c:697-707; prev is x[i-1]. *)
Fixpoint mode_scan (prev now max mod_ : Z) (l : list Z) : Z * Z * Z * Z :=
  match l with
  | [] => (prev, now, max, mod_)
  | x :: t =>
    if x =? prev then mode_scan x (now + 1) max mod_ t
    else if now >? max then mode_scan x 1 now prev t
    else mode_scan x 1 max mod_ t
  end.
(** mode: stats-cl.c:688-716 (n = number of elements of the array); returns the
    mode; the caller's array ends up sorted. *)
Definition mode (x : list Z) : outcome Z :=
  x0 <- of_option (get_at x 0) ;;
  s <- qsort x ;;
  match s with
  | [] => UB
  | a :: t =>
    let '(prev, now, max, mod_) := mode_scan a 1 1 x0 t in
    Ret (if now >? max then prev else mod_)
  end.

(** n_uniq: stats-cl.c:725-744. *)
Fixpoint changes (prev : Z) (l : list Z) : Z :=
  match l with [] => 0 | x :: t => (if x =? prev then 0 else 1) + changes x t end.
Definition n_uniq (x : list Z) : outcome Z :=
  s <- qsort x ;;
  Ret (1 + match s with [] => 0 | a :: t => changes a t end).

(** histogram: stats-cl.c:753-791.  alloc_2D zeroes the two rows of length num. *)
Fixpoint hist_scan (prev k : Z) (l h0 h1 : list Z) : outcome (list Z * list Z) :=
  match l with
  | [] => Ret (h0, h1)
  | x :: t =>
    let k' := if x =? prev then k else k + 1 in
    h0' <- (if x =? prev then Ret h0 else of_option (set_at h0 k' x)) ;;
    c <- of_option (get_at h1 k') ;;
    h1' <- of_option (set_at h1 k' (c + 1)) ;;
    hist_scan x k' t h0' h1'
  end.
Definition histogram (x : list Z) : outcome (list Z * list Z * Z) :=
  s <- qsort x ;;
  let num := 1 + match s with [] => 0 | a :: t => changes a t end in
  let zero := repeat 0 (Z.to_nat num) in
  a <- of_option (get_at s 0) ;;
  h0 <- of_option (set_at zero 0 a) ;;
  c <- of_option (get_at zero 0) ;;
  h1 <- of_option (set_at zero 0 (c + 1)) ;;
  h <- hist_scan a 0 (tl s) h0 h1 ;;
  Ret (fst h, snd h, num).
