(** Model of screen_noise, src/modules/higher-level/quality-hl.c:156-372, for one
    pixel: msk, dat (shortest band) and day of every observation.  float is
    binary32; sqrt of the double is rounded to float, which equals the binary32
    square root. *)
From Flocq Require Import Core IEEE754.BinarySingleNaN.
From Verif Require Import Base Loops Float.
#[local] Open Scope Z_scope.

Definition f32_sqrt (x : f32) : f32 := Bsqrt mode_NE x.
Definition zero32 : f32 := f32_of_Z 0.
Definition max32 : f32 := f32_of_Z 2147483647.

(** Locals set by the neighbour search.  t_right, t_first and t_last keep old
    values in C, but are only read after they were set for the same t_mid. *)
Record near := mkNear { nl : Z; nr : Z; nfirst : Z; nlast : Z; vl : bool; vr : bool }.

(** The search 231-253: [m] is msk from index [t] on. *)
Fixpoint search (t t_mid : Z) (m : list bool) (s : near) : near :=
  match m with
  | [] => s
  | b :: r =>
    if negb b then search (t + 1) t_mid r s
    else if t <? t_mid then
      search (t + 1) t_mid r (mkNear t (nr s) (if vl s then nfirst s else t) (nlast s) true (vr s))
    else if t =? t_mid then search (t + 1) t_mid r s
    else if negb (vr s) then search (t + 1) t_mid r (mkNear (nl s) t (nfirst s) t (vl s) true)
    else mkNear (nl s) (nr s) (nfirst s) t (vl s) (vr s)
  end.
Definition search_from (msk : list bool) (t_left t_mid : Z) : near :=
  search t_left t_mid (skipn (Z.to_nat t_left) msk) (mkNear t_left 0 0 0 false false).

(** The search of the second pass 319-334 stops at the first right neighbour. *)
Fixpoint search2 (t t_mid : Z) (m : list bool) (s : near) : near :=
  match m with
  | [] => s
  | b :: r =>
    if negb b then search2 (t + 1) t_mid r s
    else if t <? t_mid then search2 (t + 1) t_mid r (mkNear t (nr s) (nfirst s) (nlast s) true (vr s))
    else if t =? t_mid then search2 (t + 1) t_mid r s
    else mkNear (nl s) t (nfirst s) (nlast s) (vl s) true
  end.
Definition search2_from (msk : list bool) (t_left t_mid : Z) : near :=
  search2 t_left t_mid (skipn (Z.to_nat t_left) msk) (mkNear t_left 0 0 0 false false).

(** y_hat: 258-267, 338-347.  All operands of the second branch are integers:
    the slope is an integer quotient. *)
Definition residual (dat ce : list Z) (l m r : Z) : outcome f32 :=
  yl <- of_option (get_at dat l) ;; ym <- of_option (get_at dat m) ;; yr <- of_option (get_at dat r) ;;
  cl <- of_option (get_at ce l) ;; cm <- of_option (get_at ce m) ;; cr <- of_option (get_at ce r) ;;
  if cr =? cl then Ret (f32_div (f32_of_Z (Z.abs (2 * ym - (yr - yl)))) (f32_of_Z 2))
  else p <- chk_int (Z.quot (yr - yl) (cr - cl) * (cm - cl)) ;; Ret (f32_of_Z (Z.abs (ym - p - yl))).

(** t_max: 268-281. *)
Definition suspect (dat : list Z) (s : near) (m : Z) : outcome Z :=
  yl <- of_option (get_at dat (nl s)) ;; ym <- of_option (get_at dat m) ;; yr <- of_option (get_at dat (nr s)) ;;
  Ret (if (nl s =? nfirst s) && (Z.abs (yl - yr) >? Z.abs (ym - yr)) then nl s
       else if (nr s =? nlast s) && (Z.abs (yl - yr) >? Z.abs (ym - yl)) then nr s
       else m).

(** One iteration of 222-291: (t_left, n, maxr, ssqr, t_maxr). *)
Record walk := mkWalk { w_left : Z; w_n : Z; w_maxr : f32; w_ssqr : f32; w_t : Z }.
Definition walk_step (msk : list bool) (dat ce : list Z) (w : walk) (t_mid : Z) : outcome walk :=
  b <- of_option (get_at msk t_mid) ;;
  if negb b then Ret w
  else
    let s := search_from msk (w_left w) t_mid in
    if negb (vl s) || negb (vr s) then Ret (mkWalk (nl s) (w_n w) (w_maxr w) (w_ssqr w) (w_t w))
    else
      y <- residual dat ce (nl s) t_mid (nr s) ;;
      tm <- suspect dat s t_mid ;;
      let up := flt (w_maxr w) y in
      Ret (mkWalk (nl s) (w_n w + 1) (if up then y else w_maxr w) (f32_add (w_ssqr w) (f32_mul y y))
             (if up then tm else w_t w)).

(** The while loop 209-305: (msk, removed, noise); None: out of fuel. *)
Fixpoint screen_loop (fuel : nat) (dat ce : list Z) (above : f32) (msk removed : list bool) (rel noise : f32) (n : Z)
  : option (outcome (list bool * list bool * f32)) :=
  if negb (flt above rel && (2 <? n)) then Some (Ret (msk, removed, noise))
  else match fuel with
  | O => None
  | S f =>
    match ofold (walk_step msk dat ce) (zrange 1 (zlen msk - 2)) (mkWalk 0 0 zero32 zero32 0) with
    | Ret w =>
      if w_n w <? 2 then screen_loop f dat ce above msk removed rel noise (w_n w)
      else
        let noise' := f32_sqrt (f32_div (w_ssqr w) (f32_of_Z (w_n w))) in
        let rel' := f32_div (w_maxr w) noise' in
        if flt above rel' then
          match set_at msk (w_t w) false, set_at removed (w_t w) true with
          | Some msk', Some removed' => screen_loop f dat ce above msk' removed' rel' noise' (w_n w)
          | _, _ => Some UB
          end
        else screen_loop f dat ce above msk removed rel' noise' (w_n w)
    | UB => Some UB
    | Exit => Some Exit
    end
  end.

(** Second pass 310-353: (msk, t_left). *)
Definition restore_step (dat ce : list Z) (nodata : Z) (below noise : f32) (removed : list bool)
    (st : list bool * Z) (t_mid : Z) : outcome (list bool * Z) :=
  let '(msk, t_left) := st in
  b <- of_option (get_at msk t_mid) ;; y <- of_option (get_at dat t_mid) ;; rm <- of_option (get_at removed t_mid) ;;
  if b || (y =? nodata) || rm then Ret st
  else
    let s := search2_from msk t_left t_mid in
    if negb (vl s) || negb (vr s) then Ret (msk, nl s)
    else
      yh <- residual dat ce (nl s) t_mid (nr s) ;;
      if flt (f32_div yh noise) below then m <- of_option (set_at msk t_mid true) ;; Ret (m, nl s)
      else Ret (msk, nl s).

(** screen_noise: 156-372 for one pixel; [masked] is mask_ != NULL && !mask_[p]. *)
Definition screen_noise (fuel : nat) (above below : f32) (nodata : Z) (masked : bool) (msk : list bool) (dat ce : list Z)
  : option (outcome (list bool)) :=
  if feq above zero32 && feq below zero32 then Some (Ret msk)
  else if zlen msk <? 3 then Some (Ret msk)
  else if masked then Some (Ret msk)
  else
    match screen_loop fuel dat ce above msk (map (fun _ => false) msk) max32 max32 (zlen msk) with
    | Some (Ret (m, removed, noise)) =>
      if feq noise max32 then Some (Ret m)
      else Some (r <- ofold (restore_step dat ce nodata below noise removed) (zrange 1 (zlen m - 2)) (m, 0) ;; Ret (fst r))
    | Some UB => Some UB
    | Some Exit => Some Exit
    | None => None
    end.
