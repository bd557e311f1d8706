(** Model of machine_learning: src/modules/higher-level/ml-hl.c:206-409, one pixel.
    What the OpenCV models answer for the pixel is an input.  Predictions, their mean and
    variance are exact real numbers; class probabilities are computed with doubles. *)
From Coq Require Import Reals.
From Flocq Require Import Core.
From Verif Require Import Base Loops RoundModel StatsModel ModeModel.
#[local] Open Scope Z_scope.

(** predict() and getVotes() of one model: the votes as (label, number of trees) per column. *)
Record answer := mkAnswer { an_value : R; an_votes : list (Z * Z) }.
(** The method (245-246), the products, and parameters. rfprob is cf_rfp || cf_rfm (247); both are switched off for other methods than RFC (param-hl.c:1330-1337). *)
Record conf := mkConf { cf_regression : bool; cf_mlu : bool; cf_rfp : bool; cf_rfm : bool; cf_scale : R; cf_converge : R; cf_nodata : Z }.
Definition rfprob (c : conf) : bool := negb (cf_regression c) && (cf_rfp c || cf_rfm c).
(** Values written for a model set; None is a product that is not written. *)
Record result := mkResult { r_mlp : Z; r_mli : Z; r_mlu : option Z; r_rfp : list Z; r_rfm : option Z }.

(** 312-358 for regression: mean and variance so far, mean before; the number m of models used and the index k. *)
Fixpoint blend (cf : conf) (flat : list answer) (nm : Z) (fuel : nat) (m k : Z) (st : var) (old : R) : outcome (var * Z * Z) :=
  match fuel with
  | O => Ret (st, m, k)
  | S f =>
    a <- of_option (get_at flat k) ;;
    let st' := if m =? 0 then mkVar (an_value a) (r_vx st) else var_recurrence (an_value a) st (IZR (m + 1)) in
    if (1 <? m) && Rlt_bool (Rabs (r_mx st' - old)) (cf_converge cf) then Ret (st', m + 1, k + (nm - m))
    else blend cf flat nm f (m + 1) (k + 1) st' (r_mx st')
  end.
(** 360-367: limits, then truncation. *)
Definition limit (x : R) : R := let y := if Rlt_bool 32767 x then 32767%R else x in if Rlt_bool y (-32768) then (-32768)%R else y.
(** standdev(var, m): 0/0 for one model; the conversion of that to a short is undefined. *)
Definition uncertainty (st : var) (m : Z) : outcome Z :=
  if m =? 1 then UB
  else let s := (standdev (r_vx st) (IZR m) * 10000)%R in Ret (Ztrunc (if Rlt_bool 32767 s then 32767%R else s)).

(** 319-329: the label with most votes, first of equals; the votes per column. *)
Definition column (a : answer) (c : Z) : outcome (Z * Z) := of_option (get_at (an_votes a) c).
Definition winner (cols : list (Z * Z)) : Z :=
  fst (fold_left (fun (w : Z * Z) (lv : Z * Z) => if snd lv >? snd w then lv else w) cols (0, 0)).
(** 314-343: label and votes of one model. *)
Definition label (cf : conf) (ncl : Z) (a : answer) : outcome (Z * list Z) :=
  if rfprob cf then
    cols <- omap (column a) (zupto ncl) ;;
    Ret (winner cols, map snd cols)
  else if in_intb (Ztrunc (an_value a)) then Ret (Ztrunc (an_value a), []) else UB.
Fixpoint add_votes (a b : list Z) : list Z :=
  match a, b with x :: r, y :: s => (x + y) :: add_votes r s | _, _ => [] end.
(** 376: the share of a class; 0/0 for a set without trees. *)
Definition share (n v : Z) : R := rnd64 (IZR v / rnd64 (IZR n * rnd64 (1 / 10000))).
(** 378-380. *)
Definition probabilities (ncl : Z) (votes : list (list Z)) : outcome (list R) :=
  let total := fold_left add_votes votes (repeat 0 (Z.to_nat ncl)) in
  let n := fold_left Z.add (concat votes) 0 in
  if n =? 0 then UB else Ret (map (share n) total).
(** 383-390; the maxima are ints. *)
Definition margin (p : list R) : Z :=
  let m1 := fold_left (fun m x => if Rlt_bool (IZR m) x then Ztrunc x else m) p 0 in
  let m2 := fold_left (fun m x => if Rlt_bool (IZR m) x && Rlt_bool x (IZR m1) then Ztrunc x else m) p 0 in
  m1 - m2.
(** 306-395: one model set of nm models and ncl classes, models from index k. *)
Definition one_set (cf : conf) (flat : list answer) (nm ncl k : Z) : outcome (result * Z) :=
  if cf_regression cf then
    smk <- blend cf flat nm (Z.to_nat nm) 0 k (mkVar 0 0) 0 ;;
    let '(st, m, k') := smk in
    u <- (if cf_mlu cf then u <- uncertainty st m ;; Ret (Some u) else Ret None) ;;
    Ret (mkResult (Ztrunc (limit (r_mx st * cf_scale cf))) m u [] None, k')
  else
    ans <- omap (fun m => of_option (get_at flat (k + m))) (zupto nm) ;;
    ls <- omap (label cf ncl) ans ;;
    v <- mode (map fst ls) ;;
    if rfprob cf then
      p <- probabilities ncl (map snd ls) ;;
      Ret (mkResult (to_short v) nm None (if cf_rfp cf then map Ztrunc p else []) (if cf_rfm cf then Some (margin p) else None), k + nm)
    else Ret (mkResult (to_short v) nm None [] None, k + nm).
(** A pixel: processing mask, feature masks and exclusion (274-304), then the sets as (models, classes). *)
Definition empty_set (cf : conf) (ncl : Z) : result :=
  mkResult (cf_nodata cf) (cf_nodata cf) (Some (cf_nodata cf)) (repeat (cf_nodata cf) (Z.to_nat ncl)) (Some (cf_nodata cf)).
Fixpoint all_sets (cf : conf) (flat : list answer) (sets : list (Z * Z)) (k : Z) : outcome (list result) :=
  match sets with
  | [] => Ret []
  | (nm, ncl) :: t => rk <- one_set cf flat nm ncl k ;; let '(r, k') := rk in rs <- all_sets cf flat t k' ;; Ret (r :: rs)
  end.
Definition pixel (cf : conf) (mask : option bool) (exclude : bool) (valid : list bool) (flat : list answer) (sets : list (Z * Z)) : outcome (list result) :=
  if match mask with Some false => true | _ => false end || (exclude && negb (forallb (fun v => v) valid))
  then Ret (map (fun s => empty_set cf (snd s)) sets)
  else all_sets cf flat sets 0.
