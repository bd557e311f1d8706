(** Model of standardize_timeseries, src/modules/higher-level/standardize-hl.c:
    43-99, for one pixel.  Simplified: double is the real numbers. *)
From Coq Require Import Reals.
From Flocq Require Import Core.
From Verif Require Import Base Loops StatsModel.
#[local] Open Scope Z_scope.

Inductive std_method := STD_NONE | STD_NORMAL | STD_CENTER.

(** 64-75: (avg, var) and k; the first value is stored directly. *)
Definition std_step (nodata : Z) (st : var * Z) (v : Z) : var * Z :=
  let '(s, k) := st in
  if v =? nodata then st
  else if k + 1 =? 1 then (mkVar (IZR v) (r_vx s), k + 1)
  else (var_recurrence (IZR v) s (IZR (k + 1)), k + 1).

(** 84-95: one value; division by zero gives NaN (0/0, since all deviations are
    then zero), which passes both comparisons and is converted: undefined. *)
Definition std_value (nodata : Z) (avg std : R) (v : Z) : outcome Z :=
  if v =? nodata then Ret v
  else if Req_EM_T std 0 then UB
  else
    let tmp := ((IZR v - avg) / std)%R in
    let tmp := if Rlt_dec 32767 tmp then 32767%R else tmp in
    let tmp := if Rlt_dec tmp (-32768) then (-32768)%R else tmp in
    Ret (Ztrunc tmp).

Definition standardize (nodata : Z) (m : std_method) (masked : bool) (l : list Z) : outcome (list Z) :=
  match m with
  | STD_NONE => Ret l
  | _ =>
    if masked then Ret l
    else
      let '(s, k) := fold_left (std_step nodata) l (mkVar 0 0, 0) in
      if k <? 2 then Ret l
      else
        let std := match m with STD_NORMAL => (standdev (r_vx s) (IZR k) / 10000)%R | _ => 1%R end in
        omap (std_value nodata (r_mx s) std) l
  end.
