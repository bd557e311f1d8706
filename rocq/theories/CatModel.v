(** Model of the change detection in cat: src/modules/higher-level/trend-hl.c:241-312,
    one pixel.  Differences of short values are exact in float.  The penalised
    change is compared in exact arithmetic (C: float/double rounding). *)
From Verif Require Import Base Loops.

(** f_pre search, trend-hl.c:254-256: last valid band before f. *)
Fixpoint last_valid (nodata : Z) (rev_prefix : list Z) : option Z :=
  match rev_prefix with
  | [] => None
  | v :: t => if v =? nodata then last_valid nodata t else Some v
  end.
(** f_post search, trend-hl.c:262-264. *)
Fixpoint first_valid (nodata : Z) (l : list Z) : option Z :=
  match l with
  | [] => None
  | v :: t => if v =? nodata then first_valid nodata t else Some v
  end.

(** The loop 250-275 over the bands f, f+1, ...; pre = bands before f, reversed;
    (change, f_change) the running maximum. *)
Fixpoint cat_scan (nodata : Z) (penalty : bool) (pre l : list Z) (f : Z) (best : Z * Z) : Z * Z :=
  match l with
  | [] => best
  | v :: t =>
    let skip := cat_scan nodata penalty (v :: pre) t (f + 1) best in
    if v =? nodata then skip
    else match last_valid nodata pre with
    | None => skip
    | Some w =>
      let real := w - v in
      let next := cat_scan nodata penalty (v :: pre) t (f + 1) in
      if (real >? 0) && penalty then
        match first_valid nodata t with
        | None => skip
        | Some z => next (if real * (w - z) >? fst best * 10000 then (real, f) else best)
        end
      else next (if real >? fst best then (real, f) else best)
    end
  end.

(** cat, 246-312: None = all bands stay nodata; otherwise the change and its band
    index, and the index ranges (f_min, f_max) of the three parts. *)
Record cat_result := mkCat { cat_change : Z; cat_f : Z; part_total : Z * Z; part_before : Z * Z; part_after : Z * Z }.
Definition SHRT_MIN : Z := -32768.
Definition cat_pixel (nodata : Z) (penalty : bool) (ser : list Z) : outcome (option cat_result) :=
  let nf := zlen ser in
  (* the loop starts at f=1; f=0 has no predecessor, so starting there is the same *)
  let '(change, fc) := cat_scan nodata penalty [] ser 0 (SHRT_MIN, 0) in
  if change =? SHRT_MIN then Ret None
  else if in_shortb change   (* (short)change, trend-hl.c:301 *)
  then Ret (Some (mkCat change fc (0, nf) (0, fc - 1) (fc, nf)))
  else UB.

(** The valid values used for the statistics of a part: for (f=f_min; f<f_max; f++)
    trend-hl.c:320-350. *)
Definition part_values (nodata : Z) (ser : list Z) (part : Z * Z) : list Z :=
  filter (fun v => negb (v =? nodata))
    (map (fun i => nth (Z.to_nat i) ser nodata) (zrange (fst part) (snd part - 1))).
