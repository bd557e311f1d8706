(** Model of src/modules/higher-level/lib-hl.c:178-288 (library completeness) and
    of read_libraries (read-aux-hl.cpp:157-197), per pixel.  Simplification: double
    arithmetic is real arithmetic; a quotient by zero is no number (NaN or infinity)
    and never smaller than another. *)
From Coq Require Import Reals.
From Flocq Require Import Core.
From Verif Require Import Base Loops StatsModel.
#[local] Open Scope R_scope.

(** A library: the rows of its table.  Mean and standard deviation of a column: table-cl.c:184-214. *)
Definition library := list (list R).
Definition column (t : library) (c : Z) : list R := map (fun row => match get_at row c with Some x => x | None => 0 end) t.
Definition col_mean (t : library) (c : Z) : R := r_mx (run_var (column t c)).
Definition col_sd (t : library) (c : Z) : option R :=
  if (zlen t <? 2)%Z then None
  else let s := standdev (r_vx (run_var (column t c))) (IZR (zlen t)) in if Req_bool s 0 then None else Some s.
(** read-aux-hl.cpp:174-183 and lib-hl.c:242-248. *)
Definition scaled (rescale : bool) (t : library) (c : Z) (x : R) : option R :=
  if rescale then match col_sd t c with Some s => Some ((x - col_mean t c) / s) | None => None end else Some x.

(** 250-263: mean absolute error of a row; [feats] are value and mask of the features. *)
Definition row_error (rescale : bool) (t : library) (feats : list (Z * bool)) (row : list R) : outcome (option R) :=
  s <- ofold (fun (acc : option R * Z) (cf : Z * (Z * bool)) =>
    let '(c, (v, m)) := cf in
    if negb m then Ret acc
    else
      x <- of_option (get_at row c) ;;
      Ret (match fst acc, scaled rescale t c x, scaled rescale t c (IZR v) with
           | Some a, Some y, Some z => Some (a + Rabs (y - z))
           | _, _, _ => None
           end, (snd acc + 1)%Z)) (combine (zupto (zlen feats)) feats) (Some 0, 0%Z) ;;
  Ret (if (snd s =? 0)%Z then None else match fst s with Some a => Some (a / IZR (snd s)) | None => None end).
Definition SHRT_MAX : R := 32767.
Definition smaller (m : R) (e : option R) : R := match e with Some x => if Rlt_bool x m then x else m | None => m end.
(** 238-266. *)
Definition library_error (rescale : bool) (feats : list (Z * bool)) (t : library) : outcome R :=
  ofold (fun m row => e <- row_error rescale t feats row ;; Ret (smaller m e)) t SHRT_MAX.
(** 270-271, 275-276. *)
Definition store_error (rescale : bool) (nodata : Z) (m : R) : Z :=
  let m' := if Rlt_bool m SHRT_MAX && rescale then m * 1000 else m in
  if Rlt_bool m' SHRT_MAX then Ztrunc m' else nodata.
(** 223-276: one value per library and the summary. *)
Definition library_pixel (rescale exclude : bool) (mask : option bool) (nodata : Z) (feats : list (Z * bool)) (libs : list library) : outcome (list Z) :=
  let none := map (fun _ => nodata) libs ++ [nodata] in
  match mask with
  | Some false => Ret none
  | _ =>
    if exclude && existsb (fun f => negb (snd f)) feats then Ret none
    else
      es <- omap (library_error rescale feats) libs ;;
      let all := fold_left (fun a m => if Rlt_bool m a then m else a) es SHRT_MAX in
      Ret (map (store_error rescale nodata) es ++ [store_error rescale nodata all])
  end.
