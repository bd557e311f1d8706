(** Which bands are read from which sensor: sensor-hl.c:158-471.

    The sensor definitions (JSON files) are a map from sensor names to band names;
    None: file missing or unusable.  Assumed: the name in a definition is that of
    its file, and names are shorter than the buffers of 1024 bytes. *)
From Verif Require Import Base Loops CStr StringModel.

Definition definitions := list Z -> option (list (list Z)).

(** get_band_intersection: sensor-hl.c:167-208; None = FAILURE. *)
Definition band_intersection (names : list (list (list Z))) : outcome (option (list (list Z))) :=
  first <- of_option (get_at names 0) ;;
  let bands := filter (fun b => forallb (fun other => vector_contains other b) (tl names)) first in
  Ret (match bands with [] => None | _ => Some bands end).

(** get_band_union: sensor-hl.c:220-256. *)
Definition add_band (acc : list (list Z)) (b : list Z) : list (list Z) := if vector_contains acc b then acc else acc ++ [b].
Definition band_union (names : list (list (list Z))) : option (list (list Z)) :=
  match fold_left (fun acc bands => fold_left add_band bands acc) names [] with [] => None | l => Some l end.

(** get_band_numbers_to_read: sensor-hl.c:265-279; 0: the sensor lacks the band. *)
Definition band_numbers (names : list (list (list Z))) (bands : list (list Z)) : list (list Z) :=
  map (fun sensor => map (fun b => vector_contains_pos sensor b + 1) bands) names.

(** check_target_sensor: sensor-hl.c:286-335. *)
Definition check_target (defs : definitions) (target : list Z) (bands : list (list Z)) : bool :=
  match defs target with
  | None => false
  | Some tb => (zlen tb =? zlen bands) && forallb (fun b => vector_contains tb b) bands
  end.

(** The loop over the sensors: sensor-hl.c:363-393.  [table]: nbands and band_names,
    allocated in lines 347-351; [s]: next index.  The number is of errors. *)
Fixpoint load_all (defs : definitions) (sensors : list (list Z)) (s : Z) (table : list (list (list Z))) (errors : Z) : outcome (list (list (list Z)) * Z) :=
  match sensors with
  | [] => Ret (table, errors)
  | name :: rest =>
      match defs name with
      | None => load_all defs rest (s + 1) table (errors + 1)
      | Some bands => t <- of_option (set_at table s bands) ;; load_all defs rest (s + 1) t errors
      end
  end.

(** retrieve_sensor: sensor-hl.c:345-448: FAILURE, or SUCCESS with the bands and the
    band numbers of every sensor.  The tables are allocated for the sensors given
    (lines 347-351); with the spectral adjustment there is one more (354-358). *)
Definition retrieve_sensor (defs : definitions) (sensors : list (list Z)) (target : list Z) (adjust : bool) : outcome (option (list (list Z) * list (list Z))) :=
  let all := if adjust then sensors ++ [`"SEN2A"] else sensors in
  r <- load_all defs all 0 (repeat [] (length sensors)) 0 ;;
  let '(names, errors) := r in
  if 0 <? errors then Ret None
  else
    b <- (if adjust then Ret (band_union names) else band_intersection names) ;;
    match b with
    | None => Ret None
    | Some bands =>
        let numbers := band_numbers (firstn (length sensors) names) bands in
        if check_target defs target bands then Ret (Some (bands, numbers)) else Ret None
    end.
