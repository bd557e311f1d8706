(** Listing the images of a tile: read-ard-hl.c:323-409.  The directory is the list
    of its entries as scandir returns them (sorted by alphasort). *)
From Verif Require Import Base CStr DateModel DateTextModel PathModel StringModel.

(** What is asked for: main_product, sensors, DATE_RANGE and DATE_IGNORE_LANDSAT_7 as
    days since the beginning of the calendar, date_doys. *)
Record request := mkRequest { rq_product : list Z; rq_sensors : list (list Z); rq_min : Z; rq_max : Z; rq_days : list Z; rq_ignore7 : Z }.

Definition image_exts : list (list Z) := [`".dat"; `".bsq"; `".bil"; `".tif"; `".vrt"].
Definition found (text word : list Z) : bool := match strstr text word with Some _ => true | None => false end.

(** The loop body: read-ard-hl.c:354-394; true: the name is copied. *)
Definition select (rq : request) (name : list Z) : outcome bool :=
  r <- extension name 1024 ;;
  if negb (vector_contains image_exts (snd r)) then Ret false
  else if negb (found name (rq_product rq)) then Ret false
  else if negb (existsb (found name) (rq_sensors rq)) then Ret false
  else
    d <- date_from_string init_date name ;;
    let '(code, date) := d in
    match code with
    | SUCCESS =>
        if ce date <? rq_min rq then Ret false
        else if ce date >? rq_max rq then Ret false
        else
          v <- of_option (get_at (rq_days rq) (doy date)) ;;
          if v =? 0 then Ret false
          else if found name (`"LND07") && (ce date >? rq_ignore7 rq) then Ret false
          else Ret true
    | _ => Exit
    end.

(** read-ard-hl.c:351-409; None = FAILURE. *)
Fixpoint select_all (rq : request) (names : list (list Z)) : outcome (list (list Z)) :=
  match names with
  | [] => Ret []
  | n :: t => b <- select rq n ;; rest <- select_all rq t ;; Ret (if b : bool then n :: rest else rest)
  end.
Definition list_ard (rq : request) (names : list (list Z)) : outcome (option (list (list Z))) :=
  l <- select_all rq names ;;
  match l with [] => Ret None | _ => Ret (Some l) end.
