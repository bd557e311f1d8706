(** Model of the text side of date-cl.c. *)
From Verif Require Import Base CStr DateModel.

(** compact_date: date-cl.c:343-353. *)
Definition compact_date (y m d size : Z) : outcome (list Z) :=
  snprintf_or_exit size (print_0d 4 y ++ print_0d 2 m ++ print_0d 2 d).

(** long_date: date-cl.c:369-389. *)
Definition long_date (y m d h mi s tz size : Z) : outcome (list Z) :=
  let base := print_0d 4 y ++ [45] ++ print_0d 2 m ++ [45] ++ print_0d 2 d ++ [84] ++
              print_0d 2 h ++ [58] ++ print_0d 2 mi ++ [58] ++ print_0d 2 s in
  if negb (tz =? 99) then snprintf_or_exit size (base ++ [46] ++ print_d tz ++ [90])
  else snprintf_or_exit size base.

Definition date_seps : list Z := `" ,;-_.".
Definition line_end : list Z := [13; 10; 35].   (* "\r\n#" *)

(** date_from_string: date-cl.c:616-661.  [d0] is the caller's *date before the
    call; the result carries *date after it.  strlen(NULL) is UB. *)
Definition date_from_string (d0 : date) (string : list Z) : outcome (rc * date) :=
  buffer <- copy_string 1024 string ;;
  match strtok date_seps (take_until line_end buffer) with
  | None => UB
  | Some (ptr, _) =>
    if negb (zlen ptr =? 8) then Ret (CANCEL, init_date)
    else
      y <- atoi (firstn 4 ptr) ;;
      m <- atoi (firstn 2 (skipn 4 ptr)) ;;
      dd <- atoi (firstn 2 (skipn 6 ptr)) ;;
      let d := set_date init_date y m dd in
      if (year d <? 1900) || (year d >? 2100) then Ret (CANCEL, d0)
      else if (month d <? 1) || (month d >? 12) then Ret (CANCEL, d0)
      else if (day d <? 1) || (day d >? 31) then Ret (CANCEL, d0)
      else if (doy d <? 1) || (doy d >? 365) then Ret (CANCEL, d0)
      else if (week d <? 1) || (week d >? 52) then Ret (CANCEL, d0)
      else if (ce d <? 1900 * 365) || (ce d >? 2100 * 365) then Ret (CANCEL, d0)
      else Ret (SUCCESS, d)
  end.
