(** Specification of parameter files, independent of tokenizer, loops and
    buffers. *)
From Coq Require Import Reals.
From Flocq Require Import Core IEEE754.BinarySingleNaN.
From Verif Require Import Base CStr DateModel Float ParamModel.

Definition is_sep (c : Z) : bool := (c =? 32) || (c =? 61).        (* blank, = *)
Definition is_stop (c : Z) : bool := (c =? 10) || (c =? 13) || (c =? 35).

(** The words of a line: maximal runs of other characters before the first
    line end or #. *)
Fixpoint split (word : list Z) (l : list Z) : list (list Z) :=
  let flush := match word with [] => [] | _ => [word] end in
  match l with
  | [] => flush
  | c :: t => if is_stop c then flush
              else if is_sep c then flush ++ split [] t
              else split (word ++ [c]) t
  end.
Definition words (line : list Z) : list (list Z) := split [] line.

Section Spec.
Context (atof32 : list Z -> f32) (atof64 : list Z -> f64) (fileexist : list Z -> bool).

(** The enumeration constant of the first tag equal to [w]. *)
Definition enum_value (l : list (list Z * Z)) (w : list Z) : Z :=
  match find (fun e => if list_eq_dec Z.eq_dec (fst e) w then true else false) l with
  | Some e => snd e
  | None => 2147483647
  end.

(** The value a word stands for; dates are YYYY?MM?DD. *)
Definition denote (ty : ptype) (w : list Z) : outcome pval :=
  match ty with
  | PInt _ _ => if in_intb (atoi_val w) then Ret (VInt (atoi_val w)) else UB
  | PEnum l | PBool l => Ret (VInt (enum_value l w))
  | PFloat _ _ => Ret (VFloat (atof32 w))
  | PDouble _ _ => Ret (VDouble (atof64 w))
  | PDate _ _ => Ret (VDate (set_date init_date (atoi_val (firstn 4 w)) (atoi_val (firstn 2 (skipn 5 w)))
                                      (atoi_val (firstn 2 (skipn 8 w)))))
  | PChar _ => if zlen w <? 1024 then Ret (VChar w) else Exit
  end.

(** The values of a definition TAG = w1 w2 ...; a scalar takes the first word. *)
Definition used_words (p : par) (ws : list (list Z)) : list (list Z) :=
  match p_vec p with None => firstn 1 ws | Some _ => ws end.

(** What one line does to one parameter. *)
Definition line_effect (ws : list (list Z)) (p : par) : outcome par :=
  match ws with
  | t :: v :: vs =>
    if p_set p then Ret p
    else if list_eq_dec Z.eq_dec t (p_name p)
         then xs <- omap (denote (p_type p)) (used_words p (v :: vs)) ;; Ret (set_val p xs)
         else Ret p
  | _ => Ret p
  end.

(** The definition of a name in a sequence of lines: the words after the name on
    the first line that starts with it and has at least one more word. *)
Fixpoint definition_of (name : list Z) (lines : list (list Z)) : option (list (list Z)) :=
  match lines with
  | [] => None
  | l :: r => match words l with
              | t :: v :: vs => if list_eq_dec Z.eq_dec t name then Some (v :: vs) else definition_of name r
              | _ => definition_of name r
              end
  end.

(** Dates need at least ten characters (otherwise the parser reads what follows
    in its buffer, see C24_short_date_refuted). *)
Definition full_dates (ps : list par) (line : list Z) : Prop :=
  forall p w, In p ps -> In w (tl (words line)) -> (exists lo hi, p_type p = PDate lo hi) ->
  hd [] (words line) = p_name p -> (10 <= length w)%nat.

(** Lines the parser's buffers can hold and whose dates are complete, stated for
    the names and types of the registered parameters. *)
Definition line_fine (names : list (list Z)) (types : list ptype) (line : list Z) : Prop :=
  zlen line < 65536 /\ cstring line /\
  forall n ty w, In (n, ty) (combine names types) -> In w (tl (words line)) ->
    (exists lo hi, ty = PDate lo hi) -> hd [] (words line) = n -> (10 <= length w)%nat.

(** The effect of a list of lines on one parameter not yet set. *)
Definition final_par (lines : list (list Z)) (p p' : par) : Prop :=
  match definition_of (p_name p) lines with
  | None => p' = p
  | Some ws => exists xs, omap (denote (p_type p)) (used_words p ws) = Ret xs /\ p' = set_val p xs
  end.

(** The constraint a registration puts on a word. *)
Definition finite_between {pr em} (lo x hi : binary_float pr em) : Prop :=
  is_finite x = true /\ (B2R lo <= B2R x <= B2R hi)%R.
Definition char_ok (t : chartest) (w : list Z) : Prop :=
  let base := ~ In 47 w /\ In 46 w in    (* no slash, a dot *)
  match t with
  | NullOrExist => w = ` "NULL" \/ fileexist w = true
  | MustExist => fileexist w = true
  | NotExist => fileexist w = false
  | NullOrBase => w = ` "NULL" \/ base
  | BaseName => base
  | NoTest => True
  end.
Definition word_ok (ty : ptype) (w : list Z) : Prop :=
  match ty with
  | PInt lo hi => lo <= atoi_val w <= hi
  | PEnum l | PBool l => In w (map fst l)
  | PFloat lo hi => finite_between lo (atof32 w) hi
  | PDouble lo hi => finite_between lo (atof64 w) hi
  | PDate lo hi =>
    ce lo <= ce (set_date init_date (atoi_val (firstn 4 w)) (atoi_val (firstn 2 (skipn 5 w)))
                          (atoi_val (firstn 2 (skipn 8 w)))) <= ce hi
  | PChar t => char_ok t w
  end.
(** Registrations with finite numeric bounds and enumeration constants other than
    INT_MAX. *)
Definition type_ok (ty : ptype) : Prop :=
  match ty with
  | PFloat lo hi => is_finite lo = true /\ is_finite hi = true
  | PDouble lo hi => is_finite lo = true /\ is_finite hi = true
  | PEnum l | PBool l => ~ In 2147483647 (map snd l)
  | _ => True
  end.
Definition not_nan (ty : ptype) (w : list Z) : Prop :=
  match ty with
  | PFloat _ _ => is_nan (atof32 w) = false
  | PDouble _ _ => is_nan (atof64 w) = false
  | _ => True
  end.
(** A parameter is given correctly by a file. *)
Definition par_ok (lines : list (list Z)) (p : par) : Prop :=
  exists ws, definition_of (p_name p) lines = Some ws /\
  (forall k, p_vec p = Some k -> 0 < k -> zlen ws = k) /\
  Forall (word_ok (p_type p)) (used_words p ws).
End Spec.
