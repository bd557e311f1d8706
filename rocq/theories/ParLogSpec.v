(** The text a parameter log is meant to hold. *)
From Verif Require Import Base CStr DateModel Float ParamModel.

Section Text.
Variables (show_f32 : f32 -> list Z) (show_f64 : f64 -> list Z).

Definition value_text (v : pval) : list Z :=
  match v with
  | VInt z => print_d z
  | VFloat x => show_f32 x
  | VDouble x => show_f64 x
  | VDate d => print_0d 4 (year d) ++ lit "-" ++ print_0d 2 (month d) ++ lit "-" ++ print_0d 2 (day d)
  | VChar s => s
  | VNone => []
  end.

(** Words separated by [sep]. *)
Fixpoint join (sep : list Z) (l : list (list Z)) : list Z :=
  match l with
  | [] => []
  | [a] => a
  | a :: rest => a ++ sep ++ join sep rest
  end.

(** "name: value value, name: value ..." with [sep] between the values of a vector. *)
Definition par_text (sep : list Z) (p : par) : list Z := p_name p ++ lit ": " ++ join sep (map value_text (p_val p)).
Definition log_text (sep : list Z) (ps : list par) : list Z := join (lit ", ") (map (par_text sep) ps).
End Text.

(** All values of a parameter are set; a scalar has one. *)
Definition par_set (p : par) : Prop :=
  Forall (fun v => v <> VNone) (p_val p) /\ (p_vec p = None -> length (p_val p) = 1%nat).

(** Vector parameters with several values. *)
Definition is_list (p : par) : Prop := p_vec p <> None /\ (2 <= length (p_val p))%nat.
