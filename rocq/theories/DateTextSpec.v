(** Specification of date texts: fixed-width decimal fields. *)
From Verif Require Import Base CStr DateModel DateSpec.

Definition digit (n : Z) : Z := 48 + n mod 10.
Definition two (n : Z) : list Z := [digit (n / 10); digit n].
Definition four (n : Z) : list Z := [digit (n / 1000); digit (n / 100); digit (n / 10); digit n].
Definition yyyymmdd (y m d : Z) : list Z := four y ++ two m ++ two d.
Definition iso_date_time (y m d h mi s : Z) : list Z :=
  four y ++ `"-" ++ two m ++ `"-" ++ two d ++ `"T" ++ two h ++ `":" ++ two mi ++ `":" ++ two s.

(** Word and line boundaries of the date lists read by FORCE. *)
Definition boundary (c : Z) : Prop :=
  In c (`" ,;-_.") \/ c = 13 \/ c = 10 \/ c = 35.
Definition ends_word (rest : list Z) : Prop :=
  match rest with [] => True | c :: _ => boundary c end.

(** A line is blank if it has no word before its end or comment sign. *)
Fixpoint blank (l : list Z) : Prop :=
  match l with
  | [] => True
  | c :: t => c = 13 \/ c = 10 \/ c = 35 \/ (In c (`" ,;-_.") /\ blank t)
  end.
