(** Tables as a user writes them. *)
From Coq Require Import Reals.
From Verif Require Import Base.
#[local] Open Scope Z_scope.

(** The characters between the words of a line: blank, comma, tab. *)
Definition gap_char (c : Z) : Prop := c = 32 \/ c = 44 \/ c = 9.
Definition word_char (c : Z) : Prop := ~ gap_char c /\ c <> 10 /\ c <> 13.
Definition word (w : list Z) : Prop := w <> [] /\ Forall word_char w.

(** [written l ws]: the line l (without line end) shows the words ws. *)
Inductive written : list Z -> list (list Z) -> Prop :=
| written_end g : Forall gap_char g -> written g []
| written_last g w : Forall gap_char g -> word w -> written (g ++ w) [w]
| written_word g w c l ws : Forall gap_char g -> word w -> gap_char c -> written l ws ->
    written (g ++ w ++ c :: l) (w :: ws).

(** A text whose lines show these words; no line has 65535 or more characters,
    lines end with LF or CRLF (the last with LF too). *)
Inductive text_of : list Z -> list (list (list Z)) -> Prop :=
| text_nil : text_of [] []
| text_line l ws cr t rest : written l ws -> zlen l < 65000 -> cr = [] \/ cr = [13] -> text_of t rest ->
    text_of (l ++ cr ++ 10 :: t) (ws :: rest).

(** Least and greatest element. *)
Definition least (l : list R) (m : R) : Prop := In m l /\ forall x, In x l -> (m <= x)%R.
Definition greatest (l : list R) (m : R) : Prop := In m l /\ forall x, In x l -> (x <= m)%R.
