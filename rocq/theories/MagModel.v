(** Magic parameters: model of bash/force-magic-parameters.sh:112-201.
    The replacement vectors are given as a list of keys with their values; the remaining parameter file is a list of pieces, literal text and {%key%}.
    Left out: how lines are split into words, and characters that have a meaning for eval, sed or as separator (% + & , braces, quotes, $) in values;
    values do not contain {%key%}.  A vector without values is a line with a blank behind the colon.  The names of the files are numbered from 1 and are not modelled. *)
From Verif Require Import Base CStr.

Definition text := list Z.
Inductive piece := Lit (t : text) | Hole (key : text).
Definition vectors := list (text * list text).
Definition key_eqb (a b : text) : bool := if list_eq_dec Z.eq_dec a b then true else false.

(** 129 and the brace expansion of 135: with less than two values there is no comma, and bash leaves the braces where they are. *)
Definition braces (values : list text) : list text :=
  match values with
  | [] => [`"{}"]
  | [v] => [`"{" ++ v ++ `"}"]
  | _ => values
  end.
(** The first vector changes slowest. *)
Fixpoint expand (vs : list (list text)) : list (list text) :=
  match vs with
  | [] => [[]]
  | v :: t => flat_map (fun x => map (cons x) (expand t)) (braces v)
  end.

(** 141-148: every vector is compared with the one before, if that one is not empty. *)
Fixpoint lengths_ok (n : nat) (vs : list (list text)) : bool :=
  match vs with
  | [] => true
  | v :: t => negb ((0 <? n)%nat && negb (n =? length v)%nat) && lengths_ok (length v) t
  end.
(** 155-158: combis[i] grows by one value. *)
Fixpoint append_all (combis : list (list text)) (v : list text) : list (list text) :=
  match v, combis with
  | [], _ => combis
  | x :: v', c :: cs => (c ++ [x]) :: append_all cs v'
  | x :: v', [] => [x] :: append_all [] v'
  end.
Definition pair_up (vs : list (list text)) : list (list text) := fold_left append_all vs [].

(** 196: s+{%key%}+value+g; a value that is not there is empty. *)
Definition put (key value : text) (body : list piece) : list piece :=
  map (fun p => match p with Hole k => if key_eqb k key then Lit value else p | _ => p end) body.
(** 194-198. *)
Fixpoint replace (keys : list text) (v : list text) (body : list piece) : list piece :=
  match keys with
  | [] => body
  | k :: t => replace t (tl v) (put k (hd [] v) body)
  end.
(** The text of the file that is written. *)
Definition written (body : list piece) : text := flat_map (fun p => match p with Lit t => t | Hole k => `"{%" ++ k ++ `"%}" end) body.

(** 112-201; [Exit]: a message and no files. *)
Definition magic (paired : bool) (vs : vectors) (body : list piece) : outcome (list text) :=
  if (length vs <? 1)%nat then Exit
  else if paired then
    if lengths_ok 0 (map snd vs) then Ret (map (fun c => written (replace (map fst vs) c body)) (pair_up (map snd vs))) else Exit
  else Ret (map (fun c => written (replace (map fst vs) c body)) (expand (map snd vs))).
