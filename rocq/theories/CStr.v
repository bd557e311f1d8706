(** C strings as lists of character codes (without the terminating NUL), and the
    libc functions used by the modelled code.  Model of libc, not of /repo. *)
From Verif Require Import Base.
From Coq Require Export String Ascii.
Export List ListNotations.
#[global] Open Scope Z_scope.

(** String literals. *)
Definition lit (s : String.string) : list Z :=
  map (fun a => Z.of_N (Ascii.N_of_ascii a)) (String.list_ascii_of_string s).
Notation "'`' s" := (lit s%string) (at level 1, s at level 0, only parsing).

(** A C string holds bytes 1..255. *)
Definition cstring (l : list Z) : Prop := Forall (fun c => 1 <= c <= 255) l.

Definition memz (c : Z) (set : list Z) : bool := existsb (Z.eqb c) set.

(** strcspn followed by writing NUL there: keep the part before the first
    character of the set. *)
Fixpoint take_until (set l : list Z) : list Z :=
  match l with
  | [] => []
  | c :: t => if memz c set then [] else c :: take_until set t
  end.
Fixpoint drop_until (set l : list Z) : list Z :=
  match l with
  | [] => []
  | c :: t => if memz c set then l else drop_until set t
  end.
(** strspn: skip leading characters of the set. *)
Fixpoint skip_while (set l : list Z) : list Z :=
  match l with
  | [] => []
  | c :: t => if memz c set then skip_while set t else l
  end.

(** One strtok_r call on the remaining string: (token, new save pointer). *)
Definition strtok (seps l : list Z) : option (list Z * list Z) :=
  match skip_while seps l with
  | [] => None
  | l' => Some (take_until seps l', tl (drop_until seps l'))
  end.

(** All tokens of repeated strtok_r calls; fuel = string length suffices
    (CStrFacts.strtok_all_fuel). *)
Fixpoint strtok_all (fuel : nat) (seps l : list Z) : list (list Z) :=
  match fuel with
  | O => []
  | S f => match strtok seps l with
           | None => []
           | Some (t, r) => t :: strtok_all f seps r
           end
  end.
Definition tokens (seps l : list Z) : list (list Z) := strtok_all (S (length l)) seps l.

Definition is_digit (c : Z) : bool := (48 <=? c) && (c <=? 57).
Definition is_space (c : Z) : bool := (c =? 32) || ((9 <=? c) && (c <=? 13)).

(** atoi: optional white space, optional sign, decimal digits; a value outside
    int is undefined behaviour. *)
Fixpoint digits_val (acc : Z) (l : list Z) : Z :=
  match l with
  | c :: t => if is_digit c then digits_val (acc * 10 + (c - 48)) t else acc
  | [] => acc
  end.
Fixpoint skip_space (l : list Z) : list Z :=
  match l with
  | c :: t => if is_space c then skip_space t else l
  | [] => []
  end.
Definition atoi_val (l : list Z) : Z :=
  match skip_space l with
  | 45 :: t => - digits_val 0 t
  | 43 :: t => digits_val 0 t
  | l' => digits_val 0 l'
  end.
Definition atoi (l : list Z) : outcome Z := chk_int (atoi_val l).

(** Decimal representation: printf "%d" and "%0<w>d". *)
Fixpoint dec_digits (fuel : nat) (n : Z) (acc : list Z) : list Z :=
  match fuel with
  | O => acc
  | S f => let acc' := (48 + n mod 10) :: acc in
           if n <? 10 then acc' else dec_digits f (n / 10) acc'
  end.
Definition dec_nonneg (n : Z) : list Z := dec_digits 20 n [].
Definition print_d (n : Z) : list Z :=
  if n <? 0 then 45 :: dec_nonneg (- n) else dec_nonneg n.
Definition pad0 (w : nat) (l : list Z) : list Z := repeat 48 (w - length l) ++ l.
Definition print_0d (w : nat) (n : Z) : list Z :=
  if n <? 0 then 45 :: pad0 (w - 1) (dec_nonneg (- n)) else pad0 w (dec_nonneg n).

(** snprintf into a buffer of [size] bytes followed by the code base's usual
    overflow test (nchar < 0 || nchar >= size -> exit). *)
Definition snprintf_or_exit (size : Z) (text : list Z) : outcome (list Z) :=
  if zlen text >=? size then Exit else Ret text.

(** copy_string: string-cl.c (strncpy into dst[size]; dst[size-1] != 0 -> exit). *)
Definition copy_string (size : Z) (src : list Z) : outcome (list Z) :=
  if zlen src >=? size then Exit else Ret src.
