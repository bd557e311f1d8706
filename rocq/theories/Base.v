(** Shared vocabulary of the models: outcomes of a C computation, fixed width
    integers, bounds-checked array access.  Nothing here is specific to one
    source file of /repo. *)
From Coq Require Export ZArith List Bool Lia.
From Coq Require Export ZifyBool ZifyNat.
Export ListNotations.
#[global] Open Scope Z_scope.
Ltac Zify.zify_post_hook ::= Z.div_mod_to_equations.

(** Result of running a piece of C code.
    [Ret a]  it returned normally with [a];
    [UB]     it executed undefined behaviour (out-of-bounds access, signed
             overflow, use of NULL, unrepresentable float conversion, ...);
    [Exit]   it called exit() with an error status. *)
Inductive outcome (A : Type) : Type :=
| Ret (a : A)
| UB
| Exit.
Arguments Ret {A} a.
Arguments UB {A}.
Arguments Exit {A}.

Definition bind {A B} (x : outcome A) (f : A -> outcome B) : outcome B :=
  match x with Ret a => f a | UB => UB | Exit => Exit end.

Declare Scope outcome_scope.
Notation "x <- e ;; f" := (bind e (fun x => f))
  (at level 61, e at next level, right associativity) : outcome_scope.
Open Scope outcome_scope.

(** An array access is [UB] when the checked access fails. *)
Definition of_option {A} (o : option A) : outcome A :=
  match o with Some a => Ret a | None => UB end.

(** SUCCESS / FAILURE / CANCEL return codes: const-cl.h / enum-cl.h. *)
Inductive rc := SUCCESS | FAILURE | CANCEL.

(** Two's complement conversion to short (16 bit) and int (32 bit): the
    implementation-defined (gcc: modulo) narrowing conversions. *)
Definition to_short (z : Z) : Z := (z + 32768) mod 65536 - 32768.
Definition in_short (z : Z) : Prop := -32768 <= z <= 32767.
Definition in_shortb (z : Z) : bool := (-32768 <=? z) && (z <=? 32767).
Definition in_int (z : Z) : Prop := -2147483648 <= z <= 2147483647.
Definition in_intb (z : Z) : bool := (-2147483648 <=? z) && (z <=? 2147483647).

(** Signed 32-bit arithmetic result: overflow is undefined behaviour. *)
Definition chk_int (z : Z) : outcome Z := if in_intb z then Ret z else UB.

(** Bounds-checked read and write of a C array represented as a list. *)
Definition get_at {A} (l : list A) (i : Z) : option A :=
  if i <? 0 then None else nth_error l (Z.to_nat i).

Fixpoint list_set {A} (l : list A) (n : nat) (v : A) : list A :=
  match l, n with
  | [], _ => []
  | _ :: t, O => v :: t
  | h :: t, S n' => h :: list_set t n' v
  end.

Definition set_at {A} (l : list A) (i : Z) (v : A) : option (list A) :=
  if (i <? 0) || (Z.of_nat (length l) <=? i) then None
  else Some (list_set l (Z.to_nat i) v).

(** Length as Z. *)
Definition zlen {A} (l : list A) : Z := Z.of_nat (length l).

(** A loop whose iterations are independent. *)
Fixpoint omap {A B} (f : A -> outcome B) (l : list A) : outcome (list B) :=
  match l with
  | [] => Ret []
  | a :: t => b <- f a ;; bs <- omap f t ;; Ret (b :: bs)
  end.
