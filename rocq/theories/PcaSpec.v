(** What is asked of principal components. *)
From Coq Require Import Reals.
From Flocq Require Import Core.
From Verif Require Import Base PcaModel.
#[local] Open Scope R_scope.

(** Documentation of gsl_eigen_symmv: orthonormal eigenvectors in the columns, here in order of the eigenvalues. *)
Record eigen (n : nat) (c : nat -> nat -> R) (eval : nat -> R) (evec : nat -> nat -> R) : Prop := mkEigen {
  e_unit : forall j l, (j < n)%nat -> (l < n)%nat -> sum n (fun r => evec r j * evec r l) = if Nat.eqb j l then 1 else 0;
  e_vec : forall r j, (r < n)%nat -> (j < n)%nat -> sum n (fun k => c r k * evec k j) = eval j * evec r j;
  e_desc : forall j l, (j <= l)%nat -> (l < n)%nat -> eval l <= eval j }.
(** A pixel is usable: not masked and with all bands. *)
Definition usable (i : pin) (p : nat) : Prop := (forall m, p_msk i = Some m -> m p = true) /\ forall b, (b < p_nb i)%nat -> p_dat i b p <> p_nodata i.
(** Usable pixels, mean and variance of a function of the pixels over them. *)
Definition over (i : pin) (good : nat -> bool) (f : nat -> R) : R := sum (p_nc i) (fun p => if good p then f p else 0).
Definition count (i : pin) (good : nat -> bool) : R := over i good (fun _ => 1).
Definition average (i : pin) (good : nat -> bool) (f : nat -> R) : R := over i good f / count i good.
Definition variance (i : pin) (good : nat -> bool) (f : nat -> R) : R := let m := average i good f in over i good (fun p => (f p - m) * (f p - m)) / (count i good - 1).
Definition marks (i : pin) (good : nat -> bool) : Prop := forall p, (p < p_nc i)%nat -> good p = true <-> usable i p.
(** Values of a component, 0 where there is none. *)
Definition value (o : option R) : R := match o with Some v => v | None => 0 end.
