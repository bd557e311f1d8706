(** Principal components: src/modules/cross-level/pca-cl.c, pca (49-207).  Real numbers instead of floats; the
    matrices of GSL are functions of row and column.  The rows of the data matrix are named by their pixel (the
    counter of 108 and 185 runs over the valid pixels in order).  The eigensolver of GSL is a parameter:
    [eval] and [evec] (eigenvectors in the columns, as documented). *)
From Coq Require Import Reals.
From Flocq Require Import Core.
From Verif Require Import Base.
#[local] Open Scope R_scope.

Fixpoint sum (n : nat) (f : nat -> R) : R := match n with O => 0 | S n => sum n f + f n end.
(** Input: bands and pixels, mask and nodata value. *)
Record pin := mkPin { p_nb : nat; p_nc : nat; p_dat : nat -> nat -> Z; p_msk : option (nat -> bool); p_nodata : Z }.
Section Pca.
Variable i : pin.
(** 71-87: a masked pixel is skipped; a pixel that lacks a band is not used, but its other bands count for the mean. *)
Definition masked (p : nat) : bool := match p_msk i with Some m => negb (m p) | None => false end.
Definition lacks (p b : nat) : bool := (p_dat i b p =? p_nodata i)%Z.
Definition missing (p : nat) : bool := masked p || existsb (lacks p) (seq 0 (p_nb i)).
Definition nk : nat := length (filter (fun p => negb (missing p)) (seq 0 (p_nc i))).
Definition mean (b : nat) : R := sum (p_nc i) (fun p => if masked p || lacks p b then 0 else IZR (p_dat i b p)) / INR nk.
(** 104-115 *)
Definition centred (p b : nat) : R := IZR (p_dat i b p) - mean b.
(** 120-122: covariance matrix *)
Definition covm (b c : nat) : R := sum (p_nc i) (fun p => if missing p then 0 else centred p b * centred p c) / (INR nk - 1).
(** 155-166: components to keep; without any variance the share is not a number and all are kept. *)
Fixpoint keep (n : nat) (b : nat) (eval : nat -> R) (total cum minvar : R) : option nat :=
  match n with
  | O => None
  | S n => let cum := cum + eval b in if Rlt_bool minvar (cum / total) then Some (S b) else keep n (S b) eval total cum minvar
  end.
Definition numcomp (eval : nat -> R) (minvar : R) : nat :=
  if Rlt_bool minvar 1 then
    let total := sum (p_nb i) eval in
    if Req_bool total 0 then p_nb i
    else match keep (p_nb i) 0 eval total 0 minvar with Some k => k | None => p_nb i end
  else p_nb i.
(** 177: the product of the data with the transposed matrix of eigenvectors; 179-188. None: nodata. *)
Definition component (evec : nat -> nat -> R) (b p : nat) : option R :=
  if missing p then None else Some (sum (p_nb i) (fun j => centred p j * evec b j)).
End Pca.
