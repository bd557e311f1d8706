(** Specification of library completeness: distance to the closest entry. *)
From Coq Require Import Reals.
From Verif Require Import Base Loops StatsSpec.
#[local] Open Scope R_scope.

Definition entry (row : list R) (c : Z) : R := nth (Z.to_nat c) row 0.
(** Sample standard deviation of column [c]. *)
Definition spread (t : list (list R)) (c : Z) : R := let l := map (fun row => entry row c) t in sqrt (dev 2 l / (size l - 1)).
(** The unit in which feature [c] is measured. *)
Definition unit_of (rescale : bool) (t : list (list R)) (c : Z) : R := if rescale then spread t c else 1.
(** One column per feature; with rescaling no column is constant. *)
Definition well_formed (rescale : bool) (nf : Z) (t : list (list R)) : Prop :=
  (forall row, In row t -> zlen row = nf) /\
  (rescale = true -> forall c, (0 <= c < nf)%Z -> exists r1 r2, In r1 t /\ In r2 t /\ entry r1 c <> entry r2 c).
(** Features with a value, and their values. *)
Definition usable (feats : list (Z * bool)) (c : Z) : bool := match get_at feats c with Some (_, true) => true | _ => false end.
Definition feature (feats : list (Z * bool)) (c : Z) : R := match get_at feats c with Some (v, _) => IZR v | None => 0 end.
(** Mean absolute difference between the pixel and an entry, over the usable features. *)
Definition distance (rescale : bool) (t : list (list R)) (feats : list (Z * bool)) (row : list R) : R :=
  mean (map (fun c => Rabs (entry row c - feature feats c) / unit_of rescale t c) (filter (usable feats) (zupto (zlen feats)))).
(** [v] is the value written for the smallest distance among a set of entries: thousandths of units with
    rescaling, fraction dropped, nodata if it does not fit or if there is no entry. *)
Definition factor (rescale : bool) : R := if rescale then 1000 else 1.
Definition written (rescale : bool) (nodata : Z) (ds : R -> Prop) (v : Z) : Prop :=
  (forall d, ds d -> (forall e, ds e -> d <= e) -> factor rescale * d < 32767 -> IZR v <= factor rescale * d < IZR v + 1) /\
  ((forall d, ds d -> 32767 <= factor rescale * d) -> v = nodata).
