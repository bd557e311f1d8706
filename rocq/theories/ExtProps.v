(** Suggested extent (C168). *)
From Verif Require Import Base ExtModel.

(** [lo] and [hi] are the smallest and the largest one. *)
Definition spans (zs : list Z) (lo hi : Z) : Prop := In lo zs /\ In hi zs /\ forall z, In z zs -> lo <= z <= hi.
Lemma go zs : ~ In 0 zs -> forall lo hi, exists lo' hi', fold_left extend zs (Some lo, Some hi) = (Some lo', Some hi') /\ lo' <= lo /\ hi <= hi' /\
  (forall z, In z zs -> lo' <= z <= hi') /\ (lo' = lo \/ In lo' zs) /\ (hi' = hi \/ In hi' zs).
Proof.
  induction zs as [|z zs IH]; intros N lo hi; cbn [fold_left].
  - exists lo, hi. repeat split; try lia; try easy; auto.
  - unfold extend at 2, stripped. destruct (z =? 0) eqn:E; [destruct N; left; lia|]. cbn [is_gt is_lt fst snd].
    assert (N' : ~ In 0 zs) by (intros H; apply N; now right).
    replace (if z <? lo then Some z else Some lo) with (Some (Z.min z lo)) by (destruct (z <? lo) eqn:Q; f_equal; lia).
    replace (if hi <? z then Some z else Some hi) with (Some (Z.max z hi)) by (destruct (hi <? z) eqn:Q; f_equal; lia).
    destruct (IH N' (Z.min z lo) (Z.max z hi)) as (lo' & hi' & R & L & H & B & Ml & Mh). exists lo', hi'. split; auto. split; [lia|]. split; [lia|]. split; [|split].
    + intros y [->|I]; [lia | now apply B].
    + destruct Ml as [->|I]; [|right; now right]. destruct (Z.min_spec z lo) as [(_ & ->)|(_ & ->)]; [right; now left | now left].
    + destruct Mh as [->|I]; [|right; now right]. destruct (Z.max_spec z hi) as [(_ & ->)|(_ & ->)]; [now left | right; now left].
Qed.
(** ** C168 *)
(** Without the column (or row) 0 the range is the smallest and the largest one. *)
Theorem C168_range_partial : forall zs, zs <> [] -> (forall z, In z zs -> -999 <= z <= 9999) -> ~ In 0 zs -> exists lo hi, range zs = (Some lo, Some hi) /\ spans zs lo hi.
Proof.
  intros zs Ne B N. destruct (go zs N 9999 (-999)) as (lo & hi & R & L & H & S & Ml & Mh). exists lo, hi. split; [exact R|]. destruct zs as [|z zs]; [easy|]. pose proof (S z (or_introl eq_refl)). pose proof (B z (or_introl eq_refl)).
  repeat split; try now apply S.
  - destruct Ml as [->|I]; auto. assert (z = 9999) by lia. subst. now left.
  - destruct Mh as [->|I]; auto. assert (z = -999) by lia. subst. now left.
Qed.
Print Assumptions C168_range_partial.
(** The allow-list has all tiles, in order, and their number. *)
Theorem C168_allow_list : forall tiles, fst (fst (tile_extent tiles)) = (zlen tiles, tiles).
Proof. reflexivity. Qed.
Print Assumptions C168_allow_list.
Example C168_case : tile_extent [(3, -2); (4, 7); (5, 1)] = ((3, [(3, -2); (4, 7); (5, 1)]), (Some 3, Some 5), (Some (-2), Some 7)).
Proof. vm_compute. reflexivity. Qed.
(** Whenever there is a tile in column 0, the minimum is empty. *)
Theorem C168_zero_refuted : forall zs, In 0 zs -> fst (range zs) = None.
Proof.
  assert (Stay : forall zs h, fst (fold_left extend zs (None, h)) = None).
  { induction zs as [|z zs IH]; intros h; cbn [fold_left]; auto. unfold extend at 2. cbn [fst snd]. destruct (stripped z); apply IH. }
  assert (All : forall zs r, In 0 zs -> fst (fold_left extend zs r) = None).
  { induction zs as [|z zs IH]; intros r I; [easy|]. cbn [fold_left]. destruct I as [->|I]; [|now apply IH]. unfold extend at 2. cbn [stripped Z.eqb]. destruct (fst r) eqn:E; apply Stay. }
  intros zs I. now apply All.
Qed.
Print Assumptions C168_zero_refuted.
(** Tiles in the columns -1 and 0: the maximum is -1; in column 0 only: -999. *)
Theorem C168_maximum_refuted : range [-1; 0] = (None, Some (-1)) /\ range [0] = (None, Some (-999)).
Proof. split; vm_compute; reflexivity. Qed.
