(** What the aggregated statistics are, in terms of the list of valid values. *)
From Coq Require Import Reals Permutation Sorting.Sorted.
From Flocq Require Import Core.
From Verif Require Import Base StatsSpec AggModel.
#[local] Open Scope Z_scope.

Definition valid (nodata : Z) (l : list Z) : list Z := filter (fun v => negb (v =? nodata)) l.
(** Valid values of one period. *)
Definition valid_in (nodata period : Z) (s : list (Z * Z)) : list Z :=
  map snd (filter (fun o => (fst o =? period) && negb (snd o =? nodata)) s).

Definition reals (l : list Z) : list R := map IZR l.
Definition least (l : list Z) (v : Z) : Prop := In v l /\ forall w, In w l -> v <= w.
Definition greatest (l : list Z) (v : Z) : Prop := In v l /\ forall w, In w l -> w <= v.

(** Linear interpolation between order statistics at position p(n-1). *)
Definition is_quantile (l : list Z) (p q : R) : Prop := exists s i a b,
  Permutation l s /\ StronglySorted Z.le s /\
  (IZR i <= p * IZR (zlen l - 1) < IZR (i + 1))%R /\
  get_at s i = Some a /\ get_at s (Z.min (i + 1) (zlen l - 1)) = Some b /\
  q = (IZR a + (p * IZR (zlen l - 1) - IZR i) * (IZR b - IZR a))%R.

Definition limited (x : R) : R := Rmax (-30000) (Rmin 30000 x).
Definition skew_of (l : list R) : R := (dev 3 l / size l / pop_sd l ^ 3)%R.
Definition kurt_of (l : list R) : R := (dev 4 l / size l / (dev 2 l / size l) ^ 2 - 3)%R.

(** [separate]: whether IQR is the difference of the truncated quartiles (STM) or
    the truncated difference (folding). *)
Definition described (separate : bool) (l : list Z) (m : metric) (v : Z) : Prop :=
  match m with
  | NUM => v = zlen l
  | MIN => least l v
  | MAX => greatest l v
  | RNG => exists lo hi, least l lo /\ greatest l hi /\ v = hi - lo
  | AVG => v = Ztrunc (mean (reals l))
  | STD => v = Ztrunc (sqrt (dev 2 (reals l) / (size l - 1)))
  | SKW => v = Ztrunc (limited (skew_of (reals l) * 1000))
  | KRT => v = Ztrunc (limited (kurt_of (reals l) * 1000))
  | Q k => exists q, is_quantile l (IZR k / 100) q /\ v = Ztrunc q
  | IQR => exists q1 q3, is_quantile l (1 / 4) q1 /\ is_quantile l (3 / 4) q3 /\
           v = if separate then Ztrunc q3 - Ztrunc q1 else Ztrunc (q3 - q1)%R
  end.

(** When the metric exists and fits. *)
Definition moderate (l : list Z) : Prop := zlen l <= 32767 /\ Forall (fun v => -16383 <= v <= 16383) l.
Definition exists_for (l : list Z) (m : metric) : Prop :=
  match m with
  | STD => 2 <= zlen l
  | SKW | KRT => exists a b, In a l /\ In b l /\ a <> b
  | Q k => 1 <= k <= 99
  | _ => True
  end.
