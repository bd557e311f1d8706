(** C25 and C26: linear and moving average interpolation. *)
From Coq Require Import Sorting.Sorted.
From Verif Require Import Base BaseFacts Float InterpModel InterpSpec InterpProofs.

(** C25: every grid day gets the value [interpolated] describes.  Missing:
    neighbouring observations so far apart that days times value exceeds 2^24. *)
Theorem C25_linear_partial : forall nodata s grid,
  sorted_days s -> days_ok s -> in_short nodata -> gaps_ok nodata s ->
  Forall (fun g => 0 <= g <= 2 ^ 24) grid -> StronglySorted Z.lt grid ->
  exists out, linear_pixel nodata false s grid = Ret out /\ Forall2 (interpolated nodata s) grid out.
Proof.
  intros nodata s grid S D N G B ST. apply lin_loop_spec; auto.
Qed.

Lemma Forall2_get A B (P : A -> B -> Prop) l l' : Forall2 P l l' ->
  forall k x y, get_at l k = Some x -> get_at l' k = Some y -> P x y.
Proof.
  intros F. induction F as [|a b l l' H _ IH]; intros k x y Hx Hy.
  - apply get_at_inv in Hx. unfold zlen in Hx; cbn in Hx. lia.
  - unfold get_at in *. destruct (k <? 0); [discriminate|].
    destruct (Z.to_nat k) as [|m] eqn:M; cbn [nth_error] in *; [congruence|].
    specialize (IH (Z.of_nat m) x y). replace (Z.of_nat m <? 0) with false in IH by lia.
    rewrite Nat2Z.id in IH. auto.
Qed.

Lemma interpolated_bounded : forall nodata s x v, sorted_days s -> interpolated nodata s x v ->
  (forall t y, first_on nodata s x t y -> v = y) /\
  (forall tl cl yl tr cr yr, last_before nodata s x tl cl yl -> first_after nodata s x tr cr yr ->
     (forall t y, ~ clear nodata s t x y) -> Z.min yl yr <= v <= Z.max yl yr) /\
  ((forall t c y, ~ clear nodata s t c y) -> v = nodata).
Proof.
  intros nodata s x v S I.
  assert (forall t c y c' y', clear nodata s t c y -> clear nodata s t c' y' -> c = c' /\ y = y') as U.
  { intros t c y c' y' [G _] [G' _]. rewrite G in G'. inversion G'; auto. }
  destruct I as [t y [C M]|N|t c y [C [L M]] A|t c y [C [L M]] A|tl cl yl tr cr yr [C [L M]] [C' [L' M']] NO].
  - split; [|split].
    + intros t' y' [C' M']. pose proof (M _ _ C'). pose proof (M' _ _ C). assert (t = t') by lia. subst t'.
      apply (U _ _ _ _ _ C C').
    + intros tl cl yl tr cr yr _ _ NO. exfalso. eapply NO; eauto.
    + intros N. exfalso. eapply N; eauto.
  - split; [|split]; auto.
    + intros t y [C _]. exfalso. eapply N; eauto.
    + intros tl cl yl tr cr yr [C _]. exfalso. eapply N; eauto.
  - split; [|split].
    + intros t' y' [C' _]. specialize (A _ _ _ C'). lia.
    + intros tl cl yl tr cr yr [C' [L' _]]. specialize (A _ _ _ C'). lia.
    + intros N. exfalso. eapply N; eauto.
  - split; [|split].
    + intros t' y' [C' _]. specialize (A _ _ _ C'). lia.
    + intros tl cl yl tr cr yr _ [C' [L' _]]. specialize (A _ _ _ C'). lia.
    + intros N. exfalso. eapply N; eauto.
  - split; [|split].
    + intros t y [Q _]. exfalso. eapply NO; eauto.
    + intros tl' cl' yl' tr' cr' yr' [D [K O]] [D' [K' O']] _.
      pose proof (M _ _ _ D K). pose proof (O _ _ _ C L). assert (tl = tl') by lia. subst tl'.
      pose proof (M' _ _ _ D' K'). pose proof (O' _ _ _ C' L'). assert (tr = tr') by lia. subst tr'.
      destruct (U _ _ _ _ _ C D) as [<- <-]. destruct (U _ _ _ _ _ C' D') as [<- <-].
      apply blend_between. lia.
    + intros N. exfalso. eapply N; eauto.
Qed.

(** The interpolated value is determined by the series, is the observation on
    observation days and lies between its neighbours otherwise. *)
Theorem C25_bounded : forall nodata s grid out k x v,
  sorted_days s -> days_ok s -> in_short nodata -> gaps_ok nodata s ->
  Forall (fun g => 0 <= g <= 2 ^ 24) grid -> StronglySorted Z.lt grid ->
  linear_pixel nodata false s grid = Ret out -> get_at grid k = Some x -> get_at out k = Some v ->
  (forall t y, first_on nodata s x t y -> v = y) /\
  (forall tl cl yl tr cr yr, last_before nodata s x tl cl yl -> first_after nodata s x tr cr yr ->
     (forall t y, ~ clear nodata s t x y) -> Z.min yl yr <= v <= Z.max yl yr) /\
  ((forall t c y, ~ clear nodata s t c y) -> v = nodata).
Proof.
  intros nodata s grid out k x v S D N G B ST E Kx Kv.
  destruct (C25_linear_partial nodata s grid S D N G B ST) as (out' & E' & F).
  assert (out' = out) by congruence. subst out'.
  apply interpolated_bounded; auto. eapply Forall2_get; eauto.
Qed.

(** A masked pixel is nodata everywhere. *)
Theorem C25_masked : forall nodata s grid out, linear_pixel nodata true s grid = Ret out ->
  length out = length grid /\ Forall (fun v => v = nodata) out.
Proof.
  intros nodata s grid out E. inversion E; subst. split; [apply map_length|].
  apply Forall_forall. intros v I. apply in_map_iff in I. destruct I as (? & <- & _). auto.
Qed.

(** Single precision: between two equal observations 1699 days apart the
    interpolated value is lower by one. *)
Theorem C25_long_gap_refuted : exists s, days_ok s /\ sorted_days s /\
  (forall t c y, get_at s t = Some (c, y) -> y = 9999) /\
  linear_pixel (-9999) false s [730001] = Ret [9998].
Proof.
  exists [(730000, 9999); (731699, 9999)].
  assert (forall t c y, get_at [(730000, 9999); (731699, 9999)] t = Some (c, y) ->
    y = 9999 /\ ((t = 0 /\ c = 730000) \/ (t = 1 /\ c = 731699))) as H.
  { intros t c y G. pose proof (get_at_inv _ _ _ G) as R. change (zlen [(730000, 9999); (731699, 9999)]) with 2 in R.
    assert (t = 0 \/ t = 1) as [-> | ->] by lia; cbn in G; inversion G; auto. }
  split; [|split; [|split]].
  - intros t c y G. apply H in G. unfold in_short. lia.
  - intros t t' c y c' y' G G' L. apply H in G. apply H in G'. lia.
  - intros t c y G. apply H in G. lia.
  - vm_compute. reflexivity.
Qed.

(** A blend of clear values can equal nodata. *)
Theorem C25_nodata_refuted :
  linear_pixel (-9999) false [(10, -10000); (12, -9998)] [11] = Ret [-9999].
Proof. vm_compute. reflexivity. Qed.

Example C25_example : let s := [(100, -9999); (110, 50); (120, -9999); (130, 150); (135, 10)] in
  sorted_days s /\ days_ok s /\ gaps_ok (-9999) s /\
  linear_pixel (-9999) false s [105; 110; 114; 126; 130; 134; 140] = Ret [50; 50; 70; 130; 150; 38; 10].
Proof.
  intros s.
  assert (forall t c y, get_at s t = Some (c, y) ->
    (t = 0 /\ c = 100 /\ y = -9999) \/ (t = 1 /\ c = 110 /\ y = 50) \/ (t = 2 /\ c = 120 /\ y = -9999) \/
    (t = 3 /\ c = 130 /\ y = 150) \/ (t = 4 /\ c = 135 /\ y = 10)) as H.
  { intros t c y G. pose proof (get_at_inv _ _ _ G) as R. change (zlen s) with 5 in R.
    assert (t = 0 \/ t = 1 \/ t = 2 \/ t = 3 \/ t = 4) as [-> |[-> |[-> |[-> | ->]]]] by lia; cbn in G; inversion G; lia. }
  split; [|split; [|split]].
  - intros t t' c y c' y' G G' L. apply H in G. apply H in G'. lia.
  - intros t c y G. apply H in G. unfold in_short. lia.
  - intros tl cl yl tr cr yr [G _] [G' _] L _. apply H in G. apply H in G'.
    assert (Z.max (Z.abs yl) (Z.abs yr) <= 9999) by lia. assert (0 <= cr - cl <= 35) by lia. nia.
  - vm_compute. reflexivity.
Qed.

(** C26 *)
Theorem C26_moving : forall nodata w s grid,
  sorted_days s -> days_ok s -> 0 <= w <= 2 ^ 24 -> zlen s < 2 ^ 37 ->
  Forall (fun g => 0 <= g <= 2 ^ 24) grid -> StronglySorted Z.lt grid ->
  moving_pixel nodata w false s grid = Ret (map (fun g => moving_value nodata w g s) grid).
Proof.
  intros nodata w s grid S D W L B ST. apply mov_loop_spec; auto.
  - pose proof (zlen_nonneg s). lia.
  - apply Forall_forall. intros g I t c y G LT. apply get_at_inv in G. lia.
Qed.

(** A mean that happens to equal nodata cannot be told from an empty window. *)
Theorem C26_nodata_refuted :
  moving_pixel (-9999) 5 false [(10, -10000); (12, -9998)] [11] = Ret [-9999].
Proof. vm_compute. reflexivity. Qed.

Example C26_example : let s := [(100, -9999); (110, 50); (111, 60); (130, 150)] in
  sorted_days s /\ days_ok s /\
  moving_pixel (-9999) 5 false s [100; 106; 112; 120; 127] = Ret [-9999; 55; 55; -9999; 150].
Proof.
  intros s.
  assert (forall t c y, get_at s t = Some (c, y) ->
    (t = 0 /\ c = 100 /\ y = -9999) \/ (t = 1 /\ c = 110 /\ y = 50) \/ (t = 2 /\ c = 111 /\ y = 60) \/
    (t = 3 /\ c = 130 /\ y = 150)) as H.
  { intros t c y G. pose proof (get_at_inv _ _ _ G) as R. change (zlen s) with 4 in R.
    assert (t = 0 \/ t = 1 \/ t = 2 \/ t = 3) as [-> |[-> |[-> | ->]]] by lia; cbn in G; inversion G; lia. }
  split; [|split].
  - intros t t' c y c' y' G G' L. apply H in G. apply H in G'. lia.
  - intros t c y G. apply H in G. unfold in_short. lia.
  - vm_compute. reflexivity.
Qed.

Print Assumptions C25_linear_partial.
Print Assumptions C25_bounded.
Print Assumptions C25_masked.
Print Assumptions C25_long_gap_refuted.
Print Assumptions C25_nodata_refuted.
Print Assumptions C26_moving.
Print Assumptions C26_nodata_refuted.

(** C72: reflectances (up to 10000) with less than 1677 days between neighbouring clear
    observations are interpolated exactly, grow and fall between two observations as they
    do, and stay between them. *)
Lemma dense_gaps nodata s : reflectances nodata s -> dense nodata s -> sorted_days s -> gaps_ok nodata s.
Proof.
  intros R D S tl cl yl tr cr yr A B L N. pose proof (D tl cl yl tr cr yr A B L N). pose proof (R _ _ _ A). pose proof (R _ _ _ B).
  assert (cl <= cr) as O. { destruct A as (A & _), B as (B & _). apply (S tl tr cl yl cr yr A B). lia. }
  change (2 ^ 24) with 16777216. assert (Z.max (Z.abs yl) (Z.abs yr) <= 10000) by lia. nia.
Qed.

Theorem C72_reflectance_series : forall nodata s grid,
  sorted_days s -> days_ok s -> in_short nodata -> reflectances nodata s -> dense nodata s ->
  Forall (fun g => 0 <= g <= 2 ^ 24) grid -> StronglySorted Z.lt grid ->
  exists out, linear_pixel nodata false s grid = Ret out /\ Forall2 (interpolated nodata s) grid out.
Proof.
  intros nodata s grid S D N R G F Q. apply C25_linear_partial; auto. apply dense_gaps; auto.
Qed.

Lemma blend_up a b cl cr x x' : a <= b -> cl < x <= x' -> x' < cr ->
  a * (cr - cl) <= a * (cr - x) + b * (x - cl) /\
  a * (cr - x) + b * (x - cl) <= a * (cr - x') + b * (x' - cl) /\
  a * (cr - x') + b * (x' - cl) <= b * (cr - cl).
Proof. intros. split; [|split]; nia. Qed.

Lemma blend_down a b cl cr x x' : b <= a -> cl < x <= x' -> x' < cr ->
  b * (cr - cl) <= a * (cr - x') + b * (x' - cl) /\
  a * (cr - x') + b * (x' - cl) <= a * (cr - x) + b * (x - cl) /\
  a * (cr - x) + b * (x - cl) <= a * (cr - cl).
Proof. intros. split; [|split]; nia. Qed.

Lemma quot_mono a b c : a <= b -> 0 < c -> Z.quot a c <= Z.quot b c.
Proof. intros H C. apply Z.quot_le_mono; lia. Qed.

Theorem C72_monotone_between : forall nodata s grid out i j x x' v v' tl cl yl tr cr yr,
  sorted_days s -> days_ok s -> in_short nodata -> reflectances nodata s -> dense nodata s ->
  Forall (fun g => 0 <= g <= 2 ^ 24) grid -> StronglySorted Z.lt grid ->
  linear_pixel nodata false s grid = Ret out ->
  get_at grid i = Some x -> get_at out i = Some v -> get_at grid j = Some x' -> get_at out j = Some v' ->
  x <= x' -> clear nodata s tl cl yl -> clear nodata s tr cr yr -> cl < x -> x' < cr ->
  (forall t c y, clear nodata s t c y -> c <= cl /\ t <= tl \/ cr <= c /\ tr <= t) ->
  (yl <= yr -> yl <= v <= v' /\ v' <= yr) /\ (yr <= yl -> yr <= v' <= v /\ v <= yl).
Proof.
  intros nodata s grid out i j x x' v v' tl cl yl tr cr yr S D N R G F Q E Gx Gv Gx' Gv' LE CL CR XL XR B.
  assert (forall z w, In (z, w) (combine grid out) -> cl < z < cr -> w = Z.quot (yl * (cr - z) + yr * (z - cl)) (cr - cl)) as V.
  { destruct (C72_reflectance_series nodata s grid S D N R G F Q) as (out' & E' & P). rewrite E in E'. injection E' as <-.
    intros z w I Z. assert (interpolated nodata s z w) as K.
    { clear - P I. induction P; cbn [combine] in I; [destruct I|]. destruct I as [I|I]; [injection I as <- <-; assumption|auto]. }
    inversion K as [t y (C & _)|C|t c y (C & _) A|t c y (C & _) A|tl' cl' yl' tr' cr' yr' L1 R1 NO]; subst.
    - destruct (B _ _ _ C); lia.
    - destruct (C _ _ _ CL).
    - specialize (A _ _ _ CL). lia.
    - specialize (A _ _ _ CR). lia.
    - destruct L1 as (C1 & LT1 & M1). destruct R1 as (C2 & LT2 & M2).
      assert (tl' = tl) as ->. { specialize (M1 _ _ _ CL ltac:(lia)). destruct (B _ _ _ C1); lia. }
      assert (tr' = tr) as ->. { specialize (M2 _ _ _ CR ltac:(lia)). destruct (B _ _ _ C2); lia. }
      destruct CL as (CL & _), C1 as (C1 & _), CR as (CR & _), C2 as (C2 & _).
      rewrite CL in C1. injection C1 as <- <-. rewrite CR in C2. injection C2 as <- <-. reflexivity. }
  assert (forall k z w, get_at grid k = Some z -> get_at out k = Some w -> In (z, w) (combine grid out)) as IC.
  { clear. intros k z w A B. unfold get_at in *. destruct (k <? 0); [discriminate|]. revert A B. generalize (Z.to_nat k) out. clear.
    induction grid as [|g grid IH]; intros [|n] [|o out] A B; try discriminate; cbn in *; [left; congruence|right; eapply IH; eassumption]. }
  rewrite (V x v (IC _ _ _ Gx Gv)) by lia. rewrite (V x' v' (IC _ _ _ Gx' Gv')) by lia.
  assert (forall y, Z.quot (y * (cr - cl)) (cr - cl) = y) as U by (intros y; rewrite Z.quot_mul; lia).
  assert (forall a b, a <= b -> Z.quot a (cr - cl) <= Z.quot b (cr - cl)) as M by (intros a b H; apply quot_mono; lia).
  split; intros O.
  - destruct (blend_up yl yr cl cr x x') as (A1 & A2 & A3); [lia..|].
    apply M in A1, A2, A3. rewrite U in A1, A3. auto.
  - destruct (blend_down yl yr cl cr x x') as (A1 & A2 & A3); [lia..|].
    apply M in A1, A2, A3. rewrite U in A1, A3. auto.
Qed.
Print Assumptions C72_reflectance_series.
Print Assumptions C72_monotone_between.

Example C72_example : let s := [(100, -9999); (110, 50); (120, -9999); (130, 150); (135, 10)] in
  reflectances (-9999) s /\ dense (-9999) s /\
  linear_pixel (-9999) false s [112; 114; 126; 131; 134] = Ret [60; 70; 130; 122; 38].
Proof.
  intros s.
  assert (forall t c y, get_at s t = Some (c, y) -> 100 <= c <= 135 /\ -9999 <= y <= 150) as H.
  { intros t c y G. pose proof (get_at_inv _ _ _ G) as R. change (zlen s) with 5 in R.
    assert (t = 0 \/ t = 1 \/ t = 2 \/ t = 3 \/ t = 4) as [-> |[-> |[-> |[-> | ->]]]] by lia; cbn in G; inversion G; lia. }
  split; [|split].
  - intros t c y (G & _). apply H in G. lia.
  - intros tl cl yl tr cr yr (A & _) (B & _) _ _. apply H in A, B. lia.
  - vm_compute. reflexivity.
Qed.
