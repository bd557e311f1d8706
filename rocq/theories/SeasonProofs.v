From Verif Require Import Base Loops BaseFacts LoopsFacts DateModel DateSpec DateProofs ChunkProofs SeasonModel SeasonSpec.
From Coq Require Import Sorting.Sorted.

Definition bits (f : list Z) : Prop := Forall (fun v => v = 0 \/ v = 1) f.

Lemma bits_get f k : bits f -> 0 <= k < zlen f -> exists v, get_at f k = Some v /\ (v = 0 \/ v = 1).
Proof.
  intros B R. destruct (get_at_some f k R) as (v & G). exists v. split; auto.
  unfold bits in B. rewrite Forall_forall in B. apply B. eapply get_at_In; eauto.
Qed.

Lemma mark_ok f k : bits f -> 0 <= k < zlen f ->
  exists f', mark f k = Ret f' /\ zlen f' = zlen f /\ bits f' /\ forall j, used f' j <-> used f j \/ j = k.
Proof.
  intros B R. unfold mark, used. destruct (set_at f k 1) as [f'|] eqn:E.
  - exists f'. split; [reflexivity|]. split; [eapply set_at_length; eauto|]. split.
    + apply set_at_inv in E. destruct E as (_ & ->). apply Forall_list_set; auto.
    + intros j. destruct (Z.eq_dec j k) as [-> |N].
      * rewrite (get_set_same _ _ _ _ E). tauto.
      * erewrite get_set_other by eauto. intuition congruence.
  - exfalso. rewrite (set_at_some f k 1 R) in E. discriminate.
Qed.

Lemma mark_range_ok lo hi f : bits f -> 0 <= lo -> hi < zlen f ->
  exists f', mark_range lo hi f = Ret f' /\ zlen f' = zlen f /\ bits f' /\ forall j, used f' j <-> used f j \/ lo <= j <= hi.
Proof.
  intros B L H. unfold mark_range. destruct (Z_lt_dec hi lo) as [E|E].
  - rewrite zrange_nil by auto. exists f. cbn [ofold]. split; [auto|]. split; [auto|]. split; [auto|]. intros j. split; [tauto|]. intros [U|U]; [auto|lia].
  - destruct (ofold_zrange mark (fun k g => zlen g = zlen f /\ bits g /\ forall j, used g j <-> used f j \/ lo <= j < k) lo hi f) as (f' & E' & L' & B' & U).
    + lia.
    + split; [auto|]. split; [auto|]. intros j. split; [tauto|]. intros [U|U]; [auto|lia].
    + intros k g Hk (Lg & Bg & Ug). destruct (mark_ok g k Bg) as (g' & E1 & E2 & E3 & E4); [lia|].
      exists g'. split; auto. split; [lia|]. split; auto. intros j. rewrite E4, Ug. split.
      * intros [[K|K]|K]; [tauto|right; lia|right; lia].
      * intros [K|K]; [tauto|]. destruct (Z.eq_dec j k); [tauto|]. left. right. lia.
    + exists f'. split; auto. split; auto. split; auto. intros j. rewrite U. split; (intros [K|K]; [tauto|right; lia]).
Qed.

Lemma none_bits n : bits (repeat 0 n).
Proof. unfold bits. apply Forall_forall. intros x I. apply repeat_spec in I. auto. Qed.
Lemma none_used n k : ~ used (repeat 0 n) k.
Proof.
  unfold used. intros E. apply get_at_In in E. apply repeat_spec in E. discriminate.
Qed.
Lemma len366 : zlen (repeat 0 366) = 366. Proof. reflexivity. Qed.

(** What the code flags. *)
Definition flagged (lo hi d : Z) : Prop := if lo <? hi then lo <= d <= hi else 1 <= d <= hi \/ lo <= d <= 365.

Lemma mark_days_ok lo hi : 1 <= lo <= 365 -> 1 <= hi <= 365 ->
  exists f, mark_days lo hi = Ret f /\ zlen f = 366 /\ bits f /\ forall d, used f d <-> flagged lo hi d.
Proof.
  intros L H. unfold mark_days, flagged. destruct (Z.ltb_spec lo hi).
  - destruct (mark_range_ok lo hi (repeat 0 366) (none_bits _)) as (f & E & Lf & B & U); [lia|rewrite len366; lia|].
    exists f. split; auto. rewrite len366 in Lf. split; auto. split; auto. intros d. rewrite U. pose proof (none_used 366 d). tauto.
  - destruct (mark_range_ok 1 hi (repeat 0 366) (none_bits _)) as (f & E & Lf & B & U); [lia|rewrite len366; lia|]. rewrite len366 in Lf.
    rewrite E. cbn [bind]. destruct (mark_range_ok lo 365 f B) as (g & E' & Lg & B' & U'); [lia|lia|].
    exists g. split; auto. split; [lia|]. split; auto. intros d. rewrite U', U. pose proof (none_used 366 d). tauto.
Qed.

Lemma periods_range d : 1 <= d <= 365 -> 0 <= doy2week d < 53 /\ 0 <= doy2m d < 13 /\ 0 <= doy2quarter d < 5.
Proof.
  intros D. pose proof (week_spec d D) as W. destruct (doy2m_d_agree d) as (M & _). pose proof (doy2md_correct d D) as C.
  destruct (doy2md d) as [m dd] eqn:E. cbn [fst snd] in *. destruct C as (V & S).
  assert (in_quarter m (doy2quarter d)) as Q.
  { pose proof (quarter_spec m dd V) as Q. rewrite md2doy_correct in Q by apply V. congruence. }
  unfold in_week, in_quarter in *. destruct V as (V & _). rewrite M. lia.
Qed.

Lemma mark_periods_ok days : zlen days = 366 -> bits days ->
  exists w m q, ofold (mark_periods days) (zrange 1 365) (repeat 0 53, repeat 0 13, repeat 0 5) = Ret (w, m, q) /\
    (zlen w = 53 /\ bits w /\ forall j, used w j <-> exists d, 1 <= d <= 365 /\ used days d /\ doy2week d = j) /\
    (zlen m = 13 /\ bits m /\ forall j, used m j <-> exists d, 1 <= d <= 365 /\ used days d /\ doy2m d = j) /\
    (zlen q = 5 /\ bits q /\ forall j, used q j <-> exists d, 1 <= d <= 365 /\ used days d /\ doy2quarter d = j).
Proof.
  intros L B.
  set (good := fun (n : Z) (f : Z -> Z) (k : Z) (g : list Z) => zlen g = n /\ bits g /\ forall j, used g j <-> exists d, 1 <= d < k /\ used days d /\ f d = j).
  destruct (ofold_zrange (mark_periods days) (fun k acc => good 53 doy2week k (fst (fst acc)) /\ good 13 doy2m k (snd (fst acc)) /\ good 5 doy2quarter k (snd acc))
    1 365 (repeat 0 53, repeat 0 13, repeat 0 5)) as (((w & m) & q) & E & G).
  - lia.
  - assert (forall n f, good (Z.of_nat n) f 1 (repeat 0 n)) as G.
    { intros n f. split; [unfold zlen; now rewrite repeat_length|]. split; [apply none_bits|]. intros j. pose proof (none_used n j). split; [tauto|]. intros (d & ? & _). lia. }
    cbn [fst snd]. split; [apply (G 53%nat)|]. split; [apply (G 13%nat)|apply (G 5%nat)].
  - intros d ((w & m) & q) Hd (Gw & Gm & Gq). cbn [fst snd] in *. unfold mark_periods.
    destruct (bits_get days d B ltac:(lia)) as (v & V & Hv). rewrite V. cbn [of_option bind].
    assert (skip : forall n f g, v = 0 -> good n f d g -> good n f (d + 1) g).
    { intros n f g V0 (g1 & g2 & g3). split; auto. split; auto. intros j. rewrite g3. split; intros (e & E1 & E2 & E3); exists e; split; auto; try lia.
      destruct (Z.eq_dec e d) as [-> |]; [|lia]. unfold used in E2. congruence. }
    assert (add : forall n f g, v = 1 -> 0 <= f d < n -> good n f d g -> exists g', mark g (f d) = Ret g' /\ good n f (d + 1) g').
    { intros n f g V1 R (g1 & g2 & g3). destruct (mark_ok g (f d) g2) as (g' & E1 & E2 & E3 & E4); [lia|]. exists g'. split; auto.
      split; [lia|]. split; auto. intros j. rewrite E4, g3. split.
      - intros [(e & U1 & U2 & U3)| ->]; [exists e; split; auto; lia|]. exists d. split; [lia|]. split; auto. unfold used. congruence.
      - intros (e & U1 & U2 & U3). destruct (Z.eq_dec e d) as [-> |]; [now right|]. left. exists e. split; auto. lia. }
    destruct Hv as [-> | ->]; cbn [Z.eqb].
    + exists (w, m, q). cbn [fst snd]. auto.
    + destruct (periods_range d Hd) as (R1 & R2 & R3).
      destruct (add 53 doy2week w eq_refl R1 Gw) as (w' & Ew & Gw'). destruct (add 13 doy2m m eq_refl R2 Gm) as (m' & Em & Gm').
      destruct (add 5 doy2quarter q eq_refl R3 Gq) as (q' & Eq & Gq').
      rewrite Ew. cbn [bind]. rewrite Em. cbn [bind]. rewrite Eq. cbn [bind]. exists (w', m', q'). cbn [fst snd]. auto.
  - exists w, m, q. split; auto. cbn [fst snd] in G. destruct G as (G1 & G2 & G3).
    assert (forall n f g, good n f (365 + 1) g -> zlen g = n /\ bits g /\ forall j, used g j <-> exists d, 1 <= d <= 365 /\ used days d /\ f d = j) as X.
    { intros n f g (g1 & g2 & g3). split; auto. split; auto. intros j. rewrite g3. split; intros (e & U1 & U2); exists e; split; auto; lia. }
    split; [now apply X|]. split; now apply X.
Qed.

(** Entries in use, in order. *)
Definition chosen (flags : list Z) (lo hi : Z) : list Z :=
  filter (fun k => match get_at flags k with Some v => v =? 1 | None => false end) (zrange lo hi).

Lemma sorted_filter (p : Z -> bool) l : StronglySorted Z.lt l -> StronglySorted Z.lt (filter p l).
Proof.
  induction 1 as [|a l S IH F]; cbn [filter]; [constructor|]. destruct (p a); auto. constructor; auto.
  rewrite Forall_forall in *. intros x I. apply filter_In in I. apply F. tauto.
Qed.

Lemma chosen_lists flags lo hi : lists (fun k => lo <= k <= hi /\ used flags k) (chosen flags lo hi).
Proof.
  split.
  - apply sorted_filter. apply zrange_sorted.
  - intros k. unfold chosen. rewrite filter_In, zrange_In. unfold used. split.
    + cbv beta. intros (R & E). split; auto. destruct (get_at flags k); [|discriminate]. f_equal. lia.
    + intros (R & ->). split; auto.
Qed.

Lemma add_flags_ok flags n : bits flags -> 0 <= n < zlen flags -> add_flags n flags = Ret (zlen (chosen flags 1 n)).
Proof.
  intros B R. unfold add_flags. destruct (Z_lt_dec n 1) as [N|N].
  - unfold chosen. rewrite zrange_nil by lia. reflexivity.
  - destruct (ofold_zrange (fun acc k => v <- of_option (get_at flags k) ;; Ret (acc + v)) (fun k acc => acc = zlen (chosen flags 1 (k - 1))) 1 n 0) as (s & E & ->).
    + lia.
    + unfold chosen. rewrite zrange_nil by lia. reflexivity.
    + intros k acc Hk ->. destruct (bits_get flags k B ltac:(lia)) as (v & V & Hv). exists (zlen (chosen flags 1 (k - 1)) + v).
      rewrite V. split; [reflexivity|]. replace (k + 1 - 1) with k by lia.
      unfold chosen. rewrite (zrange_snoc 1 k) by lia. rewrite filter_app, zlen_a. cbn [filter]. rewrite V.
      destruct Hv as [-> | ->]; [change (0 =? 1) with false|change (1 =? 1) with true]; cbv iota; unfold zlen; cbn [length]; lia.
    + rewrite E. replace (n + 1 - 1) with n by lia. auto.
Qed.

Lemma next_ok limit flags : bits flags -> limit <= zlen flags -> forall fuel k, 0 <= k -> limit - k <= Z.of_nat fuel -> 
  match chosen flags k (limit - 1) with
  | [] => True
  | j :: rest => next_used fuel limit flags k = Ret j /\ chosen flags (j + 1) (limit - 1) = rest /\ k <= j < limit
  end.
Proof.
  intros B L. induction fuel as [|fuel IH]; intros k K F.
  - unfold chosen. rewrite zrange_nil by lia. cbn. auto.
  - destruct (Z_lt_dec k limit) as [C|C].
    2: { unfold chosen. rewrite zrange_nil by lia. cbn. auto. }
    destruct (bits_get flags k B ltac:(lia)) as (v & V & Hv). unfold chosen. rewrite zrange_cons by lia. cbn [filter]. rewrite V.
    cbn [next_used]. replace (k <? limit) with true by lia. rewrite V. cbn [of_option bind].
    destruct Hv as [-> | ->]; cbn [Z.eqb].
    + specialize (IH (k + 1) ltac:(lia) ltac:(lia)). fold (chosen flags (k + 1) (limit - 1)).
      destruct (chosen flags (k + 1) (limit - 1)); auto. destruct IH as (I1 & I2 & I3). split; auto. split; auto. lia.
    + split; auto. split; [reflexivity|lia].
Qed.

Fixpoint scan (set : date -> Z -> date) (d : date) (l : list Z) : list date :=
  match l with [] => [] | j :: t => set d j :: scan set (set d j) t end.

Lemma fold_ok set limit flags : bits flags -> limit <= zlen flags -> forall l d k, 0 <= k -> chosen flags k (limit - 1) = l ->
  fold_dates set limit flags (length l) d k = Ret (scan set d l).
Proof.
  intros B L. induction l as [|j l IH]; intros d k K E; cbn [length fold_dates scan]; auto.
  pose proof (next_ok limit flags B L (Z.to_nat limit) k K) as N. rewrite E in N. destruct N as (N1 & N2 & N3); [lia|].
  rewrite N1. cbn [bind]. rewrite (IH (set d j) (j + 1)) by (lia || auto). reflexivity.
Qed.

Lemma last_year Y l d : year d = Y -> Forall (fun x => year x = Y) l -> year (last l d) = Y.
Proof. intros E F. induction F as [|x l H F IH]; auto. cbn [last]. destruct l; auto. Qed.

Lemma scan_ok (set : date -> Z -> date) (ok : Z -> Prop) (R : Z -> date -> Prop) Y :
  (forall d j, ok j -> year (set d j) = year d /\ R j (set d j)) -> forall l d, year d = Y -> Forall ok l ->
  Forall2 (fun j x => year x = Y /\ R j x) l (scan set d l) /\ year (last (scan set d l) d) = Y.
Proof.
  intros H l d E F.
  assert (Forall2 (fun j x => year x = Y /\ R j x) l (scan set d l)) as G.
  { revert d E F. induction l as [|j l IH]; intros d E F; cbn [scan]; constructor.
    - inversion F; subst. destruct (H d j); auto.
    - inversion F; subst. apply IH; auto. destruct (H d j); auto. }
  split; auto. apply last_year; auto. clear F E. induction G as [|a b la lb (G1 & G2) _ IH]; constructor; auto.
Qed.

Lemma F2_impl {A B} (P Q : A -> B -> Prop) l l' : (forall a b, P a b -> Q a b) -> Forall2 P l l' -> Forall2 Q l l'.
Proof. intros H F. induction F; constructor; auto. Qed.

Lemma chosen_ok flags n (ok : Z -> Prop) : (forall k, 1 <= k <= n -> ok k) -> Forall ok (chosen flags 1 n).
Proof. intros H. apply Forall_forall. intros k I. apply chosen_lists in I. apply H. tauto. Qed.

Lemma season_ok lo hi : 1 <= lo <= 365 -> 1 <= hi <= 365 ->
  exists s, compile_season lo hi = Ret s /\
    (zlen (s_days s) = 366 /\ bits (s_days s) /\ forall d, used (s_days s) d <-> flagged lo hi d) /\
    (zlen (s_weeks s) = 53 /\ bits (s_weeks s) /\ forall j, used (s_weeks s) j <-> exists d, 1 <= d <= 365 /\ used (s_days s) d /\ doy2week d = j) /\
    (zlen (s_months s) = 13 /\ bits (s_months s) /\ forall j, used (s_months s) j <-> exists d, 1 <= d <= 365 /\ used (s_days s) d /\ doy2m d = j) /\
    (zlen (s_quarters s) = 5 /\ bits (s_quarters s) /\ forall j, used (s_quarters s) j <-> exists d, 1 <= d <= 365 /\ used (s_days s) d /\ doy2quarter d = j) /\
    s_nd s = zlen (chosen (s_days s) 1 365) /\ s_nw s = zlen (chosen (s_weeks s) 1 52) /\
    s_nm s = zlen (chosen (s_months s) 1 12) /\ s_nq s = zlen (chosen (s_quarters s) 1 4).
Proof.
  intros L H. unfold compile_season. destruct (mark_days_ok lo hi L H) as (days & E & D1 & D2 & D3). rewrite E. cbn [bind].
  destruct (mark_periods_ok days D1 D2) as (w & m & q & E2 & (W1 & W2 & W3) & (M1 & M2 & M3) & (Q1 & Q2 & Q3)).
  rewrite E2. cbn [bind]. rewrite !add_flags_ok by (auto; lia). cbn [bind].
  eexists. split; [reflexivity|]. cbn [s_days s_weeks s_months s_quarters s_nd s_nw s_nm s_nq]. repeat (split; [auto|]). auto.
Qed.

(** The periods of the code are those of the calendar. *)
Lemma week_unique d w : 1 <= d <= 365 -> (in_week d w <-> doy2week d = w).
Proof. intros D. pose proof (week_spec d D) as W. unfold in_week in *. split; [lia|intros <-; lia]. Qed.
Lemma month_unique d m : 1 <= d <= 365 -> (in_month d m <-> doy2m d = m).
Proof.
  intros D. destruct (doy2m_d_agree d) as (M & _). pose proof (doy2md_correct d D) as C. destruct (doy2md d) as [m' dd] eqn:E. cbn [fst snd] in *.
  destruct C as (V & S). split.
  - intros (dd' & V' & S'). pose proof (doy2md_md2doy m dd' V') as X. rewrite md2doy_correct in X by apply V'. rewrite S', E in X. congruence.
  - intros <-. rewrite M. exists dd. auto.
Qed.
Lemma quarter_unique d q : 1 <= d <= 365 -> (in_quarter_day d q <-> doy2quarter d = q).
Proof.
  intros D. pose proof (doy2md_correct d D) as C. destruct (doy2md d) as [m' dd] eqn:E. cbn [fst snd] in *.
  destruct C as (V & S). pose proof (quarter_spec m' dd V) as Q. rewrite md2doy_correct in Q by apply V. rewrite S in Q. split.
  - intros (m & (dd' & V' & S') & Qm). pose proof (doy2md_md2doy m dd' V') as X. rewrite md2doy_correct in X by apply V'. rewrite S', E in X. inversion X; subst.
    unfold in_quarter in *. lia.
  - intros <-. exists m'. split; auto. exists dd. auto.
Qed.

Lemma years_ok first : forall n t d, let '(l, d') := fold_years first n t d in
  Forall2 (fun k x => year x = first + k /\ month x = month d /\ day x = day d) (map (fun i => t + Z.of_nat i) (seq 0 n)) l /\
  (n = O -> d' = d) /\ (n <> O -> year d' = first + t + Z.of_nat n - 1).
Proof.
  induction n as [|n IH]; intros t d; cbn [fold_years].
  - split; [constructor|]. split; [auto|congruence].
  - specialize (IH (t + 1) (set_date_year d (first + t))). destruct (fold_years first n (t + 1) (set_date_year d (first + t))) as [l d'].
    destruct IH as (I1 & I2 & I3). cbn [seq map]. rewrite Z.add_0_r. split; [|split; [congruence|]].
    + constructor; [cbn; auto|]. rewrite <- seq_shift, map_map.
      erewrite map_ext; [exact I1|]. intros; cbn beta; lia.
    + intros _. destruct n; [rewrite (I2 eq_refl); cbn; lia|]. rewrite (I3 ltac:(congruence)). lia.
Qed.
