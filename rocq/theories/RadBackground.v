(** Proofs about the background reflectance. *)
From Coq Require Import Reals Lra Lia.
From Flocq Require Import Core.
From Verif Require Import Base BaseFacts Loops LoopsFacts ChunkProofs CsoProofs BapComposite RadModel RadSpec RadProofs.
#[local] Open Scope R_scope.

Lemma mix_between alpha v o lo hi : 0 <= alpha <= 1 -> lo <= v <= hi -> lo <= o <= hi -> lo <= alpha * v + (1 - alpha) * o <= hi.
Proof.
  intros A V O. assert (0 <= alpha * (v - lo)) by (apply Rmult_le_pos; lra). assert (0 <= alpha * (hi - v)) by (apply Rmult_le_pos; lra).
  assert (0 <= (1 - alpha) * (o - lo)) by (apply Rmult_le_pos; lra). assert (0 <= (1 - alpha) * (hi - o)) by (apply Rmult_le_pos; lra). lra.
Qed.

Section Sweep.
Variables (off cld : Z -> bool) (n : Z) (alpha lo hi : R).
Hypothesis AL : 0 <= alpha <= 1.
Let clear p := off p || cld p = false.
Let hull v := lo <= v <= hi.
(** The clear pixels of [S] have a value in the hull. *)
Definition good (S : Z -> Prop) (avg : list R) : Prop := zlen avg = n /\ forall q, S q -> clear q -> exists v, get_at avg q = Some v /\ hull v.
Lemma good_weaker (S S' : Z -> Prop) avg : (forall q, S' q -> S q) -> good S avg -> good S' avg.
Proof using. clear. intros H (A & B). split; auto. Qed.
Lemma good_set (S : Z -> Prop) avg p v : good S avg -> (0 <= p < n)%Z -> (clear p -> hull v) -> exists avg', set_at avg p v = Some avg' /\ good (fun q => S q \/ q = p) avg'.
Proof using.
  clear. intros (A & B) P V. rewrite set_at_some by lia. eexists. split; [reflexivity|].
  assert (set_at avg p v = Some (list_set avg (Z.to_nat p) v)) as E by (apply set_at_some; lia). split; [erewrite set_at_length by exact E; auto|].
  intros q I C. destruct (Z.eq_dec q p) as [->|N].
  - exists v. split; [eapply get_set_same; exact E|]. auto.
  - rewrite (get_set_other _ _ _ q _ E) by congruence. apply B; tauto.
Qed.
(** A sweep with a running value in the hull. *)
Lemma ema_hull src (S : Z -> Prop) : forall ps old avg, good S avg -> hull old -> (forall p, In p ps -> (0 <= p < n)%Z) ->
  (forall a p, In p ps -> clear p -> good S a -> exists v, src a p = Ret v /\ hull v) ->
  exists old' avg', ofold (ema_step alpha off cld src) ps (old, avg) = Ret (old', avg') /\ hull old' /\ good (fun q => S q \/ In q ps) avg'.
Proof using AL.
  revert S. intros S ps. revert S. induction ps as [|p ps IH]; intros S old avg G O R SRC; cbn [ofold].
  - exists old, avg. split; [reflexivity|]. split; auto. eapply good_weaker; [|exact G]. cbn. tauto.
  - assert (exists old1 avg1, ema_step alpha off cld src (old, avg) p = Ret (old1, avg1) /\ hull old1 /\ good (fun q => S q \/ q = p) avg1) as (old1 & avg1 & E & O1 & G1).
    { unfold ema_step. destruct (off p) eqn:OF.
      - exists old, avg. split; [reflexivity|]. split; auto. destruct G as (A & B). split; auto. intros q [Q| ->] C; auto. unfold clear in C. rewrite OF in C. discriminate.
      - destruct (cld p) eqn:CL.
        + destruct (good_set S avg p old G) as (a & Ea & Ga); [apply R; now left|auto|]. rewrite Ea. cbn [of_option bind]. eauto.
        + assert (clear p) as C by (unfold clear; now rewrite OF, CL). destruct (SRC avg p (or_introl eq_refl) C G) as (v & Ev & Hv). rewrite Ev. cbn [bind].
          assert (hull (alpha * v + (1 - alpha) * old)) as Hn by (apply mix_between; auto).
          destruct (good_set S avg p _ G (R p (or_introl eq_refl)) (fun _ => Hn)) as (a & Ea & Ga). rewrite Ea. cbn [of_option bind]. eauto. }
    rewrite E. cbn [bind]. destruct (IH (fun q => S q \/ q = p) old1 avg1 G1 O1) as (old' & avg' & E' & O' & G').
    + intros q I. apply R. now right.
    + intros a q I C Ga. apply SRC; auto; [now right|]. eapply good_weaker; [|exact Ga]. cbn. tauto.
    + exists old', avg'. split; auto. split; auto. eapply good_weaker; [|exact G']. cbn. intros q [Q|[Q|Q]]; auto.
Qed.
(** A sweep over pixels none of which is clear. *)
Lemma ema_none src (S : Z -> Prop) : forall ps old avg, good S avg -> (forall p, In p ps -> (0 <= p < n)%Z /\ ~ clear p) ->
  exists old' avg', ofold (ema_step alpha off cld src) ps (old, avg) = Ret (old', avg') /\ good S avg'.
Proof using.
  clear AL. induction ps as [|p ps IH]; intros old avg G R; cbn [ofold]; [eauto|].
  destruct (R p (or_introl eq_refl)) as (P & C).
  assert (exists old1 avg1, ema_step alpha off cld src (old, avg) p = Ret (old1, avg1) /\ good S avg1) as (old1 & avg1 & E & G1).
  { unfold ema_step. destruct (off p) eqn:OF; [eauto|]. destruct (cld p) eqn:CL; [|destruct C; unfold clear; now rewrite OF, CL].
    destruct (good_set S avg p old G P) as (a & Ea & Ga). { intros C'. destruct (C C'). } rewrite Ea. cbn [of_option bind]. exists old, a. split; auto. eapply good_weaker; [|exact Ga]. cbn. tauto. }
  rewrite E. cbn [bind]. apply IH; auto. intros q I. apply R. now right.
Qed.
Variables (ref : list Z).
Hypothesis REF : zlen ref = n.
Hypothesis HULL : forall p v, (0 <= p < n)%Z -> clear p -> get_at ref p = Some v -> hull (IZR v / 10000).
Lemma mean_hull ps : (forall p, In p ps -> (0 <= p < n)%Z) -> exists m, clear_mean off cld ref ps = Ret m /\ ((exists p, In p ps /\ clear p) -> hull m).
Proof using REF HULL.
  intros R. unfold clear_mean.
  assert (forall ps s (k : Z), (forall p, In p ps -> (0 <= p < n)%Z) -> (0 <= k)%Z -> lo * IZR k <= s <= hi * IZR k -> exists s' k',
    ofold (fun sn p => if off p || cld p then Ret sn else v <- of_option (get_at ref p) ;; Ret (fst sn + IZR v / 10000, (snd sn + 1)%Z)) ps (s, k) = Ret (s', k') /\ (k <= k')%Z /\ lo * IZR k' <= s' <= hi * IZR k' /\ ((exists p, In p ps /\ clear p) -> (k < k')%Z)) as K.
  { clear R ps. induction ps as [|p ps IH]; intros s k R K B; cbn [ofold].
    - exists s, k. split; [reflexivity|]. split; [lia|]. split; auto. intros (p & [] & _).
    - destruct (off p || cld p) eqn:C.
      + cbn [bind]. destruct (IH s k) as (s' & k' & E & L & B' & X); auto. { intros q I. apply R. now right. } exists s', k'. split; auto. split; auto. split; auto. intros (q & [<-|I] & Q); [unfold clear in Q; congruence|]. apply X. eauto.
      + destruct (get_at_some ref p) as (v & E). { rewrite REF. apply R. now left. } rewrite E. cbn [of_option bind fst snd].
        destruct (IH (s + IZR v / 10000) (k + 1)%Z) as (s' & k' & E' & L & B' & X). { intros q I. apply R. now right. } { lia. }
        { pose proof (HULL p v (R p (or_introl eq_refl)) C E) as (H1 & H2). rewrite plus_IZR. lra. }
        exists s', k'. split; auto. split; [lia|]. split; auto. intros _. lia. }
  destruct (K ps 0 0%Z R ltac:(lia) ltac:(lra)) as (s & k & E & L & B & X). rewrite E. cbn [bind fst snd]. eexists. split; [reflexivity|]. intros H. specialize (X H). destruct (Z.ltb_spec 0 k); [|lia].
  assert (0 < IZR k) as P by (apply IZR_lt; lia). unfold hull. split; apply Rmult_le_reg_r with (IZR k); auto; unfold Rdiv; rewrite Rmult_assoc, Rinv_l by lra; lra.
Qed.
Lemma from_avg_good (S : Z -> Prop) a p : good S a -> S p -> clear p -> exists v, from_avg a p = Ret v /\ hull v.
Proof using. clear. intros (A & B) I C. destruct (B p I C) as (v & E & H). unfold from_avg. rewrite E. exists v. auto. Qed.
Lemma sweep_good src (S : Z -> Prop) avg ps : good S avg -> (forall p, In p ps -> (0 <= p < n)%Z) ->
  (forall a p, In p ps -> clear p -> good S a -> exists v, src a p = Ret v /\ hull v) ->
  exists avg', sweep_line alpha off cld src ref avg ps = Ret avg' /\ good (fun q => S q \/ In q ps) avg'.
Proof using AL REF HULL.
  intros G R SRC. unfold sweep_line. destruct (mean_hull ps R) as (m & -> & HM). cbn [bind].
  destruct (existsb (fun p => negb (off p || cld p)) ps) eqn:EX.
  - assert (exists p, In p ps /\ clear p) as C. { apply existsb_exists in EX. destruct EX as (p & I & N). exists p. split; auto. unfold clear. now destruct (off p || cld p). }
    destruct (ema_hull src S ps m avg G (HM C) R SRC) as (o1 & a1 & -> & O1 & G1). cbn [bind].
    destruct (ema_hull from_avg (fun q => S q \/ In q ps) (rev ps) o1 a1 G1 O1) as (o2 & a2 & -> & O2 & G2).
    + intros p I. apply R. now apply in_rev.
    + intros a p I C' Ga. eapply from_avg_good; eauto. cbn. right. now apply in_rev.
    + cbn [bind snd]. exists a2. split; auto. eapply good_weaker; [|exact G2]. cbn. tauto.
  - assert (forall p, In p ps -> (0 <= p < n)%Z /\ ~ clear p) as NC.
    { intros p I. split; auto. intros C. assert (existsb (fun p => negb (off p || cld p)) ps = true); [|congruence]. apply existsb_exists. exists p. split; auto. unfold clear in C. now rewrite C. }
    destruct (ema_none src S ps m avg G NC) as (o1 & a1 & -> & G1). cbn [bind]. destruct (ema_none from_avg S (rev ps) o1 a1 G1) as (o2 & a2 & -> & G2). { intros p I. apply NC. now apply in_rev. }
    cbn [bind snd]. exists a2. split; auto. destruct G2 as (A & B). split; auto. intros q [Q|Q] C; auto. destruct (NC q Q) as (_ & N). destruct (N C).
Qed.
End Sweep.

(** The values of all pixels stay within bounds that include 0. *)
Section Bounds.
Variables (off cld : Z -> bool) (n : Z) (alpha lo hi : R).
Hypothesis AL : 0 <= alpha <= 1.
Hypothesis ZERO : lo <= 0 <= hi.
Let hull v := lo <= v <= hi.
Definition bounded (avg : list R) : Prop := zlen avg = n /\ Forall hull avg.
Lemma bounded_get avg p : bounded avg -> (0 <= p < n)%Z -> exists v, get_at avg p = Some v /\ hull v.
Proof using. clear. intros (A & B) P. destruct (get_at_some avg p) as (v & E); [lia|]. exists v. split; auto. eapply Forall_get_at; eauto. Qed.
Lemma bounded_set avg p v : bounded avg -> (0 <= p < n)%Z -> hull v -> exists avg', set_at avg p v = Some avg' /\ bounded avg'.
Proof using.
  clear. intros (A & B) P V. assert (set_at avg p v = Some (list_set avg (Z.to_nat p) v)) as E by (apply set_at_some; lia). rewrite E. eexists. split; [reflexivity|]. split; [erewrite set_at_length by exact E; auto|].
  apply Forall_forall. intros x I. apply In_get_at in I. destruct I as (j & _ & Ej). destruct (Z.eq_dec p j) as [->|N].
  - rewrite (get_set_same _ _ _ _ E) in Ej. injection Ej as <-. exact V.
  - rewrite (get_set_other _ _ _ _ _ E N) in Ej. eapply Forall_get_at; eauto.
Qed.
Lemma ema_bounded src : forall ps old avg, bounded avg -> hull old -> (forall p, In p ps -> (0 <= p < n)%Z) ->
  (forall a p, In p ps -> off p || cld p = false -> bounded a -> exists v, src a p = Ret v /\ hull v) ->
  exists old' avg', ofold (ema_step alpha off cld src) ps (old, avg) = Ret (old', avg') /\ hull old' /\ bounded avg'.
Proof using AL.
  induction ps as [|p ps IH]; intros old avg G O R SRC; cbn [ofold]; [eauto|].
  assert (exists old1 avg1, ema_step alpha off cld src (old, avg) p = Ret (old1, avg1) /\ hull old1 /\ bounded avg1) as (old1 & avg1 & E & O1 & G1).
  { unfold ema_step. destruct (off p) eqn:OF; [eauto|]. destruct (cld p) eqn:CL.
    - destruct (bounded_set avg p old G (R p (or_introl eq_refl)) O) as (a & Ea & Ga). rewrite Ea. cbn [of_option bind]. eauto.
    - destruct (SRC avg p (or_introl eq_refl)) as (v & Ev & Hv); auto. { now rewrite OF, CL. } rewrite Ev. cbn [bind]. assert (hull (alpha * v + (1 - alpha) * old)) as Hn by (apply mix_between; auto).
      destruct (bounded_set avg p _ G (R p (or_introl eq_refl)) Hn) as (a & Ea & Ga). rewrite Ea. cbn [of_option bind]. eauto. }
  rewrite E. cbn [bind]. apply IH; auto.
  - intros q I. apply R. now right.
  - intros a q I C Ga. apply SRC; auto. now right.
Qed.
Variables (ref : list Z).
Hypothesis REF : zlen ref = n.
Hypothesis HULL : forall p v, (0 <= p < n)%Z -> get_at ref p = Some v -> hull (IZR v / 10000).
Lemma sweep_bounded src avg ps : bounded avg -> (forall p, In p ps -> (0 <= p < n)%Z) ->
  (forall a p, In p ps -> off p || cld p = false -> bounded a -> exists v, src a p = Ret v /\ hull v) ->
  exists avg', sweep_line alpha off cld src ref avg ps = Ret avg' /\ bounded avg'.
Proof using AL ZERO REF HULL.
  intros G R SRC. unfold sweep_line. destruct (mean_hull off cld n lo hi ref REF (fun p v P _ E => HULL p v P E) ps R) as (m & E & HM).
  assert (hull m) as Hm.
  { destruct (existsb (fun p => negb (off p || cld p)) ps) eqn:EX.
    - apply HM. apply existsb_exists in EX. destruct EX as (p & I & N). exists p. split; auto. now destruct (off p || cld p).
    - assert (m = 0) as ->; [|exact ZERO]. revert E. unfold clear_mean.
      assert (forall ps sn, existsb (fun p => negb (off p || cld p)) ps = false -> ofold (fun sn p => if off p || cld p then Ret sn else v <- of_option (get_at ref p) ;; Ret (fst sn + IZR v / 10000, (snd sn + 1)%Z)) ps sn = Ret sn) as K.
      { clear. induction ps as [|p ps IH]; intros sn H; cbn [ofold]; auto. cbn [existsb] in H. apply orb_false_iff in H. destruct H as (H1 & H2). apply negb_false_iff in H1. rewrite H1. cbn [bind]. auto. }
      rewrite K by auto. cbn. congruence. }
  rewrite E. cbn [bind]. destruct (ema_bounded src ps m avg G Hm R SRC) as (o1 & a1 & -> & O1 & G1). cbn [bind].
  destruct (ema_bounded from_avg (rev ps) o1 a1 G1 O1) as (o2 & a2 & -> & O2 & G2).
  - intros p I. apply R. now apply in_rev.
  - intros a p I _ Ga. unfold from_avg. apply in_rev in I. destruct (bounded_get a p Ga (R p I)) as (v & -> & H). exists v. auto.
  - cbn [bind snd]. eauto.
Qed.
End Bounds.

(** ** One ring *)
Lemma row_in nx ny i p : (0 <= i < ny)%Z -> In p (row_of nx i) -> (0 <= p < nx * ny)%Z.
Proof. intros I J. apply in_map_iff in J. destruct J as (j & <- & J). apply zupto_In in J. assert ((i + 1) * nx <= ny * nx)%Z by (apply Z.mul_le_mono_nonneg_r; lia). assert (0 <= i * nx)%Z by (apply Z.mul_nonneg_nonneg; lia). lia. Qed.
Lemma col_in nx ny j p : (0 <= j < nx)%Z -> In p (col_of nx ny j) -> (0 <= p < nx * ny)%Z.
Proof. intros I J. apply in_map_iff in J. destruct J as (i & <- & J). apply zupto_In in J. assert ((i + 1) * nx <= ny * nx)%Z by (apply Z.mul_le_mono_nonneg_r; lia). assert (0 <= i * nx)%Z by (apply Z.mul_nonneg_nonneg; lia). lia. Qed.
Section Ring.
Variables (off cld : Z -> bool) (nx ny : Z) (ref : list Z).
Hypothesis NX : (0 < nx)%Z.
Hypothesis NY : (0 < ny)%Z.
Hypothesis REF : zlen ref = (nx * ny)%Z.
Lemma ring_hull alpha lo hi : 0 <= alpha <= 1 -> (forall p v, (0 <= p < nx * ny)%Z -> off p || cld p = false -> get_at ref p = Some v -> lo <= IZR v / 10000 <= hi) ->
  exists avg, ring_average alpha nx ny off cld ref = Ret avg /\ good off cld (nx * ny) lo hi (fun q => 0 <= q < nx * ny)%Z avg.
Proof using NX NY REF.
  intros AL HULL. unfold ring_average. assert (0 <= nx * ny)%Z as NN by (apply Z.mul_nonneg_nonneg; lia).
  destruct (ofold_zrange (fun avg i => sweep_line alpha off cld (from_ref ref) ref avg (row_of nx i)) (fun i => good off cld (nx * ny) lo hi (fun q => 0 <= q < i * nx)%Z) 0 (ny - 1) (repeat 0 (Z.to_nat (nx * ny)))) as (a & Ea & Ga).
  - lia.
  - split; [rewrite zlen_repeat; lia|]. intros q Q. lia.
  - intros i avg I G. destruct (sweep_good off cld (nx * ny) alpha lo hi AL ref REF HULL (from_ref ref) _ avg (row_of nx i) G) as (a & Ea & Ga).
    + intros p. apply row_in. lia.
    + intros a p J C _. unfold from_ref. destruct (get_at_some ref p) as (v & E). { rewrite REF. eapply row_in; [|exact J]. lia. } rewrite E. cbn [of_option bind]. eexists. split; [reflexivity|]. eapply HULL; eauto. eapply row_in; [|exact J]. lia.
    + exists a. split; auto. eapply good_weaker; [|exact Ga]. cbn. intros q Q. destruct (Z_lt_dec q (i * nx)) as [L|L]; [left; lia|right]. apply in_map_iff. exists (q - i * nx)%Z. split; [lia|]. apply zupto_In. lia.
  - rewrite !zupto_zrange. rewrite Ea. cbn [bind].
    destruct (ofold_zrange (fun avg j => sweep_line alpha off cld from_avg ref avg (col_of nx ny j)) (fun _ => good off cld (nx * ny) lo hi (fun q => 0 <= q < nx * ny)%Z) 0 (nx - 1) a) as (b & Eb & Gb).
    + lia.
    + eapply good_weaker; [|exact Ga]. cbn. intros q Q. replace (ny - 1 + 1)%Z with ny by lia. lia.
    + intros j avg J G. destruct (sweep_good off cld (nx * ny) alpha lo hi AL ref REF HULL from_avg _ avg (col_of nx ny j) G) as (b & Eb & Gb).
      * intros p. apply col_in. lia.
      * intros a' p I C Ga'. eapply from_avg_good; eauto. eapply col_in; [|exact I]. lia.
      * exists b. split; auto. eapply good_weaker; [|exact Gb]. cbn. auto.
    + exists b. split; [exact Eb|auto].
Qed.
Lemma ring_bounded alpha lo hi : 0 <= alpha <= 1 -> lo <= 0 <= hi -> (forall p v, (0 <= p < nx * ny)%Z -> get_at ref p = Some v -> lo <= IZR v / 10000 <= hi) ->
  exists avg, ring_average alpha nx ny off cld ref = Ret avg /\ bounded (nx * ny) lo hi avg.
Proof using NX NY REF.
  intros AL Z HULL. unfold ring_average. assert (0 <= nx * ny)%Z as NN by (apply Z.mul_nonneg_nonneg; lia).
  destruct (ofold_zrange (fun avg i => sweep_line alpha off cld (from_ref ref) ref avg (row_of nx i)) (fun _ => bounded (nx * ny) lo hi) 0 (ny - 1) (repeat 0 (Z.to_nat (nx * ny)))) as (a & Ea & Ga).
  - lia.
  - split; [rewrite zlen_repeat; lia|]. apply Forall_forall. intros x I. apply repeat_spec in I. subst x. exact Z.
  - intros i avg I G. apply (sweep_bounded off cld (nx * ny) alpha lo hi AL Z ref REF HULL (from_ref ref) avg (row_of nx i) G).
    + intros p. apply row_in. lia.
    + intros a p J C _. unfold from_ref. destruct (get_at_some ref p) as (v & E). { rewrite REF. eapply row_in; [|exact J]. lia. } rewrite E. cbn [of_option bind]. eexists. split; [reflexivity|]. eapply HULL; eauto. eapply row_in; [|exact J]. lia.
  - rewrite !zupto_zrange. rewrite Ea. cbn [bind].
    destruct (ofold_zrange (fun avg j => sweep_line alpha off cld from_avg ref avg (col_of nx ny j)) (fun _ => bounded (nx * ny) lo hi) 0 (nx - 1) a) as (b & Eb & Gb); auto.
    + lia.
    + intros j avg J G. apply (sweep_bounded off cld (nx * ny) alpha lo hi AL Z ref REF HULL from_avg avg (col_of nx ny j) G).
      * intros p. apply col_in. lia.
      * intros a' p I C Ga'. unfold from_avg. destruct (bounded_get (nx * ny) lo hi a' p Ga') as (v & -> & H); [eapply col_in; [|exact I]; lia|]. exists v. auto.
    + exists b. split; [exact Eb|auto].
Qed.
End Ring.

(** ** All rings *)
Lemma alpha_ok res km : 0 < res <= km * 1000 -> 0 <= ring_alpha res km <= 1.
Proof.
  intros H. unfold ring_alpha. assert (1 <= km * 1000 / res) as K. { apply Rmult_le_reg_r with res; [lra|]. unfold Rdiv. rewrite Rmult_assoc, Rinv_l by lra. lra. }
  split; [apply div_ge0; lra|]. apply Rmult_le_reg_r with (km * 1000 / res + 1.0); [lra|]. unfold Rdiv at 1. rewrite Rmult_assoc, Rinv_l by lra. lra.
Qed.
Lemma trunc_between (a b : Z) x : IZR a <= x <= IZR b -> (a <= Ztrunc x <= b)%Z.
Proof. intros (A & B). apply Ztrunc_le in A, B. rewrite Ztrunc_IZR in A, B. lia. Qed.
Lemma mult_pos_le a b : 0 <= a -> 0 <= b -> 0 <= a * b.
Proof. apply Rmult_le_pos. Qed.
Lemma env_aerosol_mono r1 r2 : r1 <= r2 -> env_weight_aerosol r1 <= env_weight_aerosol r2.
Proof. intros H. unfold env_weight_aerosol. pose proof (env_mix 0.375 0.625 0.2 1.83 r1 r2 ltac:(lra) ltac:(lra) ltac:(lra) ltac:(lra) H) as M. replace (-0.2) with (- (0.2)) by lra. replace (-1.83) with (- (1.83)) by lra. lra. Qed.
Lemma env_molecular_mono r1 r2 : r1 <= r2 -> env_weight_molecular r1 <= env_weight_molecular r2.
Proof. intros H. unfold env_weight_molecular. pose proof (env_mix 0.930 0.070 0.8 1.10 r1 r2 ltac:(lra) ltac:(lra) ltac:(lra) ltac:(lra) H) as M. replace (-0.8) with (- (0.8)) by lra. replace (-1.10) with (- (1.10)) by lra. lra. Qed.
Lemma env_aerosol_range r : 0 <= r -> 0 <= env_weight_aerosol r < 1 /\ (0 < r -> 0 < env_weight_aerosol r).
Proof.
  intros H. unfold env_weight_aerosol. pose proof (exp_pos (-0.2 * r)). pose proof (exp_pos (-1.83 * r)). pose proof (exp_le_1 (-0.2 * r) ltac:(lra)). pose proof (exp_le_1 (-1.83 * r) ltac:(lra)).
  split; [lra|]. intros P. pose proof (exp_lt_1 (-0.2 * r) ltac:(lra)). lra.
Qed.
Lemma env_molecular_range r : 0 <= r -> 0 <= env_weight_molecular r < 1 /\ (0 < r -> 0 < env_weight_molecular r).
Proof.
  intros H. unfold env_weight_molecular. pose proof (exp_pos (-0.8 * r)). pose proof (exp_pos (-1.10 * r)). pose proof (exp_le_1 (-0.8 * r) ltac:(lra)). pose proof (exp_le_1 (-1.10 * r) ltac:(lra)).
  split; [lra|]. intros P. pose proof (exp_lt_1 (-0.8 * r) ltac:(lra)). lra.
Qed.
Lemma env_weight_mono aod mod_ a1 r1 a2 r2 : 0 <= aod -> 0 <= mod_ -> 0 < aod + mod_ -> a1 <= a2 -> r1 <= r2 -> env_weight aod mod_ a1 r1 <= env_weight aod mod_ a2 r2.
Proof.
  intros A M S HA HR. unfold env_weight. apply div_le_div; [|lra]. apply Rplus_le_compat; apply Rmult_le_compat_l; auto; lra.
Qed.
Lemma env_weight_const aod mod_ c : 0 <= aod -> 0 <= mod_ -> 0 < aod + mod_ -> env_weight aod mod_ c c = c.
Proof. intros. unfold env_weight. field. lra. Qed.
Lemma env_weight_range aod mod_ a r : 0 <= aod -> 0 <= mod_ -> 0 < aod + mod_ -> 0 <= a < 1 -> 0 <= r < 1 -> 0 <= env_weight aod mod_ a r < 1.
Proof.
  intros A M S (A0 & A1) (R0 & R1). split.
  - rewrite <- (env_weight_const aod mod_ 0) by auto. now apply env_weight_mono.
  - eapply Rle_lt_trans; [apply (env_weight_mono aod mod_ a r (Rmax a r) (Rmax a r)); auto; [apply Rmax_l|apply Rmax_r]|]. rewrite env_weight_const by auto. now apply Rmax_lub_lt.
Qed.
Lemma ring_weight_mono aod mod_ k1 k2 : 0 <= aod -> 0 <= mod_ -> 0 < aod + mod_ -> k1 <= k2 -> ring_weight aod mod_ k1 <= ring_weight aod mod_ k2.
Proof. intros. unfold ring_weight. apply env_weight_mono; auto using env_aerosol_mono, env_molecular_mono. Qed.
Lemma ring_weight_pos aod mod_ k : 0 <= aod -> 0 <= mod_ -> 0 < aod + mod_ -> 0 < k -> 0 < ring_weight aod mod_ k.
Proof.
  intros A M S K. unfold ring_weight. set (c := Rmin (env_weight_aerosol k) (env_weight_molecular k)).
  assert (0 < c) as C. { apply Rmin_glb_lt; [apply env_aerosol_range; lra|apply env_molecular_range; lra]. }
  eapply Rlt_le_trans; [exact C|]. rewrite <- (env_weight_const aod mod_ c) by auto. apply env_weight_mono; auto; [apply Rmin_l|apply Rmin_r].
Qed.
Lemma pixel_hull aod mod_ F ref a b c (lo hi : Z) : 0 <= aod -> 0 <= mod_ -> 0 < aod + mod_ -> 0 <= F <= 1 ->
  IZR lo / 10000 <= ref <= IZR hi / 10000 -> IZR lo / 10000 <= a <= IZR hi / 10000 -> IZR lo / 10000 <= b <= IZR hi / 10000 -> IZR lo / 10000 <= c <= IZR hi / 10000 ->
  (lo <= background_pixel aod mod_ F ref a b c <= hi)%Z.
Proof.
  intros A M S HF R Ha Hb Hc. unfold background_pixel. cbv zeta.
  pose proof (ring_weight_mono aod mod_ 0.25 1 A M S ltac:(lra)) as M1. pose proof (ring_weight_mono aod mod_ 1 4.5 A M S ltac:(lra)) as M2. pose proof (ring_weight_pos aod mod_ 0.25 A M S ltac:(lra)) as P.
  replace 1.00 with 1 by lra. replace 4.50 with 4.5 by lra.
  set (F0 := ring_weight aod mod_ 0.25) in *. set (F1 := ring_weight aod mod_ 1) in *. set (F2 := ring_weight aod mod_ 4.5) in *. clearbody F0 F1 F2.
  assert (forall l h, l <= a <= h -> l <= b <= h -> l <= c <= h -> l <= (F0 * a + (F1 - F0) * b + (F2 - F1) * c) / (F0 + (F1 - F0) + (F2 - F1)) <= h) as W.
  { clear - M1 M2 P. intros l h A B C. pose proof (mult_pos_le F0 (a - l) ltac:(lra) ltac:(lra)). pose proof (mult_pos_le F0 (h - a) ltac:(lra) ltac:(lra)). pose proof (mult_pos_le (F1 - F0) (b - l) ltac:(lra) ltac:(lra)). pose proof (mult_pos_le (F1 - F0) (h - b) ltac:(lra) ltac:(lra)). pose proof (mult_pos_le (F2 - F1) (c - l) ltac:(lra) ltac:(lra)). pose proof (mult_pos_le (F2 - F1) (h - c) ltac:(lra) ltac:(lra)).
    assert (0 < F0 + (F1 - F0) + (F2 - F1)) as D by lra. split; apply Rmult_le_reg_r with (F0 + (F1 - F0) + (F2 - F1)); auto; unfold Rdiv; rewrite Rmult_assoc, Rinv_l by lra; lra. }
  specialize (W _ _ Ha Hb Hc). set (w := (_ + _ + _) / _) in *. clearbody w. apply trunc_between.
  pose proof (mix_between F ref w _ _ HF R W). replace (ref * F + (1 - F) * w) with (F * ref + (1 - F) * w) by ring. lra.
Qed.
Lemma background_ok aod mod_ res nx ny off cld F ref (lo hi : Z) : 0 <= aod -> 0 <= mod_ -> 0 < aod + mod_ -> 0 < res <= 250 -> (0 < nx)%Z -> (0 < ny)%Z ->
  zlen ref = (nx * ny)%Z -> Forall in_short ref -> (forall p, 0 <= F p <= 1) ->
  (forall p v, (0 <= p < nx * ny)%Z -> off p || cld p = false -> get_at ref p = Some v -> (lo <= v <= hi)%Z) ->
  exists bck, background aod mod_ res nx ny off cld F ref = Ret bck /\ zlen bck = (nx * ny)%Z /\ Forall in_short bck /\
    forall p v, (0 <= p < nx * ny)%Z -> get_at bck p = Some v -> (off p = true -> v = 0%Z) /\ (off p || cld p = false -> (lo <= v <= hi)%Z).
Proof.
  intros A M S RES NX NY REF SH HF HULL. unfold background.
  assert (forall z, in_short z -> -3.2768 <= IZR z / 10000 <= 3.2767) as SR. { intros z (L & H). apply IZR_le in L, H. lra. }
  assert (forall p v, (0 <= p < nx * ny)%Z -> get_at ref p = Some v -> -3.2768 <= IZR v / 10000 <= 3.2767) as B. { intros p v P E. apply SR. eapply Forall_get_at; eauto. }
  assert (forall p v, (0 <= p < nx * ny)%Z -> off p || cld p = false -> get_at ref p = Some v -> IZR lo / 10000 <= IZR v / 10000 <= IZR hi / 10000) as HR.
  { intros p v P C E. destruct (HULL p v P C E) as (L & H). apply IZR_le in L, H. lra. }
  assert (forall km, 0.25 <= km -> exists avg, ring_average (ring_alpha res km) nx ny off cld ref = Ret avg /\ good off cld (nx * ny) (IZR lo / 10000) (IZR hi / 10000) (fun q => 0 <= q < nx * ny)%Z avg /\ bounded (nx * ny) (-3.2768) 3.2767 avg) as K.
  { intros km KM. assert (0 <= ring_alpha res km <= 1) as AL by (apply alpha_ok; lra).
    destruct (ring_hull off cld nx ny ref NX NY REF _ _ _ AL HR) as (a & E & G). destruct (ring_bounded off cld nx ny ref NX NY REF _ (-3.2768) 3.2767 AL ltac:(lra) B) as (a' & E' & G'). rewrite E in E'. injection E' as <-. eauto. }
  destruct (K 0.25 ltac:(lra)) as (r0 & -> & G0 & B0). destruct (K 1.00 ltac:(lra)) as (r1 & E1 & G1 & B1). destruct (K 4.50 ltac:(lra)) as (r2 & E2 & G2 & B2). cbn [bind]. rewrite E1. cbn [bind]. rewrite E2. cbn [bind].
  match goal with |- context [omap ?f (zupto (nx * ny))] => destruct (omap_all f (fun p v => in_short v /\ (off p = true -> v = 0%Z) /\ (off p || cld p = false -> (lo <= v <= hi)%Z)) (zupto (nx * ny))) as (bck & E & F2) end.
  - intros p P. apply zupto_In in P. destruct (off p) eqn:OF.
    + exists 0%Z. split; [reflexivity|]. split; [unfold in_short; lia|]. split; auto. discriminate.
    + destruct (get_at_some ref p) as (v & Ev); [lia|]. rewrite Ev. cbn [of_option bind].
      destruct (bounded_get _ _ _ r0 p B0 P) as (a & Ea & Ha). destruct (bounded_get _ _ _ r1 p B1 P) as (b & Eb & Hb). destruct (bounded_get _ _ _ r2 p B2 P) as (c & Ec & Hc). rewrite Ea, Eb, Ec. cbn [of_option bind]. cbv zeta.
      pose proof (pixel_hull aod mod_ (F p) (IZR v / 10000) a b c (-32768) 32767 A M S (HF p)) as Q.
      assert (in_short (background_pixel aod mod_ (F p) (IZR v / 10000) a b c)) as Q'. { apply Q; try lra. specialize (B p v P Ev). lra. }
      rewrite (proj2 (in_shortb_spec _) Q'). eexists. split; [reflexivity|]. split; [exact Q'|]. split; [discriminate|]. intros C. cbn [orb] in C.
      assert (off p || cld p = false) as C' by (rewrite OF; exact C).
      destruct G0 as (_ & G0). destruct (G0 p P C') as (a' & Ea' & Ha'). rewrite Ea in Ea'. injection Ea' as <-. destruct G1 as (_ & G1). destruct (G1 p P C') as (b' & Eb' & Hb'). rewrite Eb in Eb'. injection Eb' as <-. destruct G2 as (_ & G2). destruct (G2 p P C') as (c' & Ec' & Hc'). rewrite Ec in Ec'. injection Ec' as <-.
      apply pixel_hull; auto. eapply HR; eauto.
  - exists bck. split; [exact E|]. destruct (F2_get _ _ _ F2) as (LEN & FG). assert (zlen bck = nx * ny)%Z as LEN'. { rewrite <- LEN. unfold zlen. rewrite zupto_length. lia. }
    assert (forall p v, (0 <= p < nx * ny)%Z -> get_at bck p = Some v -> in_short v /\ (off p = true -> v = 0%Z) /\ (off p || cld p = false -> (lo <= v <= hi)%Z)) as ALL.
    { intros p v P Ev. destruct (FG p p) as (q & Eq & H). { apply get_zupto. lia. } rewrite Ev in Eq. injection Eq as <-. exact H. }
    split; [auto|]. split.
    + apply Forall_forall. intros x I. apply In_get_at in I. destruct I as (p & P & Ep). eapply ALL; [|exact Ep]. lia.
    + intros p v P Ev. destruct (ALL p v P Ev) as (_ & H1 & H2). auto.
Qed.
