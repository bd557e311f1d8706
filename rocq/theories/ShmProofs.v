(** Lemmas about the matching of cloud shadows. *)
From Coq Require Import Reals Lra Lia ZifyBool.
From Flocq Require Import Core.
From Verif Require Import Base RoundModel RoundFacts ShmModel ShmSpec.
#[local] Open Scope R_scope.

Lemma bind_ret {A B} (o : outcome A) (f : A -> outcome B) b : bind o f = Ret b -> exists a, o = Ret a /\ f a = Ret b.
Proof. destruct o as [a| |]; cbn; intros H; try discriminate. exists a. auto. Qed.
Lemma int_of_near x z : int_of x = Ret z -> Rabs (IZR z - x) <= / 2.
Proof. unfold int_of. destruct (_ && _); [|discriminate]. intros H. injection H as <-. rewrite Rabs_minus_sym. apply Znearest_half. Qed.
Lemma int_of_in x z : (-2147483648 <= z <= 2147483647)%Z -> Rabs (IZR z - x) < / 2 -> int_of x = Ret z.
Proof. intros R H. unfold int_of. rewrite (Znearest_imp _ x z) by (rewrite Rabs_minus_sym; exact H). replace ((-2147483648 <=? z) && (z <=? 2147483647))%Z with true by lia. reflexivity. Qed.
Lemma scaled_abs r a b : 0 < r -> Rabs (r * a - r * b) = r * Rabs (a - b).
Proof. intros H. rewrite <- Rmult_minus_distr_l, Rabs_mult, (Rabs_pos_eq r) by lra. reflexivity. Qed.
Section Pos.
Variables (h r : R) (x y : Z) (s v : ang).
Hypothesis rp : 0 < r.
Let X := IZR x + h * tz v / r * sa v - h * tz s / r * sa s.
Let Y := IZR y - h * tz v / r * ca v + h * tz s / r * ca s.
Lemma spot E N : ground E N h v = centre r x y -> ground E N h s = (r * X, - (r * Y)).
Proof. unfold ground, centre. intros H. injection H as H1 H2. f_equal; unfold X, Y. - replace E with (r * IZR x + h * tz v * sa v) by lra. field. lra. - replace N with (- (r * IZR y) + h * tz v * ca v) by lra. field. lra. Qed.
Lemma spot_exists : exists E N, ground E N h v = centre r x y.
Proof. exists (r * IZR x + h * tz v * sa v), (- (r * IZR y) + h * tz v * ca v). unfold ground, centre. f_equal; ring. Qed.
Lemma pos_within px py : shadow_position h x y r s v = Ret (px, py) -> forall E N, ground E N h v = centre r x y -> within r (1 / 2) (centre r px py) (ground E N h s).
Proof.
  intros H E N G. rewrite (spot E N G). unfold shadow_position in H. apply bind_ret in H as (a & A & H). apply bind_ret in H as (b & B & H). injection H as -> ->. apply int_of_near in A, B. fold X in A. fold Y in B. unfold within, centre. cbn [fst snd].
  split; [rewrite scaled_abs by exact rp; nra|]. replace (- (r * IZR py) - - (r * Y)) with (- (r * IZR py - r * Y)) by ring. rewrite Rabs_Ropp, scaled_abs by exact rp. nra.
Qed.
Lemma pos_strict px py E N : (-2147483648 <= px <= 2147483647)%Z -> (-2147483648 <= py <= 2147483647)%Z -> ground E N h v = centre r x y -> strictly r (centre r px py) (ground E N h s) -> shadow_position h x y r s v = Ret (px, py).
Proof.
  intros RX RY G (A & B). rewrite (spot E N G) in A, B. unfold centre in A, B. cbn [fst snd] in A, B. rewrite scaled_abs in A by exact rp. replace (- (r * IZR py) - - (r * Y)) with (- (r * IZR py - r * Y)) in B by ring. rewrite Rabs_Ropp, scaled_abs in B by exact rp.
  unfold shadow_position. fold X. fold Y. rewrite (int_of_in X px RX) by nra. rewrite (int_of_in Y py RY) by nra. reflexivity.
Qed.
End Pos.

Lemma project1_casts sc h x y p : sane sc -> project1 sc h x y = Ret p -> p <> (-1)%Z -> casts sc h x y p.
Proof.
  intros (S & _) H N. unfold project1 in H. apply bind_ret in H as ((px & py) & Q & H). cbn [fst snd] in H. destruct (_ || _) eqn:I; injection H as <-; [congruence|]. destruct (spot_exists h (res sc) x y (view sc y x)) as (E & M & G). exists E, M, px, py. split; [exact G|]. split; [unfold pixel; lia|]. eapply pos_within; eauto.
Qed.
Lemma project1_inside sc h x y p : sane sc -> casts_inside sc h x y p -> project1 sc h x y = Ret p /\ p <> (-1)%Z.
Proof.
  intros (S & SX & SY) (E & N & px & py & G & (A & B & ->) & W). unfold project1. rewrite (pos_strict h (res sc) x y (sun sc y x) (view sc y x) S px py E N); [|lia|lia|exact G|exact W]. cbn [bind fst snd]. replace ((py <? 0) || (ny sc <=? py) || (px <? 0) || (nx sc <=? px))%Z with false by lia. split; [reflexivity|nia].
Qed.
Lemma project_in sc l : forall P, project sc l = Ret P -> forall p, In p P <-> exists h x y, In (h, (x, y)) l /\ project1 sc h x y = Ret p.
Proof.
  induction l as [|(h & (x & y)) l IH]; intros P H p; cbn [project] in H.
  - injection H as <-. split; [contradiction|]. intros (? & ? & ? & [] & _).
  - apply bind_ret in H as (q & Q & H). apply bind_ret in H as (t & T & H). injection H as <-. specialize (IH t T p). split.
    + intros [->|I]; [exists h, x, y; split; [left|]; auto|]. apply IH in I as (h' & x' & y' & I & J). exists h', x', y'. split; [right|]; auto.
    + intros (h' & x' & y' & [I|I] & J); [injection I as <- <- <-; left; congruence|]. right. apply IH. exists h', x', y'. auto.
Qed.
Lemma lifted_part c b h x y : In (h, (x, y)) (lifted c b) <-> part c b h x y.
Proof.
  unfold lifted, part. rewrite in_map_iff. split.
  - intros (((x' & y') & t) & E & I). cbn [fst snd] in E. injection E as <- <- <-. exists t. auto.
  - intros (t & I & ->). exists (x, y, t). auto.
Qed.
Lemma keep_in p P : In p (keep P) <-> In p P /\ p <> (-1)%Z.
Proof. unfold keep. rewrite filter_In. split; intros (A & B); split; auto; lia. Qed.
(** The loop over the base height *)
Lemma tested_le step bmax base b : tested step bmax base b -> base <= bmax.
Proof. intros H. inversion H; auto. Qed.
Lemma lift_spec f : forall sc c base bmax step best bestP drawn best' bestP' drawn', lift f sc c base bmax step best bestP drawn = Ret (Some (best', bestP', drawn')) ->
  ((best' = best /\ bestP' = bestP) \/ (exists b, tested step bmax base b /\ project sc (lifted c b) = Ret bestP' /\ match_of sc (id c) bestP' = best' /\ best < best')) /\
  best <= best' /\ (forall b, tested step bmax base b -> exists P, project sc (lifted c b) = Ret P /\ match_of sc (id c) P <= best') /\
  (forall p, In p drawn' <-> In p drawn \/ exists b P, tested step bmax base b /\ project sc (lifted c b) = Ret P /\ 85 / 100 <= match_of sc (id c) P /\ In p (keep P)).
Proof.
  induction f as [|f IH]; intros sc c base bmax step best bestP drawn best' bestP' drawn' H; cbn [lift] in H; [discriminate|]. destruct (Rle_bool_spec base bmax) as [L|L].
  - apply bind_ret in H as (P & EP & H). set (m := match_of sc (id c) P) in *. set (d := if Rle_bool (85 / 100) m then keep P ++ drawn else drawn) in *.
    assert (D : forall p, In p d <-> In p drawn \/ (85 / 100 <= m /\ In p (keep P))). { intros p. unfold d. destruct (Rle_bool_spec (85 / 100) m) as [G|G]; [rewrite in_app_iff; tauto|]. split; [tauto|intros [?|(? & ?)]; [auto|lra]]. }
    assert (K : exists nb nP, lift f sc c (rnd32 (base + step)) bmax step nb nP d = Ret (Some (best', bestP', drawn')) /\ ((nb = best /\ nP = bestP /\ m <= best) \/ (nb = m /\ nP = P /\ best < m))).
    { destruct (Rlt_bool_spec best m) as [G|G]; eexists; eexists; (split; [exact H|]); [right|left]; auto. }
    destruct K as (nb & nP & K & C). specialize (IH _ _ _ _ _ _ _ _ _ _ _ K) as (I1 & I2 & I3 & I4). split; [|split; [|split]].
    + destruct I1 as [(-> & ->)|(b & T & E & M & B)].
      * destruct C as [(-> & -> & _)|(-> & -> & C)]; [left; auto|]. right. exists base. split; [apply t_here; auto|]. split; [exact EP|]. split; [reflexivity|exact C].
      * right. exists b. split; [apply t_next; auto|]. split; [exact E|]. split; [exact M|]. destruct C as [(-> & _)|(-> & _ & C)]; lra.
    + destruct C as [(-> & _)|(-> & _ & C)]; lra.
    + intros b T. inversion T as [? ?|? ? ? T']; subst; [|apply I3; exact T']. exists P. split; [exact EP|]. fold m. destruct C as [(-> & _ & C)|(-> & _ & C)]; lra.
    + intros p. rewrite I4, D. split.
      * intros [[A|(A & B)]|(b & P' & T & E & M & I)]; [left; auto|right|right].
        { exists base, P. split; [apply t_here; auto|]. auto. }
        { exists b, P'. split; [apply t_next; auto|]. auto. }
      * intros [A|(b & P' & T & E & M & I)]; [left; auto|]. inversion T as [? ?|? ? ? T']; subst.
        { left. right. assert (P' = P) by congruence. subst. auto. }
        { right. exists b, P'. auto. }
  - injection H as <- <- <-. assert (NT : forall b, ~ tested step bmax base b) by (intros b T; apply tested_le in T; lra). split; [left; auto|]. split; [apply Rle_refl|]. split.
    + intros b T. exfalso. exact (NT b T).
    + intros p. split; [auto|]. intros [?|(b & P & T & _)]; [auto|exfalso; exact (NT b T)].
Qed.
Lemma object_spec f sc step low high c d d' : match_object f sc step low high c d = Ret (Some d') ->
  (forall b, tested_of step low high c b -> exists P, project sc (lifted c b) = Ret P) /\
  (forall p, In p d' -> In p d \/ exists b P, tested_of step low high c b /\ project sc (lifted c b) = Ret P /\ 0 < match_of sc (id c) P /\ In p (keep P)) /\
  (forall p, In p d -> In p d') /\
  (forall b P, tested_of step low high c b -> project sc (lifted c b) = Ret P -> 85 / 100 <= match_of sc (id c) P -> forall p, In p (keep P) -> In p d') /\
  (forall b m, tested_of step low high c b -> matches sc c b m -> 0 < m -> exists b0 P0, tested_of step low high c b0 /\ project sc (lifted c b0) = Ret P0 /\
     (forall b' m', tested_of step low high c b' -> matches sc c b' m' -> m' <= match_of sc (id c) P0) /\ forall p, In p (keep P0) -> In p d').
Proof.
  unfold match_object, tested_of. set (bmin := base_min low (basetemp c)). set (bmax := base_max high (basetemp c)). destruct (Rlt_bool_spec bmax bmin) as [L|L]; intros H.
  - injection H as <-. assert (NT : forall b, ~ tested step bmax bmin b) by (intros b T; apply tested_le in T; lra). split; [intros b T; exfalso; exact (NT b T)|]. split; [auto|]. split; [auto|]. split; intros b ? T; exfalso; exact (NT b T).
  - apply bind_ret in H as (r & R & H). destruct r as [((best & bestP) & dr)|]; [|discriminate]. injection H as <-. apply lift_spec in R as (I1 & I2 & I3 & I4).
    set (cond := Rlt_bool best (85 / 100) && Rlt_bool 0 best). assert (C : cond = true <-> 0 < best < 85 / 100). { unfold cond. destruct (Rlt_bool_spec best (85 / 100)), (Rlt_bool_spec 0 best); cbn; split; intros; try discriminate; auto; lra. }
    assert (D : forall p, In p (if cond then keep bestP ++ dr else dr) <-> In p dr \/ (0 < best < 85 / 100 /\ In p (keep bestP))). { intros p. destruct cond; [rewrite in_app_iff; split; [intros [?|?]; [right; split; [apply C|]|left]; auto|intros [?|(_ & ?)]; auto]|]. split; [auto|]. intros [?|(G & _)]; [auto|]. apply C in G. discriminate. }
    split; [|split; [|split; [|split]]].
    + intros b T. destruct (I3 b T) as (P & E & _). exists P. exact E.
    + intros p. rewrite D, I4. intros [[A|(b & P & T & E & M & I)]|(B & I)]; [auto|right; exists b, P; repeat split; auto; lra|]. right. destruct I1 as [(A1 & A2)|(b & T & E & M & G)]; [lra|]. exists b, bestP. split; [exact T|]. split; [exact E|]. split; [lra|exact I].
    + intros p I. apply D. left. apply I4. left. exact I.
    + intros b P T E M p I. apply D. left. apply I4. right. exists b, P. auto.
    + intros b m T (P & E & M) G. destruct (I3 b T) as (P' & E' & B'). assert (P' = P) by congruence. subst P'. destruct I1 as [(A1 & A2)|(b0 & T0 & E0 & M0 & G0)]; [lra|]. exists b0, bestP. split; [exact T0|]. split; [exact E0|]. split.
      * intros b' m' T' (Q & EQ & MQ). destruct (I3 b' T') as (Q' & EQ' & BQ'). assert (Q' = Q) by congruence. subst. lra.
      * intros p I. apply D. destruct (Rlt_or_le best (85 / 100)) as [Z|Z]; [right; split; [lra|exact I]|]. left. apply I4. right. exists b0, bestP. repeat split; auto. lra.
Qed.
(** Progress *)
Lemma base_min_ge low bt : 200 <= base_min low bt.
Proof. destruct bt as [b|]; cbn; [|lra]. destruct (Rlt_bool_spec (rnd32 ((low - 400 - b) / (98 / 100))) 200); lra. Qed.
Lemma base_max_le high bt : base_max high bt <= 12000.
Proof. destruct bt as [b|]; cbn; [|lra]. destruct (Rlt_bool_spec 12000 (rnd32 ((high + 400 - b) / (10 / 100)))); lra. Qed.
Lemma next_up base step : 200 <= base <= 12000 -> 1 / 500 <= step <= 1000000 -> base + step / 2 <= rnd32 (base + step).
Proof.
  intros B S. pose proof (rnd32_err (base + step) (12000 + step) ltac:(lra)) as E. rewrite (Rabs_pos_eq (base + step)) in E by lra. specialize (E ltac:(lra)). apply Rabs_le_inv in E. lra.
Qed.
Lemma next_big base step : 200 <= base <= 12000 -> 1000000 <= step -> 13000 <= rnd32 (base + step).
Proof. intros B S. assert (IZR 13000 <= rnd32 (base + step)) by (rewrite <- (rnd32_int 13000) by (cbn; lia); apply rnd32_le; lra). lra. Qed.
Lemma lift_ends step : 1 / 500 <= step -> forall n base bmax, bmax <= 12000 -> 200 <= base -> bmax < base + INR n * (1 / 1000) -> forall f, (n < f)%nat -> forall sc c best bestP drawn, lift f sc c base bmax step best bestP drawn <> Ret None.
Proof.
  intros S n. induction n as [|n IH]; intros base bmax M B G f F sc c best bestP drawn; (destruct f as [|f]; [lia|]); cbn [lift].
  - cbn in G. rewrite Rle_bool_false by lra. discriminate.
  - destruct (Rle_bool_spec base bmax) as [L|L]; [|discriminate]. destruct (project sc (lifted c base)) as [P| |]; cbn [bind]; try discriminate.
    assert (N : base + 1 / 1000 <= rnd32 (base + step)). { destruct (Rle_or_lt step 1000000) as [Z|Z]; [pose proof (next_up base step ltac:(lra) ltac:(lra)); lra|pose proof (next_big base step ltac:(lra) ltac:(lra))]. lra. }
    rewrite S_INR in G. destruct (Rlt_bool _ _); apply IH; try lra; lia.
Qed.
Lemma lift_ends_uniform step : 1 / 500 <= step -> exists n, forall f, (n < f)%nat -> forall sc c base bmax best bestP drawn, bmax <= 12000 -> 200 <= base -> lift f sc c base bmax step best bestP drawn <> Ret None.
Proof.
  intros S. assert (N : exists n, 12000000 < INR n). { destruct (archimed 12000000) as (U & _). exists (Z.to_nat (up 12000000)). rewrite INR_IZR_INZ, Z2Nat.id; [lra|]. apply le_IZR. lra. } destruct N as (n & N). exists n. intros f F sc c base bmax best bestP drawn M B. apply (lift_ends step S n); auto. lra.
Qed.
Lemma objects_end step low high : 1 / 500 <= step -> exists n, forall f, (n < f)%nat -> forall sc l d, match_objects f sc step low high l d <> Ret None.
Proof.
  intros S. destruct (lift_ends_uniform step S) as (n & N). exists n. intros f F sc l. induction l as [|c l IH]; intros d; cbn [match_objects]; [discriminate|]. intros H. destruct (match_object f sc step low high c d) as [[d'|]| |] eqn:E; cbn [bind] in H; try discriminate; [exact (IH d' H)|].
  unfold match_object in E. destruct (Rlt_bool_spec (base_max high (basetemp c)) (base_min low (basetemp c))) as [L|L]; [discriminate|]. destruct (lift f sc c (base_min low (basetemp c)) (base_max high (basetemp c)) step 0 [] d) as [[((? & ?) & ?)|]| |] eqn:Q; cbn [bind] in E; try discriminate.
  revert Q. apply N; auto; [apply base_max_le|apply base_min_ge].
Qed.
