(** Proofs about the cloud module: tests of single pixels, percentages, cirrus threshold. *)
From Coq Require Import Reals Lra.
From Flocq Require Import Core.
From Verif Require Import Base BaseFacts RoundModel RoundFacts CldModel CldSpec QaiModel QaiSpec CldProofs.
#[local] Open Scope R_scope.

Lemma rnd32_1 : rnd32 1 = 1. Proof. exact (rnd32_int 1 ltac:(lia)). Qed.
Lemma quot_pos x y : 0 <= x -> 0 < y -> 0 <= x / y.
Proof. intros A B. unfold Rdiv. apply Rmult_le_pos; [exact A|]. apply Rlt_le, Rinv_0_lt_compat, B. Qed.
Lemma dbl_err p q : (0 <= p <= q)%Z -> (0 < q)%Z -> Rabs (dbl p q - IZR p / IZR q) <= / 1000000000000.
Proof.
  intros (P & PQ) Q. unfold dbl. apply IZR_le in P. apply IZR_le in PQ. apply IZR_lt in Q.
  assert (0 <= IZR p / IZR q <= 1). { split; [apply quot_pos; lra|]. apply (Rmult_le_reg_r (IZR q)); [lra|]. unfold Rdiv. rewrite Rmult_assoc, Rinv_l by lra. lra. }
  replace (/ 1000000000000) with (1 / 1000000000000) by lra. apply rnd64_err; [lra|]. rewrite Rabs_pos_eq; lra.
Qed.

(** Two different fractions with small denominators keep apart. *)
Lemma gap_pos m n p q : (0 < n <= 65536)%Z -> (0 < q <= 100)%Z -> IZR m / IZR n < IZR p / IZR q -> IZR m / IZR n + / 6553600 <= IZR p / IZR q.
Proof.
  intros (N & N') (Q & Q') H. assert (Hn : 0 < IZR n) by (now apply IZR_lt). assert (Hq : 0 < IZR q) by (now apply IZR_lt).
  assert (I : (m * q + 1 <= p * n)%Z).
  { apply Zlt_succ_le. unfold Z.succ. apply Z.add_lt_mono_r. apply lt_IZR. rewrite !mult_IZR.
    apply (Rmult_lt_compat_r (IZR n * IZR q)) in H; [|apply Rmult_lt_0_compat; lra].
    replace (IZR m / IZR n * (IZR n * IZR q)) with (IZR m * IZR q) in H by (field; lra).
    replace (IZR p / IZR q * (IZR n * IZR q)) with (IZR p * IZR n) in H by (field; lra). exact H. }
  apply IZR_le in I. rewrite plus_IZR, !mult_IZR in I.
  assert (P : 0 < IZR n * IZR q) by (apply Rmult_lt_0_compat; lra).
  assert (PB : IZR n * IZR q <= 6553600). { apply IZR_le in N'. apply IZR_le in Q'. replace 6553600 with (65536 * 100) by lra. apply Rmult_le_compat; lra. }
  assert (K : / 6553600 <= / (IZR n * IZR q)) by (apply Rinv_le; lra).
  apply Rle_trans with (IZR m / IZR n + / (IZR n * IZR q)); [lra|].
  apply (Rmult_le_reg_r (IZR n * IZR q)); [exact P|].
  replace ((IZR m / IZR n + / (IZR n * IZR q)) * (IZR n * IZR q)) with (IZR m * IZR q + 1) by (field; lra).
  replace (IZR p / IZR q * (IZR n * IZR q)) with (IZR p * IZR n) by (field; lra). exact I.
Qed.
Lemma gap m n p q : (n <> 0)%Z -> (-65536 <= n <= 65536)%Z -> (0 < q <= 100)%Z -> IZR m / IZR n < IZR p / IZR q -> IZR m / IZR n + / 6553600 <= IZR p / IZR q.
Proof.
  intros N B Q H. destruct (Z_lt_ge_dec 0 n); [apply gap_pos; auto; lia|].
  assert (E : IZR m / IZR n = IZR (- m) / IZR (- n)) by (rewrite !opp_IZR; field; apply IZR_neq; lia). rewrite E in *. apply gap_pos; auto; lia.
Qed.
Lemma gap_above m n p q : (n <> 0)%Z -> (-65536 <= n <= 65536)%Z -> (0 < q <= 100)%Z -> IZR p / IZR q < IZR m / IZR n -> IZR p / IZR q + / 6553600 <= IZR m / IZR n.
Proof.
  intros N B Q H. assert (Qr : 0 < IZR q) by (apply IZR_lt; lia). assert (Nr : IZR n <> 0) by (apply IZR_neq; lia).
  assert (G : IZR (- m) / IZR n + / 6553600 <= IZR (- p) / IZR q).
  { apply gap; auto. rewrite !opp_IZR. unfold Rdiv in *. rewrite !Ropp_mult_distr_l_reverse. lra. }
  rewrite !opp_IZR in G. unfold Rdiv in *. rewrite !Ropp_mult_distr_l_reverse in G. lra.
Qed.

Section Ratio.
Context (a b p q : Z) (Ha : in_short a) (Hb : in_short b) (Hs : (a + b <> 0)%Z) (HQ : (0 < q <= 100)%Z) (HP : (0 <= p)%Z) (HPQ : (10 * p <= 9 * q)%Z).
Let x := exact_ratio a b.
Lemma pq_bounds : 0 <= IZR p / IZR q <= 9 / 10.
Proof using HP HPQ HQ.
  assert (Qr : 0 < IZR q) by (apply IZR_lt; lia). apply IZR_le in HP. apply IZR_le in HPQ. rewrite !mult_IZR in HPQ. split; [apply quot_pos; lra|].
  apply (Rmult_le_reg_r (IZR q)); [lra|]. unfold Rdiv at 1. rewrite Rmult_assoc, Rinv_l by lra. lra.
Qed.
Lemma dbl_bounds : IZR p / IZR q - / 1000000000000 <= dbl p q <= IZR p / IZR q + / 1000000000000.
Proof using HP HPQ HQ. pose proof (dbl_err p q ltac:(lia) ltac:(lia)) as E. apply Rabs_le_inv in E. lra. Qed.

Lemma ratio_below : exact_ratio a b < IZR p / IZR q -> ratio a b < dbl p q.
Proof using Ha Hb Hs HP HPQ HQ.
  intros H. unfold ratio. destruct (Z.eqb_spec (a + b) 0); [lia|]. fold (exact_ratio a b). pose proof pq_bounds as B. pose proof dbl_bounds as D.
  assert (G : exact_ratio a b + / 6553600 <= IZR p / IZR q) by (apply gap; unfold in_short in *; auto; lia).
  destruct (Rlt_le_dec (exact_ratio a b) (-1)) as [L|L].
  - assert (rnd32 (exact_ratio a b) <= -1). { replace (-1) with (rnd32 (-1)) by (exact (rnd32_int (-1) ltac:(lia))). apply rnd32_le; lra. } lra.
  - assert (E : Rabs (rnd32 (exact_ratio a b) - exact_ratio a b) <= 1 / 16000000) by (apply rnd32_err; [lra|apply Rabs_le; lra]). apply Rabs_le_inv in E. lra.
Qed.
Lemma ratio_above : IZR p / IZR q < exact_ratio a b -> dbl p q < ratio a b.
Proof using Ha Hb Hs HP HPQ HQ.
  intros H. unfold ratio. destruct (Z.eqb_spec (a + b) 0); [lia|]. fold (exact_ratio a b). pose proof pq_bounds as B. pose proof dbl_bounds as D.
  assert (G : IZR p / IZR q + / 6553600 <= exact_ratio a b) by (apply gap_above; unfold in_short in *; auto; lia).
  destruct (Rlt_le_dec 1 (exact_ratio a b)) as [L|L].
  - assert (1 <= rnd32 (exact_ratio a b)) by (rewrite <- rnd32_1 at 1; apply rnd32_le; lra). lra.
  - assert (E : Rabs (rnd32 (exact_ratio a b) - exact_ratio a b) <= 1 / 16000000) by (apply rnd32_err; [lra|apply Rabs_le; lra]). apply Rabs_le_inv in E. lra.
Qed.
Lemma below_iff : exact_ratio a b <> IZR p / IZR q -> Rlt_bool (ratio a b) (dbl p q) = true <-> exact_ratio a b < IZR p / IZR q.
Proof using Ha Hb Hs HP HPQ HQ.
  intros N. destruct (Rlt_bool_spec (ratio a b) (dbl p q)) as [H|H]; split; intros T; try discriminate; auto.
  - destruct (Rtotal_order (exact_ratio a b) (IZR p / IZR q)) as [L|[E|L]]; auto; [contradiction|]. apply ratio_above in L. lra.
  - apply ratio_below in T. lra.
Qed.
Lemma above_iff : exact_ratio a b <> IZR p / IZR q -> Rlt_bool (dbl p q) (ratio a b) = true <-> IZR p / IZR q < exact_ratio a b.
Proof using Ha Hb Hs HP HPQ HQ.
  intros N. destruct (Rlt_bool_spec (dbl p q) (ratio a b)) as [H|H]; split; intros T; try discriminate; auto.
  - destruct (Rtotal_order (exact_ratio a b) (IZR p / IZR q)) as [L|[E|L]]; auto; [|congruence]. apply ratio_below in L. lra.
  - apply ratio_above in T. lra.
Qed.
End Ratio.

Lemma ratio_sign a b : in_short a -> in_short b -> (a + b <> 0)%Z -> Rlt_bool 0 (ratio a b) = true <-> 0 < exact_ratio a b.
Proof.
  intros A B S. unfold ratio. destruct (Z.eqb_spec (a + b) 0); [lia|]. fold (exact_ratio a b).
  destruct (Rlt_bool_spec 0 (rnd32 (exact_ratio a b))) as [H|H]; split; intros T; try discriminate; auto.
  - destruct (Rlt_le_dec 0 (exact_ratio a b)) as [L|L]; [exact L|]. apply rnd32_le in L. rewrite rnd32_0 in L. lra.
  - exfalso. assert (G : IZR 0 / IZR 1 + / 6553600 <= exact_ratio a b) by (apply gap_above; unfold in_short in *; auto; try lia; unfold Rdiv at 1; rewrite Rmult_0_l; exact T).
    unfold Rdiv in G at 1. rewrite Rmult_0_l, Rplus_0_l in G. 
    assert (K : IZR 1 * bpow radix2 (-24) <= rnd32 (exact_ratio a b)).
    { rewrite <- (rnd32_dyadic 1 (-24)) by (cbn; lia). apply rnd32_le. change (bpow radix2 (-24)) with (/ 16777216). lra. }
    change (bpow radix2 (-24)) with (/ 16777216) in K. lra.
Qed.

Lemma water_iff p : in_short (p_nir p) -> in_short (p_red p) -> (p_nir p + p_red p <> 0)%Z ->
  exact_ratio (p_nir p) (p_red p) <> 1 / 100 -> exact_ratio (p_nir p) (p_red p) <> 1 / 10 ->
  water_test p = true <-> water_spec (p_nir p) (p_red p) (p_slope p).
Proof.
  intros A B S N1 N2. unfold water_test, water_spec, ndvi_of.
  pose proof (below_iff (p_nir p) (p_red p) 1 100 A B S ltac:(lia) ltac:(lia) ltac:(lia) N1) as I1.
  pose proof (below_iff (p_nir p) (p_red p) 1 10 A B S ltac:(lia) ltac:(lia) ltac:(lia) N2) as I2.
  pose proof (ratio_sign (p_nir p) (p_red p) A B S) as I3.
  rewrite !andb_true_iff, orb_true_iff, !andb_true_iff, I1, I2, I3, !Z.ltb_lt. tauto.
Qed.
Lemma snow_iff p : in_short (p_green p) -> in_short (p_sw1 p) -> (p_green p + p_sw1 p <> 0)%Z ->
  exact_ratio (p_green p) (p_sw1 p) <> 15 / 100 -> exact_ratio (p_green p) (p_sw1 p) <> 4 / 10 ->
  snow_test p = true <-> snow_spec (p_green p) (p_sw1 p) (p_sw2 p) (p_nir p) (p_temp p).
Proof.
  intros A B S N1 N2. unfold snow_test, snow_spec, ndsi_of.
  pose proof (above_iff (p_green p) (p_sw1 p) 15 100 A B S ltac:(lia) ltac:(lia) ltac:(lia) N1) as I1.
  pose proof (above_iff (p_green p) (p_sw1 p) 4 10 A B S ltac:(lia) ltac:(lia) ltac:(lia) N2) as I2.
  rewrite orb_true_iff, !andb_true_iff, I2, !Z.gtb_lt, Z.ltb_lt. destruct (p_temp p) as [t|].
  - rewrite !andb_true_iff, I1, !Z.gtb_lt, Z.ltb_lt. split.
    + intros [(((H1 & H2) & H3) & H4)|(((H1 & H2) & H3) & H4)]; (split; [lia|]; split; [lia|]); [left; eauto|right; auto].
    + intros (H3 & H4 & [(t' & E & H2 & H1)|(H1 & H2)]); [injection E as <-; left|right]; repeat split; auto; lia.
  - split.
    + intros [H|(((H1 & H2) & H3) & H4)]; [discriminate|]. split; [lia|]. split; [lia|]. right; auto.
    + intros (H3 & H4 & [(t' & E & _)|(H1 & H2)]); [discriminate|right]; repeat split; auto; lia.
Qed.

(** ** The variability probability *)
Lemma ratio_unit a b : (0 <= a)%Z -> (0 <= b)%Z -> Rabs (ratio a b) <= 1.
Proof.
  intros A B. apply Rabs_le. unfold ratio. destruct (Z.eqb_spec (a + b) 0) as [E|E].
  - apply (rnd32_between (-1) 1); [lia|lia|]. pose proof (dbl_err 1 100 ltac:(lia) ltac:(lia)) as D. apply Rabs_le_inv in D. lra.
  - apply (rnd32_between (-1) 1); [lia|lia|]. assert (P : 0 < IZR (a + b)) by (apply IZR_lt; lia).
    split; apply (Rmult_le_reg_r (IZR (a + b))); auto; unfold Rdiv; rewrite Rmult_assoc, Rinv_l, Rmult_1_r by lra.
    + replace (-1 * IZR (a + b)) with (IZR (- (a + b))) by (rewrite opp_IZR; lra). apply IZR_le; lia.
    + rewrite Rmult_1_l. apply IZR_le; lia.
Qed.
Lemma vis_pos p : (0 < p_blue p + p_green p + p_red p)%Z -> / 4 <= vis_of p.
Proof.
  intros H. assert (B : 1 <= IZR (p_blue p + p_green p + p_red p)) by (apply IZR_le; lia).
  unfold vis_of. assert (Q : IZR 1 * bpow radix2 (-2) = / 4) by (change (bpow radix2 (-2)) with (/ 4); lra).
  rewrite <- Q. rewrite <- (rnd32_dyadic 1 (-2)) by (cbn; lia). apply rnd32_le. rewrite <- (rnd64_dyadic 1 (-2)) by (cbn; lia). apply rnd64_le. rewrite Q. lra.
Qed.
Lemma rnd64_pos x : 0 <= x -> 0 <= rnd64 x. Proof. intros H. rewrite <- rnd64_0. now apply rnd64_le. Qed.
Lemma rnd32_pos x : 0 <= x -> 0 <= rnd32 x. Proof. intros H. rewrite <- rnd32_0. now apply rnd32_le. Qed.
Lemma white_unit p : (0 < p_blue p + p_green p + p_red p)%Z -> exists w, white_of p = Some w /\ 0 <= w <= 1.
Proof.
  intros H. pose proof (vis_pos p H) as V. unfold white_of. rewrite Req_bool_false by lra. eexists. split; [reflexivity|].
  assert (N : 0 <= white_num p). { unfold white_num. apply rnd64_pos. apply Rplus_le_le_0_compat; [apply rnd64_pos, Rplus_le_le_0_compat|]; apply Rabs_pos. }
  assert (W : 0 <= rnd32 (rnd64 (white_num p / vis_of p))) by (apply rnd32_pos, rnd64_pos, quot_pos; lra).
  destruct (Rlt_bool_spec 1 (rnd32 (rnd64 (white_num p / vis_of p)))); lra.
Qed.
Lemma mod_unit p : (0 <= p_green p)%Z -> (0 <= p_red p)%Z -> (0 <= p_nir p)%Z -> (0 <= p_sw1 p)%Z -> 0 <= ndvi_mod p <= 1 /\ 0 <= ndsi_mod p <= 1.
Proof.
  intros G R N S. pose proof (ratio_unit (p_nir p) (p_red p) N R). pose proof (ratio_unit (p_green p) (p_sw1 p) G S).
  unfold ndvi_mod, ndsi_mod, ndvi_of, ndsi_of. split; match goal with |- context [if ?c then _ else _] => destruct c end; try lra; (split; [apply Rabs_pos|auto]).
Qed.
Lemma rnd_unit x : 0 <= x <= 1 -> 0 <= rnd32 (rnd64 x) <= 1.
Proof.
  intros (A & B). split; [apply rnd32_pos, rnd64_pos, A|]. rewrite <- rnd32_1. apply rnd32_le. rewrite <- (rnd64_int 1) by lia. now apply rnd64_le.
Qed.
Lemma var_ok p : (0 <= p_green p)%Z -> (0 <= p_red p)%Z -> (0 <= p_nir p)%Z -> (0 <= p_sw1 p)%Z -> (0 < p_blue p + p_green p + p_red p)%Z ->
  exists v, var_of p = Ret v /\ (0 <= v <= 10000)%Z.
Proof.
  intros G R N S V. destruct (white_unit p V) as (w & EW & W). destruct (mod_unit p G R N S) as (M1 & M2). unfold var_of, vprob. rewrite EW.
  set (m := if Rle_bool (ndsi_mod p) (ndvi_mod p) then ndvi_mod p else ndsi_mod p).
  assert (M : 0 <= m <= 1) by (unfold m; destruct (Rle_bool (ndsi_mod p) (ndvi_mod p)); auto). clearbody m.
  set (u := if Rle_bool w m then m else w). assert (U : 0 <= u <= 1) by (unfold u; destruct (Rle_bool w m); auto). clearbody u.
  pose proof (rnd_unit (1 - u) ltac:(lra)) as Q. set (t := rnd32 (rnd64 (1 - u))) in *. clearbody t.
  assert (Z : 0 <= rnd32 (t * 10000) <= IZR 10000) by (apply (rnd32_between 0 10000); [lia|lia|lra]).
  assert (T : (0 <= Ztrunc (rnd32 (t * 10000)) <= 10000)%Z).
  { destruct Z as (Z1 & Z2). apply Ztrunc_le in Z1. apply Ztrunc_le in Z2. rewrite (Ztrunc_IZR 0) in Z1. rewrite (Ztrunc_IZR 10000) in Z2. lia. }
  exists (Ztrunc (rnd32 (t * 10000))). split; [|exact T]. unfold short_of. assert (in_shortb (Ztrunc (rnd32 (t * 10000))) = true) as -> by (apply in_shortb_spec; unfold in_short; lia). reflexivity.
Qed.

(** ** Percentages *)
Lemma percent_err k n : (0 <= k <= n)%Z -> (0 < n <= 2147483647)%Z -> Rabs (percent k n - 100 * IZR k / IZR n) <= / 10000.
Proof.
  intros (K & KN) (N & N'). unfold percent.
  assert (Kr : 0 <= IZR k) by (now apply IZR_le). assert (KNr : IZR k <= IZR n) by (now apply IZR_le). assert (Nr : 1 <= IZR n) by (apply IZR_le; lia).
  assert (E1 : Rabs (rnd32 (IZR n) - IZR n) <= IZR n / 16000000) by (apply rnd32_err; [lra|rewrite Rabs_pos_eq; lra]). apply Rabs_le_inv in E1.
  set (m := rnd32 (IZR n)) in *. clearbody m. assert (M : 0 < m) by lra.
  set (x := 100 * IZR k / m). set (y := 100 * IZR k / IZR n).
  assert (Y : 0 <= y <= 100). { unfold y. split; [apply quot_pos; lra|]. apply (Rmult_le_reg_r (IZR n)); [lra|]. unfold Rdiv. rewrite Rmult_assoc, Rinv_l by lra. lra. }
  assert (XY : Rabs (x - y) <= 100 / 15000000).
  { assert (EQ : x * m = y * IZR n) by (unfold x, y; field; lra). assert (X0 : 0 <= x) by (unfold x; apply quot_pos; lra).
    apply Rabs_le. split; apply (Rmult_le_reg_r m); auto; rewrite Rmult_minus_distr_r, EQ; nra. }
  apply Rabs_le_inv in XY.
  assert (E2 : Rabs (rnd64 x - x) <= 101 / 1000000000000) by (apply rnd64_err; [lra|apply Rabs_le; lra]). apply Rabs_le_inv in E2.
  assert (E3 : Rabs (rnd32 (rnd64 x) - rnd64 x) <= 102 / 16000000) by (apply rnd32_err; [lra|apply Rabs_le; lra]). apply Rabs_le_inv in E3.
  fold x y. apply Rabs_le. lra.
Qed.

(** ** Cirrus *)
Lemma cirrus_thr_err z : Rabs z <= 9 -> 100 <= cirrus_thr z /\ (70 + 70 * (z * z) < 100 - / 100 -> cirrus_thr z = 100) /\
  (100 < cirrus_thr z -> Rabs (cirrus_thr z - (70 + 70 * (z * z))) <= / 100) /\ (cirrus_thr z = 100 -> 70 + 70 * (z * z) <= 100 + / 100).
Proof.
  intros Hz. assert (Hz' := Rabs_le_inv _ _ Hz). unfold cirrus_thr.
  assert (E1 : Rabs (rnd32 (70 * z) - 70 * z) <= 630 / 16000000) by (apply rnd32_err; [lra|apply Rabs_le; lra]). apply Rabs_le_inv in E1.
  set (a := rnd32 (70 * z)) in *. clearbody a.
  assert (P : Rabs (a * z - 70 * z * z) <= 630 / 16000000 * 9).
  { replace (a * z - 70 * z * z) with ((a - 70 * z) * z) by ring. rewrite Rabs_mult. apply Rmult_le_compat; try apply Rabs_pos; auto. apply Rabs_le; lra. }
  apply Rabs_le_inv in P. assert (ZZ : 0 <= z * z <= 81) by nra. replace (70 * z * z) with (70 * (z * z)) in P by ring.
  assert (E2 : Rabs (rnd32 (a * z) - a * z) <= 5700 / 16000000) by (apply rnd32_err; [lra|apply Rabs_le; lra]). apply Rabs_le_inv in E2.
  assert (E3 : Rabs (rnd32 (70 + rnd32 (a * z)) - (70 + rnd32 (a * z))) <= 5800 / 16000000) by (apply rnd32_err; [lra|apply Rabs_le; lra]). apply Rabs_le_inv in E3.
  set (t := rnd32 (70 + rnd32 (a * z))) in *. clearbody t.
  destruct (Rlt_bool_spec t 100) as [L|L]; (split; [lra|]; split; [intros; lra|]; split; [intros; apply Rabs_le; lra|intros; lra]).
Qed.
