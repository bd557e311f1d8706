(** The integrals of a series of integers are exact. *)
From Coq Require Import Reals Lra.
From Flocq Require Import Core IEEE754.BinarySingleNaN.
From Verif Require Import Base BaseFacts Loops LoopsFacts Float FloatFacts FloatInt RoundModel RoundFacts InterpModel InterpProofs ChunkProofs PolModel PolSpec PolFloat PolSeasons PolCum PolEvents PolLoop PolCoords PolVector PolAdapt PolPixel PolMetrics.
#[local] Open Scope Z_scope.

(** Half an integer. *)
Definition isH {p e} (x : binary_float p e) (n : Z) : Prop := fin x /\ B2R x = (IZR n / 2)%R.
Lemma isH_of_Z {p e} (x : binary_float p e) n : isZ x n -> isH x (2 * n).
Proof. intros [F E]. split; auto. rewrite E, mult_IZR. lra. Qed.
Lemma abs_half n : (Rabs (IZR n / 2) <= IZR (Z.abs n))%R.
Proof. unfold Rdiv. rewrite Rabs_mult, <- abs_IZR, (Rabs_pos_eq (/ 2)) by lra. assert (0 <= IZR (Z.abs n))%R by (apply (IZR_le 0); lia). lra. Qed.
Lemma half32 n : Z.abs n < 2 ^ 24 -> (Rabs (rnd32 (IZR n / 2)) < bpow radix2 128)%R.
Proof.
  intros H. rewrite rnd32_half by auto. eapply Rle_lt_trans; [apply abs_half|]. pose proof bpow128_big.
  assert (IZR (Z.abs n) <= 16777216)%R by (apply IZR_le; lia). lra.
Qed.
Lemma half64 n : Z.abs n < 2 ^ 53 -> (Rabs (rnd64 (IZR n / 2)) < bpow radix2 1024)%R.
Proof.
  intros H. rewrite rnd64_half by auto. eapply Rle_lt_trans; [apply abs_half|].
  apply Rle_lt_trans with (IZR (2 ^ 53)); [apply IZR_le; lia|].
  change (IZR (2 ^ 53)) with (bpow radix2 53). apply bpow_lt. reflexivity.
Qed.
Lemma isH_sub (x y : f32) a b : isH x a -> isH y b -> Z.abs (a - b) < 2 ^ 24 -> isH (f32_sub x y) (a - b).
Proof.
  intros [F1 E1] [F2 E2] H. assert (B2R x - B2R y = IZR (a - b) / 2)%R as E by (rewrite E1, E2, minus_IZR; lra).
  destruct (sub32_R x y F1 F2) as [G1 G2]; [rewrite E; now apply half32|]. split; auto. rewrite G2. unfold fsub. rewrite E. now apply rnd32_half.
Qed.
Lemma isH_mul (x y : f32) a b : isH x a -> isZ y b -> Z.abs (a * b) < 2 ^ 24 -> isH (f32_mul x y) (a * b).
Proof.
  intros [F1 E1] [F2 E2] H. assert (B2R x * B2R y = IZR (a * b) / 2)%R as E by (rewrite E1, E2, mult_IZR; lra).
  destruct (mul32_R x y F1 F2) as [G1 G2]; [rewrite E; now apply half32|]. split; auto. rewrite G2. unfold fmul. rewrite E. now apply rnd32_half.
Qed.
Lemma isH_widen (x : f32) a : isH x a -> isH (widen x) a.
Proof. intros [F E]. destruct (widen_R x F) as [G1 G2]. split; auto. congruence. Qed.
Lemma isH_add64 (x y : f64) a b : isH x a -> isH y b -> Z.abs (a + b) < 2 ^ 53 -> isH (f64_add x y) (a + b).
Proof.
  intros [F1 E1] [F2 E2] H. assert (B2R x + B2R y = IZR (a + b) / 2)%R as E by (rewrite E1, E2, plus_IZR; lra).
  destruct (add64_R x y F1 F2) as [G1 G2]; [rewrite E; now apply half64|]. split; auto. rewrite G2, E. now apply rnd64_half.
Qed.
Lemma isH_middle (x y : f32) a b : isZ x a -> isZ y b -> Z.abs (a + b) < 2 ^ 24 -> isH (middle x y) (a + b).
Proof.
  intros X Y H. destruct (isZ32_add x y a b X Y ltac:(lia)) as [F E]. destruct (widen_R _ F) as [W1 W2]. unfold middle.
  destruct (isZ64 2 ltac:(lia)) as [T1 T2].
  assert (B2R (widen (f32_add x y)) / B2R (f64_of_Z 2) = IZR (a + b) / 2)%R as Q by (rewrite W2, E, T2; reflexivity).
  destruct (div64_R (widen (f32_add x y)) (f64_of_Z 2) W1) as [D1 D2]; [rewrite T2; lra|rewrite Q; apply half64; lia|].
  rewrite Q, rnd64_half in D2 by lia.
  destruct (narrow_R _ D1) as [N1 N2]; [rewrite D2; now apply half32|]. split; auto. rewrite N2, D2. now apply rnd32_half.
Qed.

Definition whole (p : polar) : Prop := exists n, isZ (p_val p) n /\ 0 <= n <= 32767.

Lemma step_exact k green base prev p a n m S Lt : 1 <= k_step k <= 255 -> isZ (p_val p) n -> 0 <= n <= 32767 -> isH base m -> 0 <= m <= 65534 ->
  isH (i_season a) S -> isH (i_latent a) Lt -> isH (i_total a) (S + Lt) -> 0 <= S -> 0 <= Lt -> S + Lt < 2 ^ 52 ->
  let a' := integral_step k green base prev p a in
  exists S' Lt', isH (i_season a') S' /\ isH (i_latent a') Lt' /\ isH (i_total a') (S' + Lt') /\ 0 <= S' /\ 0 <= Lt' /\ S' + Lt' <= S + Lt + 2 ^ 24.
Proof.
  intros K V N Bs M HS HL HT S0 L0 B a'. destruct (isZ32 (k_step k) ltac:(lia)) as [K1 K2].
  pose proof (conj K1 K2 : isZ (f32_of_Z (k_step k)) (k_step k)) as Kz.
  pose proof (isH_of_Z _ _ V) as Vh.
  assert (isH (widen (f32_mul (p_val p) (f32_of_Z (k_step k)))) (2 * n * k_step k)) as Tm by (apply isH_widen, isH_mul; auto; nia).
  assert (flt base (p_val p) = (m <? 2 * n)) as Fl.
  { apply eq_true_iff_eq. rewrite Z.ltb_lt. destruct Bs as [B1 B2], V as [V1 V2]. rewrite (flt_R base (p_val p) B1 V1), B2, V2.
    split; intros C.
    - apply lt_IZR. rewrite mult_IZR. lra.
    - apply IZR_lt in C. rewrite mult_IZR in C. lra. }
  subst a'. unfold integral_step. cbn [i_season i_latent i_total]. rewrite Fl.
  destruct (m <? 2 * n) eqn:C.
  - assert (isH (widen (f32_mul (f32_sub (p_val p) base) (f32_of_Z (k_step k)))) ((2 * n - m) * k_step k)) as Sm.
    { apply isH_widen, isH_mul; auto; [apply isH_sub; auto; lia|nia]. }
    assert (isH (widen (f32_mul base (f32_of_Z (k_step k)))) (m * k_step k)) as Lm by (apply isH_widen, isH_mul; auto; nia).
    exists (S + (2 * n - m) * k_step k), (Lt + m * k_step k).
    assert (0 <= (2 * n - m) * k_step k /\ 0 <= m * k_step k /\ 0 <= 2 * n * k_step k <= 2 ^ 24 /\ 2 * n * k_step k = (2 * n - m) * k_step k + m * k_step k) as (Q1 & Q2 & Q3 & Q4) by nia.
    replace (S + (2 * n - m) * k_step k + (Lt + m * k_step k)) with (S + Lt + 2 * n * k_step k) by lia.
    refine (conj _ (conj _ (conj _ (conj _ (conj _ _))))); [apply isH_add64; auto; lia..|lia|lia|lia].
  - assert (0 <= 2 * n * k_step k <= 2 ^ 24) as Q3 by nia.
    exists S, (Lt + 2 * n * k_step k).
    replace (S + (Lt + 2 * n * k_step k)) with (S + Lt + 2 * n * k_step k) by lia.
    refine (conj HS (conj _ (conj _ (conj _ (conj _ _))))); [apply isH_add64; auto; lia..|lia|lia|lia].
Qed.

Lemma walk_exact k green base m : 1 <= k_step k <= 255 -> isH base m -> 0 <= m <= 65534 ->
  forall seg prev a S Lt, Forall whole seg ->
  isH (i_season a) S -> isH (i_latent a) Lt -> isH (i_total a) (S + Lt) -> 0 <= S -> 0 <= Lt -> S + Lt + zlen seg * 2 ^ 24 < 2 ^ 52 ->
  let a' := walk_int k green base prev seg a in
  exists S' Lt', isH (i_season a') S' /\ isH (i_latent a') Lt' /\ isH (i_total a') (S' + Lt') /\ 0 <= S' /\ 0 <= Lt' /\ S' + Lt' <= S + Lt + zlen seg * 2 ^ 24.
Proof.
  intros K Bs M. induction seg as [|p seg IH]; intros prev a S Lt W HS HL HT S0 L0 B; cbn [walk_int].
  { exists S, Lt. refine (conj HS (conj HL (conj HT (conj S0 (conj L0 _))))). unfold zlen. cbn. lia. }
  inversion W as [|? ? (n & V & N) W']; subst.
  assert (zlen (p :: seg) = zlen seg + 1) as Lc by (unfold zlen; cbn [length]; lia). assert (0 <= zlen seg) by (unfold zlen; lia).
  destruct (step_exact k green base prev p a n m S Lt K V N Bs M HS HL HT S0 L0 ltac:(lia)) as (S1 & L1 & H1 & H2 & H3 & H4 & H5 & H6).
  destruct (IH (Some p) _ S1 L1 W' H1 H2 H3 H4 H5 ltac:(lia)) as (S2 & L2 & G1 & G2 & G3 & G4 & G5 & G6).
  exists S2, L2. split; [exact G1|]. split; [exact G2|]. split; [exact G3|]. lia.
Qed.

Lemma per_exact (x : f64) n z : isH x n -> 0 <= n <= 700000000000 -> per x 365 = Ret z -> z = n / 730.
Proof.
  intros [F E] N H. unfold per in H. apply short_trunc in H. destruct H as [H _]. destruct (isZ64 365 ltac:(lia)) as [T1 T2].
  assert (B2R x / B2R (f64_of_Z 365) = IZR n / 730)%R as Q by (rewrite E, T2; field).
  assert (0 <= IZR n <= 700000000000)%R as Nr by (split; apply IZR_le; lia).
  assert (Rabs (IZR n / 730) <= 1000000000)%R as A by (apply Rabs_le; lra).
  pose proof (rnd64_err (IZR n / 730) 1000000000 ltac:(lra) A) as Er. apply Rabs_le_inv in Er.
  destruct (div64_R x (f64_of_Z 365) F) as [D1 D2]; [rewrite T2; lra| |].
  { rewrite Q. pose proof bpow1024_big. apply Rabs_def1; lra. }
  rewrite trunc_of_spec in H by auto. assert (z = Ztrunc (B2R (f64_div x (f64_of_Z 365)))) as -> by congruence. rewrite D2, Q.
  set (f := n / 730). pose proof (Z.div_mod n 730 ltac:(lia)) as Dm. pose proof (Z.mod_pos_bound n 730 ltac:(lia)) as Mb. fold f in Dm.
  assert (IZR f <= IZR n / 730 <= IZR f + 1 - 1 / 730)%R as [B1 B2].
  { assert (IZR f * 730 <= IZR n)%R as X1 by (rewrite <- mult_IZR; apply IZR_le; lia).
    assert (IZR n <= IZR f * 730 + 729)%R as X2 by (rewrite <- mult_IZR, <- plus_IZR; apply IZR_le; lia). lra. }
  assert (IZR f <= rnd64 (IZR n / 730))%R as B3.
  { rewrite <- (rnd64_int f) by lia. now apply rnd64_le. }
  assert (0 <= f) as F0 by (unfold f; apply Z.div_pos; lia).
  rewrite Ztrunc_floor by (apply IZR_le in F0; lra).
  apply Zfloor_imp. rewrite plus_IZR. lra.
Qed.

(** The integral under the curve is what lies below and above the base. *)
Lemma parts_of_730 a b : 0 <= a -> 0 <= b -> 0 <= (a + b) / 730 - a / 730 - b / 730 <= 1.
Proof. intros A B. lia. Qed.

Lemma clamp_whole nodata year_min ny o p : legal_obs year_min ny o -> entry_of nodata year_min o p -> o_val o <> nodata -> whole p.
Proof.
  intros Fo (_ & _ & H) V. unfold whole. rewrite (H V). clear H. assert (in_short (o_val o)) as I by apply Fo. destruct (short_fin _ I) as [[F E] _].
  unfold clamp. destruct (flt (f32_of_Z (o_val o)) zero32) eqn:C.
  - exists 0. split; [split; reflexivity|lia].
  - exists (o_val o). split; [split; auto|]. split; [|unfold in_short in I; lia].
    assert (~ (IZR (o_val o) < 0)%R) as L'. { intros X. rewrite <- E in X. apply (proj2 (flt_R (f32_of_Z (o_val o)) zero32 F eq_refl)) in X. congruence. }
    apply Rnot_lt_le in L'. apply (le_IZR 0) in L'. exact L'.
Qed.

Lemma series_length year_min ny step l : 1 <= step -> 1 <= ny -> Forall (legal_obs year_min ny) l -> every_step step l -> zlen l <= 365 * ny.
Proof.
  intros S N F E. destruct l as [|o r]; [unfold zlen; cbn [length]; lia|]. set (l := o :: r) in *.
  assert (0 < length l)%nat as Ln by (cbn; lia).
  pose proof (every_nth step l E (length l - 1) ltac:(lia)) as H.
  rewrite (nth_indep (map o_ce l) 0 (o_ce o)) in H by (rewrite map_length; lia). rewrite map_nth in H.
  change (nth 0 (map o_ce l) 0) with (o_ce o) in H.
  assert (legal_obs year_min ny (nth (length l - 1) l o)) as F1 by (rewrite Forall_forall in F; apply F, nth_In; lia).
  assert (legal_obs year_min ny o) as F2 by (inversion F; auto).
  unfold legal_obs in F1, F2. unfold zlen. nia.
Qed.
