(** Proofs about PsfModel.v: width of the Gaussian, kernel, convolution. *)
From Coq Require Import Reals Lra Lia ZifyBool.
From Flocq Require Import Core Plus_error Relative.
From Verif Require Import Base BaseFacts Loops LoopsFacts RoundModel RoundFacts L1Model L1Cal PsfModel PsfSpec PsfProofs.
#[local] Open Scope R_scope.

(** ** The search of the width *)
Lemma exp_m1 : exp (-1) < / 2.
Proof.
  pose proof (exp_ineq1 1 ltac:(lra)) as E. replace (-1) with (- (1)) by ring. rewrite exp_Ropp. apply Rinv_lt_contravar; [|lra].
  apply Rmult_lt_0_compat; lra.
Qed.
Lemma wide_iff r2 s : s <> 0 -> wide_enough r2 s = true <-> / 2 <= exp (- r2 / (s * s * 2)).
Proof.
  intros S. unfold wide_enough. set (sig := s * s * 2). assert (0 < sig) as P by (unfold sig; nra).
  assert (0 < 1 / (PI * sig)) as A. { unfold Rdiv. rewrite Rmult_1_l. apply Rinv_0_lt_compat, Rmult_lt_0_compat; [apply PI_RGT_0|auto]. }
  set (amp := 1 / (PI * sig)) in *. set (e := exp (- r2 / sig)).
  case Rle_bool_spec; intros H; split; intros H1; auto; try discriminate; nra.
Qed.
Lemma search_spec fuel : forall r2 n m, search fuel r2 n = Some m ->
  (n < m)%Z /\ wide_enough r2 (IZR m / 100) = true /\ (forall l, n < l < m -> wide_enough r2 (IZR l / 100) = false)%Z.
Proof.
  induction fuel as [|fuel IH]; intros r2 n m; simpl; [discriminate|].
  destruct (wide_enough r2 (IZR (n + 1) / 100)) eqn:W.
  - intros E; inversion E; subst. split; [lia|]. split; auto. intros l L; lia.
  - intros E. destruct (IH _ _ _ E) as (A & B & C). split; [lia|]. split; auto. intros l L. destruct (Z.eq_dec l (n + 1)); [subst; auto|apply C; lia].
Qed.
Lemma search_ends fuel : forall r2 n l, (n < l <= n + Z.of_nat fuel)%Z -> wide_enough r2 (IZR l / 100) = true -> exists m, search fuel r2 n = Some m /\ (m <= l)%Z.
Proof.
  induction fuel as [|fuel IH]; intros r2 n l L W; [lia|]. simpl. destruct (wide_enough r2 (IZR (n + 1) / 100)) eqn:W1.
  - exists (n + 1)%Z. split; auto. lia.
  - destruct (Z.eq_dec l (n + 1)); [subst; congruence|]. apply IH; auto. lia.
Qed.

(** The width for every ratio of at least 1. *)
Lemma sigma_found fuel k r : (1 <= k)%Z -> 1 <= r <= IZR k -> (rounds k <= fuel)%nat ->
  exists s, find_sigma fuel r = Some s /\ r / 3 <= s <= IZR k /\ bell s (r / 2) < / 2 <= bell (s + / 100) (r / 2).
Proof.
  intros K [R1 R2] F. unfold find_sigma. set (r2 := r / 2 * (r / 2)).
  assert (1 <= IZR k) as K1 by (apply IZR_le; lia).
  destruct (search_ends fuel r2 0 (100 * k)) as (m & E & Lm).
  { unfold rounds in F. split; [lia|]. clear - F K. lia. }
  { apply wide_iff. { rewrite mult_IZR. lra. } rewrite mult_IZR. replace (100 * IZR k / 100) with (IZR k) by field.
    left. eapply Rlt_le_trans; [|apply exp_ineq1_le]. unfold r2. assert (r * r <= IZR k * IZR k) by nra.
    assert (r / 2 * (r / 2) / (IZR k * IZR k * 2) <= / 8). { apply Rmult_le_reg_r with (IZR k * IZR k * 2); [nra|]. unfold Rdiv at 1. rewrite Rmult_assoc, Rinv_l by nra. lra. }
    replace (- (r / 2 * (r / 2)) / (IZR k * IZR k * 2)) with (- (r / 2 * (r / 2) / (IZR k * IZR k * 2))) by (field; lra). lra. }
  destruct (search_spec _ _ _ _ E) as (M & W & L). rewrite E. simpl option_map. eexists. split; [reflexivity|].
  assert (0 < IZR m / 100) as Mp. { assert (0 < IZR m) by (apply IZR_lt; lia). lra. }
  apply wide_iff in W; [|lra]. set (s' := IZR m / 100) in *.
  assert (r2 / (s' * s' * 2) < 1) as B.
  { apply Rnot_le_lt. intros H. assert (exp (- r2 / (s' * s' * 2)) <= exp (-1)). { replace (- r2 / (s' * s' * 2)) with (- (r2 / (s' * s' * 2))) by (field; lra). destruct (Req_dec (r2 / (s' * s' * 2)) 1) as [-> | N]; [right; auto|]. left. apply exp_increasing. lra. }
    pose proof exp_m1. lra. }
  assert (r2 < s' * s' * 2) as B2. { apply Rmult_lt_reg_r with (/ (s' * s' * 2)); [apply Rinv_0_lt_compat; nra|]. rewrite Rinv_r by nra. exact B. }
  assert (0.35 * r < s') as B3. { unfold r2 in B2. nra. }
  replace (IZR (m - 1) / 100) with (s' - / 100) by (unfold s'; rewrite minus_IZR; field).
  assert (s' <= IZR k) as U. { unfold s'. apply IZR_le in Lm. rewrite mult_IZR in Lm. lra. }
  split; [lra|]. replace (s' - / 100 + / 100) with s' by ring. unfold bell. fold r2. split; [|auto].
  assert (m <> 1)%Z as M1. { intros ->. unfold s' in B3. lra. }
  specialize (L (m - 1)%Z ltac:(lia)). replace (IZR (m - 1) / 100) with (s' - / 100) in L by (unfold s'; rewrite minus_IZR; field).
  apply Rnot_le_lt. intros H. apply wide_iff in H; [congruence|]. lra.
Qed.

(** ** The kernel *)
Definition amp (sigma : R) : R := 1 / (PI * (sigma * sigma * 2)).
Lemma amp_pos s : 0 < s -> 0 < amp s.
Proof. intros S. unfold amp, Rdiv. rewrite Rmult_1_l. apply Rinv_0_lt_compat, Rmult_lt_0_compat; [apply PI_RGT_0|nra]. Qed.
Lemma PI_34 : 3 < PI <= 4.
Proof. split; [|apply PI_4]. pose proof PI2_3_2. lra. Qed.
Lemma amp_range s q : 1 <= q -> q / 3 <= s <= q -> / (8 * (q * q)) <= amp s <= 3 / 2.
Proof.
  intros Q S. pose proof PI_34 as P. unfold amp, Rdiv. rewrite !Rmult_1_l.
  assert (q * q / 9 <= s * s <= q * q) as SS by nra. assert (1 <= q * q) by nra. split.
  - apply Rinv_le_contravar; [apply Rmult_lt_0_compat; nra|]. replace (8 * (q * q)) with (4 * (q * q * 2)) by ring. apply Rmult_le_compat; nra.
  - replace (3 * / 2) with (/ (2 / 3)) by field. apply Rinv_le_contravar; [lra|]. apply Rle_trans with (3 * (q * q / 9 * 2)); [nra|]. apply Rmult_le_compat; nra.
Qed.
Lemma exp_3 n : / 3 ^ n <= exp (- INR n).
Proof.
  rewrite exp_Ropp. apply Rinv_le_contravar; [apply exp_pos|]. induction n as [|n IH]; [simpl; rewrite exp_0; lra|].
  rewrite S_INR, exp_plus. simpl pow. rewrite Rmult_comm. apply Rmult_le_compat; try (left; apply exp_pos); auto. pose proof exp_le_3. lra.
Qed.
Lemma exp_mono x y : x <= y -> exp x <= exp y.
Proof. intros [H | ->]; [left; now apply exp_increasing|right; auto]. Qed.
(** An entry whose distance is at most c half widths. *)
Lemma kernel_lower nk s i j n q : 1 <= q <= 1000 -> q / 3 <= s <= q -> (n <= 9)%nat ->
  IZR ((- ((nk - 1) / 2) + j) * (- ((nk - 1) / 2) + j) + (- ((nk - 1) / 2) + i) * (- ((nk - 1) / 2) + i)) <= INR n * (2 * (q * q) / 9) ->
  99 / 100 * / 3 ^ n * amp s <= kernel_at nk s i j.
Proof.
  intros Q S N D. unfold kernel_at. match goal with |- context [exp (- ?x / _)] => set (d := x) in * end. fold (amp s). set (sig := s * s * 2).
  assert (0 < sig) as P by (unfold sig; nra). assert (2 * (q * q) / 9 <= sig) as LS by (unfold sig; nra).
  pose proof (amp_range s q ltac:(lra) S) as [A1 A2]. assert (0 < amp s) as AP by (apply amp_pos; lra).
  assert (/ 3 ^ n <= exp (- d / sig)) as E.
  { eapply Rle_trans; [apply exp_3|]. apply exp_mono. apply Rmult_le_reg_r with sig; auto. unfold Rdiv. rewrite Rmult_assoc, Rinv_l, Rmult_1_r by lra.
    assert (INR n * (2 * (q * q) / 9) <= INR n * sig) by (apply Rmult_le_compat_l; [apply pos_INR|auto]). lra. }
  assert (/ 19683 <= / 3 ^ n) as T. { apply Rinv_le_contravar; [apply pow_lt; lra|]. replace 19683 with (3 ^ 9) by ring. apply Rle_pow; [lra|auto]. }
  set (x := amp s * exp (- d / sig)). assert (amp s * / 3 ^ n <= x) as X. { unfold x. apply Rmult_le_compat_l; [lra|auto]. }
  assert (/ 8000000 <= amp s) as A3. { eapply Rle_trans; [|exact A1]. apply Rinv_le_contravar; nra. }
  assert (/ 8000000 * / 19683 <= amp s * / 3 ^ n) as X3. { apply Rmult_le_compat; lra. }
  assert (/ 1000000000000 <= x) as X2 by lra.
  pose proof (rnd32_rel x) as R. rewrite Rabs_pos_eq in R by lra.
  assert (bpow radix2 (-120) <= x) as B. { eapply Rle_trans; [|exact X2]. eapply Rle_trans; [apply (bpow_le radix2 (-120) (-40)); lia|]. change (bpow radix2 (-40)) with (/ 1099511627776). lra. }
  specialize (R B). apply Rabs_le_inv in R. lra.
Qed.
Lemma kernel_upper nk s i j : 0 < s -> kernel_at nk s i j <= rnd32 (amp s) .
Proof.
  intros S. unfold kernel_at. fold (amp s). apply rnd32_le. pose proof (amp_pos s S) as A. match goal with |- context [exp (- ?x / _)] => set (d := x) end.
  assert (0 <= d) as D. { unfold d. apply IZR_le. apply Z.add_nonneg_nonneg; apply Z.square_nonneg. }
  assert (exp (- d / (s * s * 2)) <= 1) as E.
  { rewrite <- exp_0. apply exp_mono. assert (0 <= d / (s * s * 2)). { apply Rmult_le_pos; auto. left. apply Rinv_0_lt_compat. nra. }
    replace (- d / (s * s * 2)) with (- (d / (s * s * 2))) by (field; lra). lra. }
  pose proof (exp_pos (- d / (s * s * 2))). unfold amp in *. nra.
Qed.
Lemma kernel_range k s i j : (1 <= k <= 1000)%Z -> IZR k / 3 <= s <= IZR k -> (0 <= i <= 2 * k)%Z -> (0 <= j <= 2 * k)%Z ->
  / 1000000000000 <= kernel_at (2 * k + 1) s i j <= 2.
Proof.
  intros K S I J. assert (1 <= IZR k <= 1000) as K1 by (split; apply IZR_le; lia).
  pose proof (amp_range s (IZR k) ltac:(lra) S) as [A1 A2]. split.
  - pose proof (kernel_lower (2 * k + 1) s i j 9 (IZR k) K1 S ltac:(lia)) as L.
    assert (/ 8000000 <= amp s) as A3. { eapply Rle_trans; [|exact A1]. apply Rinv_le_contravar; nra. }
    eapply Rle_trans; [|apply L]. { simpl pow. lra. }
    replace ((2 * k + 1 - 1) / 2)%Z with k by (rewrite Z.add_simpl_r, Z.mul_comm, Z.div_mul by lia; auto).
    replace (INR 9 * (2 * (IZR k * IZR k) / 9)) with (IZR (2 * (k * k))) by (rewrite !mult_IZR; simpl INR; field). apply IZR_le. nia.
  - eapply Rle_trans; [apply kernel_upper; lra|]. rewrite <- (rnd32_int 2) by reflexivity. apply rnd32_le. lra.
Qed.

(** ** The convolution *)
Definition good_kernel (nk : Z) (k : Z -> Z -> R) : Prop :=
  forall i j, (0 <= i < nk)%Z -> (0 <= j < nk)%Z -> / 1000000000000 <= k i j <= 2 /\ fmt64 (k i j).
Lemma gauss_good k s : (1 <= k <= 1000)%Z -> IZR k / 3 <= s <= IZR k -> good_kernel (2 * k + 1) (kernel_at (2 * k + 1) s).
Proof. intros K S i j I J. split; [apply kernel_range; auto; lia|apply fmt64_rnd32]. Qed.

Lemma small_1075 : bpow radix2 (-1075) <= / 10000000000000000000000000000000000000000.
Proof. eapply Rle_trans; [apply (bpow_le radix2 (-1075) (-150)); lia|]. change (bpow radix2 (-150)) with (/ 1427247692705959881058285969449495136382746624). lra. Qed.

Lemma term_error x k V : Rabs x <= V -> / 10000 <= V <= 4 -> / 1000000000000 <= k <= 2 ->
  Rabs (rnd64 (rnd64 x * k) - x * k) <= 4 * u64 * (V * k).
Proof.
  intros B HV K. pose proof (rnd64_near_0 x) as E1. set (y := rnd64 x) in *. pose proof (rnd64_near_0 (y * k)) as E2.
  pose proof small_1075 as Et. set (eta := bpow radix2 (-1075)) in *. assert (0 < eta) as Ep by apply bpow_gt_0.
  assert (0 < u64 < / 1000000000000) as U by (unfold u64; lra).
  assert (eta <= u64 * (/ 100 * (V * k))) as Eta. { apply Rle_trans with (u64 * (/ 100 * (/ 10000 * / 1000000000000))); [unfold u64; lra|]. apply Rmult_le_compat_l; [lra|]. apply Rmult_le_compat_l; [lra|]. apply Rmult_le_compat; lra. }
  assert (eta <= u64 * (/ 100 * V)) as Eta2. { apply Rle_trans with (u64 * (/ 100 * / 10000)); [unfold u64; lra|]. apply Rmult_le_compat_l; lra. }
  assert (u64 * Rabs x <= u64 * V) as UX by (apply Rmult_le_compat_l; lra).
  assert (Rabs (y - x) <= u64 * (1.01 * V)) as E1' by lra.
  assert (u64 * (1.01 * V) <= / 100 * V) as UV by nra.
  assert (Rabs y <= 1.01 * V) as By. { replace y with (y - x + x) by ring. eapply Rle_trans; [apply Rabs_triang|]. lra. }
  rewrite Rabs_mult, (Rabs_pos_eq k) in E2 by lra.
  replace (rnd64 (y * k) - x * k) with ((rnd64 (y * k) - y * k) + (y - x) * k) by ring. eapply Rle_trans; [apply Rabs_triang|].
  rewrite (Rabs_mult (y - x)), (Rabs_pos_eq k) by lra.
  assert (Rabs (y - x) * k <= u64 * (1.01 * V) * k) by (apply Rmult_le_compat_r; lra).
  assert (u64 * (Rabs y * k) <= u64 * (1.01 * V * k)) by (apply Rmult_le_compat_l; [lra|]; apply Rmult_le_compat_r; lra).
  assert (0 < u64 * (V * k)) by (apply Rmult_lt_0_compat; [lra|apply Rmult_lt_0_compat; lra]). lra.
Qed.

Lemma value_get hr nx ny a b : image16 hr nx ny -> (0 <= a < ny)%Z -> (0 <= b < nx)%Z -> exists v, get_at hr (a * nx + b) = Some v /\ (-32768 <= v <= 32767)%Z.
Proof.
  intros [L F] A B. destruct (get_at hr (a * nx + b)) as [v|] eqn:E.
  - exists v. split; auto. eapply Forall_get_at in F; eauto.
  - destruct (get_at_some hr (a * nx + b)) as [v Hv]; [rewrite L; nia|]. congruence.
Qed.

Section Convolve.
Context (hr : list Z) (nx ny nodata h : Z) (k : Z -> Z -> R) (i j : Z) (a b : R).
Notation nk := (2 * h + 1)%Z.
Context (IM : image16 hr nx ny) (GK : good_kernel nk k) (H0 : (0 <= h)%Z).
Context (kmax : R) (KM : forall i j, (0 <= i < nk)%Z -> (0 <= j < nk)%Z -> k i j <= kmax).
Context (V0 : R) (V1 : / 10000 <= V0 <= 4) (VB : forall x y v, value hr nx ny nodata x y v -> (i - h <= x <= i + h)%Z -> (j - h <= y <= j + h)%Z -> Rabs (IZR v / 10000) <= V0).
Context (AB : forall x y v, value hr nx ny nodata x y v -> (i - h <= x <= i + h)%Z -> (j - h <= y <= j + h)%Z -> a <= IZR v / 10000 <= b).

Lemma half_nk : ((nk - 1) / 2 = h)%Z.
Proof. rewrite Z.add_simpl_r, Z.mul_comm, Z.div_mul by lia; auto. Qed.

Lemma convolve_ok ws : forall m S N s K, 0 <= m -> (forall w, In w ws -> (0 <= fst w < nk)%Z /\ (0 <= snd w < nk)%Z) ->
  4 * (m + INR (length ws)) * u64 <= / 2 -> near_sum (4 * u64) V0 a b m S N s K ->
  exists S' N' s' K', convolve hr nx ny nodata nk k i j ws S N = Ret (S', N') /\ near_sum (4 * u64) V0 a b (m + INR (length ws)) S' N' s' K' /\
    K <= K' <= K + kmax * INR (length ws) /\ (0 <= a -> s <= s') /\
    (forall w v, In w ws -> value hr nx ny nodata (fst w - h + i) (snd w - h + j) v ->
       K + k (fst w) (snd w) <= K' /\ (0 <= a -> s + IZR v / 10000 * k (fst w) (snd w) <= s')).
Proof.
  assert (0 < u64) as U by (unfold u64; lra).
  induction ws as [|[ii jj] ws IH]; intros m S N s K M W B NS.
  - simpl. exists S, N, s, K. rewrite Rplus_0_r. split; auto. split; auto. split; [lra|]. split; [lra|]. intros w v [].
  - cbn [convolve]. rewrite half_nk. set (ni := (- h + ii + i)%Z). set (nj := (- h + jj + j)%Z).
    destruct (W (ii, jj) (or_introl eq_refl)) as [WI WJ]. cbn [fst snd] in WI, WJ.
    assert (k ii jj <= kmax) as KMX by (apply KM; auto). assert (0 < kmax) as KM0 by (destruct (GK ii jj WI WJ); lra).
    assert (forall w, In w ws -> (0 <= fst w < nk)%Z /\ (0 <= snd w < nk)%Z) as W' by (intros; apply W; right; auto).
    cbn [length] in *. rewrite S_INR in *.
    assert (0 <= INR (length ws)) as L0 by apply pos_INR.
    assert (4 * (m + 1 + INR (length ws)) * u64 <= / 2) as B' by (eapply Rle_trans; [|exact B]; right; ring).
    assert (4 * (m + 1) * u64 <= / 2) as B'' by nra.
    (* the step is skipped *)
    assert (forall P : Prop, P -> ~ (exists v, value hr nx ny nodata ni nj v) ->
      exists S' N' s' K', convolve hr nx ny nodata nk k i j ws S N = Ret (S', N') /\ near_sum (4 * u64) V0 a b (m + (INR (length ws) + 1)) S' N' s' K' /\
        K <= K' <= K + kmax * (INR (length ws) + 1) /\ (0 <= a -> s <= s') /\
        (forall w v, In w ((ii, jj) :: ws) -> value hr nx ny nodata (fst w - h + i) (snd w - h + j) v ->
           K + k (fst w) (snd w) <= K' /\ (0 <= a -> s + IZR v / 10000 * k (fst w) (snd w) <= s'))) as SKIP.
    { intros _ _ NV. destruct (IH (m + 1) S N s K ltac:(lra) W' B' (near_more (4 * u64) V0 a b m (m + 1) S N s K ltac:(lra) ltac:(lra) NS)) as (S' & N' & s' & K' & E & NS' & KK & SS & WW).
      exists S', N', s', K'. split; auto. split; [replace (m + (INR (length ws) + 1)) with (m + 1 + INR (length ws)) by ring; auto|].
      split; [lra|]. split; auto. intros w v [<- | I] V; [|auto]. cbn [fst snd] in V. exfalso. apply NV. exists v. unfold ni, nj.
      replace (- h + ii + i)%Z with (ii - h + i)%Z by lia. replace (- h + jj + j)%Z with (jj - h + j)%Z by lia. auto. }
    destruct ((ni <? 0) || (ny <=? ni) || (nj <? 0) || (nx <=? nj))%Z eqn:C.
    { apply (SKIP True I). intros (v & A1 & A2 & _). lia. }
    destruct (value_get hr nx ny ni nj IM ltac:(lia) ltac:(lia)) as (v & G & R). rewrite G. cbn [of_option bind].
    destruct (v =? nodata)%Z eqn:ND.
    { apply (SKIP True I). intros (v' & _ & _ & G' & V'). rewrite G in G'. inversion G'. lia. }
    clear SKIP. assert (value hr nx ny nodata ni nj v) as V. { split; [lia|]. split; [lia|]. split; auto. lia. }
    destruct (GK ii jj WI WJ) as [KR KF]. set (kk := k ii jj) in *.
    pose proof (AB ni nj v V ltac:(unfold ni; lia) ltac:(unfold nj; lia)) as ABv.
    pose proof (VB ni nj v V ltac:(unfold ni; lia) ltac:(unfold nj; lia)) as V4.
    pose proof (near_step (4 * u64) V0 a b m S N s K (IZR v / 10000) kk (rnd64 (rnd64 (IZR v / 10000) * kk)) ltac:(unfold u64; lra) ltac:(lra) M B'' NS V4 ABv ltac:(lra) KF (fmt64_rnd64 _) (term_error (IZR v / 10000) kk V0 V4 V1 KR)) as NS1.
    destruct (IH (m + 1) _ _ _ _ ltac:(lra) W' B' NS1) as (S' & N' & s' & K' & E & NS' & KK & SS & WW).
    exists S', N', s', K'. split; auto. split; [replace (m + (INR (length ws) + 1)) with (m + 1 + INR (length ws)) by ring; auto|].
    split; [lra|]. assert (0 <= a -> 0 <= IZR v / 10000 * kk) as VP by (intros; apply Rmult_le_pos; lra).
    split; [intros A; specialize (SS A); specialize (VP A); lra|].
    intros w v' [<- | I] V'; cbn [fst snd] in *.
    + fold kk. split; [lra|]. intros A. replace v' with v. { apply SS; auto. }
      destruct V' as (_ & _ & G' & _). unfold ni, nj in G. replace (ii - h + i)%Z with (- h + ii + i)%Z in G' by lia. replace (jj - h + j)%Z with (- h + jj + j)%Z in G' by lia. congruence.
    + destruct (WW w v' I V') as [W1 W2]. split; [lra|]. intros A. specialize (W2 A). specialize (VP A). lra.
Qed.
End Convolve.

Lemma pairs_In n m a b : In (a, b) (pairs n m) <-> (0 <= a < n /\ 0 <= b < m)%Z.
Proof.
  unfold pairs. rewrite in_flat_map. split.
  - intros (x & X & Y). apply in_map_iff in Y. destruct Y as (y & E & Y). inversion E; subst. rewrite zupto_In in X, Y. lia.
  - intros [A B]. exists a. split; [apply zupto_In; lia|]. apply in_map, zupto_In. lia.
Qed.
Lemma pairs_length n m : (0 <= n)%Z -> (0 <= m)%Z -> Z.of_nat (length (pairs n m)) = (n * m)%Z.
Proof.
  intros N M. unfold pairs. rewrite flat_map_concat_map. 
  assert (forall l, length (concat (map (fun i => map (@pair Z Z i) (zupto m)) l)) = (length l * Z.to_nat m)%nat) as H.
  { induction l as [|x l IH]; simpl; auto. rewrite app_length, map_length, zupto_length. rewrite IH. lia. }
  rewrite H, zupto_length. nia.
Qed.

(** One pixel of the smoothed image. *)
Definition smoothed (x a b : R) : Prop := a - 4 / 10000000 <= x <= b + 4 / 10000000.
Lemma gauss_pixel_ok hr nx ny nodata k s p v a b V0 : image16 hr nx ny -> (1 <= k <= 1000)%Z -> IZR k / 3 <= s <= IZR k -> (0 < nx)%Z -> (0 <= p < nx * ny)%Z ->
  get_at hr p = Some v -> v <> nodata -> / 10000 <= V0 <= 4 ->
  (forall x y w, value hr nx ny nodata x y w -> (p / nx - k <= x <= p / nx + k)%Z -> (p mod nx - k <= y <= p mod nx + k)%Z -> Rabs (IZR w / 10000) <= V0) ->
  (forall x y w, value hr nx ny nodata x y w -> (p / nx - k <= x <= p / nx + k)%Z -> (p mod nx - k <= y <= p mod nx + k)%Z -> a <= IZR w / 10000 <= b) ->
  exists q s' K, gauss_pixel hr nx ny nodata (2 * k + 1) (kernel_at (2 * k + 1) s) p = Ret (rnd32 (rnd64 q)) /\
    let e := V0 * IZR ((2 * k + 1) * (2 * k + 1)) / 100000000000000 in
    a - e <= q <= b + e /\ 0 < K <= rnd32 (amp s) * IZR ((2 * k + 1) * (2 * k + 1)) /\ Rabs (q - s' / K) <= e /\
    (0 <= a -> forall x y w, value hr nx ny nodata x y w -> (p / nx - k <= x <= p / nx + k)%Z -> (p mod nx - k <= y <= p mod nx + k)%Z ->
       IZR w / 10000 * kernel_at (2 * k + 1) s (x - p / nx + k) (y - p mod nx + k) <= s').
Proof.
  intros IM K S NX P G ND HV VB AB. unfold gauss_pixel. rewrite G. cbn [of_option bind]. replace (v =? nodata)%Z with false by lia.
  pose proof (gauss_good k s K S) as GK. assert (0 < s) as SP. { assert (1 <= IZR k) by (apply IZR_le; lia). lra. }
  assert (INR (length (pairs (2 * k + 1) (2 * k + 1))) = IZR ((2 * k + 1) * (2 * k + 1))) as LN. { rewrite INR_IZR_INZ, pairs_length by lia. auto. }
  assert (1 <= IZR ((2 * k + 1) * (2 * k + 1)) <= 5000000) as LB. { clear - K. split; apply IZR_le; nia. }
  destruct (convolve_ok hr nx ny nodata k (kernel_at (2 * k + 1) s) (p / nx) (p mod nx) a b IM GK (rnd32 (amp s)) (fun i j _ _ => kernel_upper (2 * k + 1) s i j SP) V0 HV VB AB (pairs (2 * k + 1) (2 * k + 1)) 0 0 0 0 0 ltac:(lra)) as (S' & N' & s' & K' & E & NS & KK & _ & WW).
  { intros [x y] I. apply pairs_In in I. cbn [fst snd]. lia. }
  { rewrite LN. unfold u64. lra. }
  { apply near_start. }
  rewrite E. cbn [bind fst snd]. rewrite Rplus_0_l in NS. rewrite LN in *.
  set (n := IZR ((2 * k + 1) * (2 * k + 1))) in *.
  assert (0 <= p / nx < ny)%Z as PD. { split; [apply Z.div_pos; lia|]. apply Z.div_lt_upper_bound; lia. }
  assert (0 <= p mod nx < nx)%Z as PM by (apply Z.mod_pos_bound; lia).
  assert (value hr nx ny nodata (p / nx) (p mod nx) v) as VV. { split; [lia|]. split; [lia|]. split; auto. rewrite Z.mul_comm, <- Z.div_mod by lia. auto. }
  assert (0 < K') as KP.
  { destruct (WW (k, k) v) as [W1 _]. { apply pairs_In. lia. } { cbn [fst snd]. replace (k - k + p / nx)%Z with (p / nx)%Z by lia. replace (k - k + p mod nx)%Z with (p mod nx)%Z by lia. auto. }
    cbn [fst snd] in W1. destruct (GK k k ltac:(lia) ltac:(lia)) as [[G1 _] _]. lra. }
  destruct (near_final (4 * u64) V0 a b n S' N' s' K' ltac:(unfold u64; lra) ltac:(lra) ltac:(lra) ltac:(unfold u64; lra) KP NS) as (NP & FB & FC).
  replace (Rlt_bool 0 N') with true by (symmetry; apply Rlt_bool_true; auto).
  exists (S' / N'), s', K'. split; auto. cbv zeta.
  assert (2 * (4 * u64 + 8 * n * u64) * V0 <= V0 * n / 100000000000000) as EB.
  { replace (V0 * n / 100000000000000) with (n / 100000000000000 * V0) by field. apply Rmult_le_compat_r; [lra|]. unfold u64. lra. }
  split; [lra|]. split; [lra|]. split; [lra|]. intros A x y w Vw X Y.
  destruct (WW (x - p / nx + k, y - p mod nx + k)%Z w) as [_ W2].
  { apply pairs_In. lia. } { cbn [fst snd]. replace (x - p / nx + k - k + p / nx)%Z with x by lia. replace (y - p mod nx + k - k + p mod nx)%Z with y by lia. auto. }
  cbn [fst snd] in W2. specialize (W2 A). lra.
Qed.
(** With values of 16 bit. *)
Lemma gauss_smoothed hr nx ny nodata k s p v lo hi : image16 hr nx ny -> (1 <= k <= 1000)%Z -> IZR k / 3 <= s <= IZR k -> (0 < nx)%Z -> (0 <= p < nx * ny)%Z ->
  get_at hr p = Some v -> v <> nodata -> -32768 <= lo -> hi <= 32767 ->
  (forall x y w, value hr nx ny nodata x y w -> (p / nx - k <= x <= p / nx + k)%Z -> (p mod nx - k <= y <= p mod nx + k)%Z -> lo <= IZR w <= hi) ->
  exists x, gauss_pixel hr nx ny nodata (2 * k + 1) (kernel_at (2 * k + 1) s) p = Ret x /\ smoothed x (lo / 10000) (hi / 10000).
Proof.
  intros IM K S NX P G ND LO HI AB.
  destruct (gauss_pixel_ok hr nx ny nodata k s p v (lo / 10000) (hi / 10000) 4 IM K S NX P G ND ltac:(lra)) as (q & s' & K' & E & Q & _).
  { intros x y w (_ & _ & Gw & _) _ _. destruct IM as [_ F]. eapply Forall_get_at in F; eauto. cbn beta in F. destruct F as [F1 F2]. apply IZR_le in F1, F2. apply Rabs_le. lra. }
  { intros x y w V X Y. pose proof (AB x y w V X Y). lra. }
  exists (rnd32 (rnd64 q)). split; auto. cbv zeta in Q.
  assert (1 <= IZR ((2 * k + 1) * (2 * k + 1)) <= 4100000) as LB. { clear - K. split; apply IZR_le; [nia|]. apply Z.le_trans with (2001 * 2001)%Z; [apply Z.mul_le_mono_nonneg; lia|lia]. }
  assert (Rabs q <= 3.5) as Q4. { apply Rabs_le. lra. }
  pose proof (rnd64_err q 3.5 ltac:(lra) Q4) as R1. set (x1 := rnd64 q) in *. assert (Rabs x1 <= 3.6) as Q5. { apply Rabs_le_inv in R1, Q4. apply Rabs_le. lra. }
  pose proof (rnd32_err x1 3.6 ltac:(lra) Q5) as R2. unfold smoothed. apply Rabs_le_inv in R1, R2. lra.
Qed.
