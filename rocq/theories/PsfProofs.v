(** Proofs about PsfModel.v: running weighted means in floating point arithmetic. *)
From Coq Require Import Reals Lra Lia.
From Flocq Require Import Core Plus_error Relative.
From Verif Require Import Base BaseFacts RoundModel RoundFacts L1Cal.
#[local] Open Scope R_scope.

Definition fmt64 (x : R) : Prop := generic_format radix2 (FLT_exp (-1074) 53) x.
Definition u64 : R := / 9007199254740992.

Lemma fmt64_rnd64 x : fmt64 (rnd64 x).
Proof. apply generic_format_round; typeclasses eauto. Qed.
Lemma fmt64_rnd32 x : fmt64 (rnd32 x).
Proof.
  apply generic_inclusion_mag with (fexp1 := FLT_exp (-149) 24); [|apply generic_format_round; typeclasses eauto].
  intros _. unfold FLT_exp. lia.
Qed.
Lemma fmt64_0 : fmt64 0.
Proof. apply generic_format_0. Qed.

Lemma rnd64_plus x y : fmt64 x -> fmt64 y -> Rabs (rnd64 (x + y) - (x + y)) <= u64 * Rabs (x + y).
Proof.
  intros X Y. destruct (FLT_plus_error_N_ex radix2 (-1074) 53 (fun z => negb (Z.even z)) x y X Y) as (e & E & H).
  unfold rnd64. rewrite H. replace ((x + y) * (1 + e) - (x + y)) with (e * (x + y)) by ring. rewrite Rabs_mult.
  apply Rmult_le_compat_r; [apply Rabs_pos|]. eapply Rle_trans; [exact E|]. unfold u_ro. change (bpow radix2 (- (53) + 1)) with (/ 4503599627370496). unfold u64. lra.
Qed.
Lemma rnd64_near_0 x : Rabs (rnd64 x - x) <= u64 * Rabs x + bpow radix2 (-1075).
Proof.
  destruct (error_N_FLT radix2 (-1074) 53 eq_refl (fun z => negb (Z.even z)) x) as (eps & eta & E1 & E2 & _ & E).
  unfold rnd64. rewrite E. replace (x * (1 + eps) + eta - x) with (x * eps + eta) by ring.
  eapply Rle_trans; [apply Rabs_triang|]. rewrite Rabs_mult. apply Rplus_le_compat.
  - rewrite Rmult_comm. apply Rmult_le_compat_r; [apply Rabs_pos|]. eapply Rle_trans; [exact E1|]. change (bpow radix2 (- (53) + 1)) with (/ 4503599627370496). unfold u64. lra.
  - eapply Rle_trans; [exact E2|]. change (-1075)%Z with (-1 + -1074)%Z. rewrite bpow_plus. change (bpow radix2 (-1)) with (/ 2). lra.
Qed.
Lemma rnd32_near_0 x : Rabs (rnd32 x - x) <= / 16777216 * Rabs x + bpow radix2 (-150).
Proof.
  destruct (error_N_FLT radix2 (-149) 24 eq_refl (fun z => negb (Z.even z)) x) as (eps & eta & E1 & E2 & _ & E).
  unfold rnd32. rewrite E. replace (x * (1 + eps) + eta - x) with (x * eps + eta) by ring.
  eapply Rle_trans; [apply Rabs_triang|]. rewrite Rabs_mult. apply Rplus_le_compat.
  - rewrite Rmult_comm. apply Rmult_le_compat_r; [apply Rabs_pos|]. eapply Rle_trans; [exact E1|]. change (bpow radix2 (- (24) + 1)) with (/ 8388608). lra.
  - eapply Rle_trans; [exact E2|]. change (-150)%Z with (-1 + -149)%Z. rewrite bpow_plus. change (bpow radix2 (-1)) with (/ 2). lra.
Qed.

(** [S] and [N] are the computed sums, [s] and [K] the exact ones after at most [m] terms. *)
Definition near_sum (up V a b m S N s K : R) : Prop :=
  fmt64 S /\ fmt64 N /\ 0 <= K /\ Rabs s <= V * K /\ a * K <= s <= b * K /\
  Rabs (S - s) <= (up + 4 * m * u64) * (V * K) /\ Rabs (N - K) <= 4 * m * u64 * K.

Lemma near_start up V a b : near_sum up V a b 0 0 0 0 0.
Proof.
  unfold near_sum. rewrite !Rmult_0_r, Rabs_R0, !Rminus_0_r, Rabs_R0.
  repeat split; try apply fmt64_0; lra.
Qed.
Lemma near_more up V a b m m' S N s K : 0 <= V -> m <= m' -> near_sum up V a b m S N s K -> near_sum up V a b m' S N s K.
Proof.
  intros HV L (A & B & C & D & E & F & G). assert (0 < u64) as U by (unfold u64; lra). assert (4 * m * u64 <= 4 * m' * u64) as M by (apply Rmult_le_compat_r; lra).
  assert (0 <= V * K) as VK by (apply Rmult_le_pos; auto).
  split; [auto|]. split; [auto|]. split; [auto|]. split; [auto|]. split; [auto|]. split.
  - eapply Rle_trans; [exact F|]. apply Rmult_le_compat_r; lra.
  - eapply Rle_trans; [exact G|]. apply Rmult_le_compat_r; lra.
Qed.

Lemma near_step up V a b m S N s K v k t :
  0 <= up <= / 2 -> 0 <= V -> 0 <= m -> 4 * (m + 1) * u64 <= / 2 -> near_sum up V a b m S N s K ->
  Rabs v <= V -> a <= v <= b -> 0 <= k -> fmt64 k -> fmt64 t -> Rabs (t - v * k) <= up * (V * k) ->
  near_sum up V a b (m + 1) (rnd64 (S + t)) (rnd64 (N + k)) (s + v * k) (K + k).
Proof.
  intros HU HV Hm HM (FS & FN & HK & Hs & Hab & ES & EN) Hv Hvab Hk Fk Ft Et.
  assert (0 < u64) as U by (unfold u64; lra).
  assert (0 <= V * K) as VK by (apply Rmult_le_pos; auto). assert (0 <= V * k) as Vk by (apply Rmult_le_pos; auto).
  assert (Rabs (v * k) <= V * k) as Hvk. { rewrite Rabs_mult, (Rabs_pos_eq k) by auto. apply Rmult_le_compat_r; auto. }
  pose proof (rnd64_plus S t FS Ft) as RS. pose proof (rnd64_plus N k FN Fk) as RN.
  assert (4 * m * u64 <= / 2) as Hmu by nra. assert (0 <= 4 * m * u64) as Hmu0 by nra.
  assert (u64 <= / 8) as U8 by nra.
  set (q := 4 * m * u64) in *.
  split; [apply fmt64_rnd64|]. split; [apply fmt64_rnd64|]. split; [lra|]. split.
  { eapply Rle_trans; [apply Rabs_triang|]. lra. }
  split. { split; nra. }
  assert (4 * (m + 1) * u64 = q + 4 * u64) as -> by (unfold q; ring). split.
  - assert (Rabs (S + t - (s + v * k)) <= (up + q) * (V * K) + up * (V * k)) as D.
    { replace (S + t - (s + v * k)) with ((S - s) + (t - v * k)) by ring. eapply Rle_trans; [apply Rabs_triang|]. lra. }
    assert (Rabs (S + t) <= V * K + V * k + ((up + q) * (V * K) + up * (V * k))) as D2.
    { replace (S + t) with ((S + t - (s + v * k)) + (s + v * k)) by ring. eapply Rle_trans; [apply Rabs_triang|].
      assert (Rabs (s + v * k) <= V * K + V * k) by (eapply Rle_trans; [apply Rabs_triang|]; lra). lra. }
    replace (rnd64 (S + t) - (s + v * k)) with ((rnd64 (S + t) - (S + t)) + (S + t - (s + v * k))) by ring.
    eapply Rle_trans; [apply Rabs_triang|]. eapply Rle_trans; [apply Rplus_le_compat; [eapply Rle_trans; [exact RS|apply Rmult_le_compat_l; [lra|exact D2]]|exact D]|].
    set (A := V * K) in *. set (B := V * k) in *. replace (V * (K + k)) with (A + B) by (unfold A, B; ring).
    clear - HU U VK Vk Hmu Hmu0. 
    assert (u64 * (A + B + ((up + q) * A + up * B)) <= 2 * u64 * (A + B)).
    { rewrite (Rmult_comm 2 u64), Rmult_assoc. apply Rmult_le_compat_l; [lra|]. nra. }
    nra.
  - assert (Rabs (N + k - (K + k)) <= q * K) as D. { replace (N + k - (K + k)) with (N - K) by ring. auto. }
    assert (Rabs (N + k) <= K + k + q * K) as D2.
    { replace (N + k) with ((N + k - (K + k)) + (K + k)) by ring. eapply Rle_trans; [apply Rabs_triang|]. rewrite (Rabs_pos_eq (K + k)) by lra. lra. }
    replace (rnd64 (N + k) - (K + k)) with ((rnd64 (N + k) - (N + k)) + (N + k - (K + k))) by ring.
    eapply Rle_trans; [apply Rabs_triang|]. eapply Rle_trans; [apply Rplus_le_compat; [eapply Rle_trans; [exact RN|apply Rmult_le_compat_l; [lra|exact D2]]|exact D]|].
    clear - U HK Hk Hmu Hmu0.
    assert (u64 * (K + k + q * K) <= 2 * u64 * (K + k)). { rewrite (Rmult_comm 2 u64), Rmult_assoc. apply Rmult_le_compat_l; [lra|]. nra. }
    nra.
Qed.

Lemma near_final up V a b m S N s K : 0 <= up -> 0 <= V -> 0 <= m -> 4 * m * u64 <= / 2 -> 0 < K -> near_sum up V a b m S N s K ->
  0 < N /\ a - 2 * (up + 8 * m * u64) * V <= S / N <= b + 2 * (up + 8 * m * u64) * V /\ Rabs (S / N - s / K) <= 2 * (up + 8 * m * u64) * V.
Proof.
  intros HU HV Hm HM HK (_ & _ & _ & Hs & Hab & ES & EN).
  assert (0 < u64) as U by (unfold u64; lra). assert (0 <= 4 * m * u64) as Q0 by nra.
  replace (8 * m * u64) with (2 * (4 * m * u64)) by ring. set (q := 4 * m * u64) in *.
  assert (Rabs (N - K) <= K / 2) as EN2 by nra. assert (0 < N) as HN by (apply Rabs_le_inv in EN2; lra).
  assert (Rabs (S / N - s / K) <= 2 * (up + 2 * q) * V) as M.
  { replace (S / N - s / K) with (((S - s) * K - s * (N - K)) * / (N * K)) by (field; lra).
    rewrite Rabs_mult, (Rabs_pos_eq (/ (N * K))) by (apply Rlt_le, Rinv_0_lt_compat, Rmult_lt_0_compat; auto).
    apply Rmult_le_reg_r with (N * K); [apply Rmult_lt_0_compat; auto|]. rewrite Rmult_assoc, Rinv_l, Rmult_1_r by (apply Rgt_not_eq, Rmult_lt_0_compat; auto).
    assert (Rabs ((S - s) * K - s * (N - K)) <= (up + q) * (V * K) * K + V * K * (q * K)) as T.
    { unfold Rminus at 1. eapply Rle_trans; [apply Rabs_triang|]. rewrite Rabs_Ropp, !Rabs_mult, (Rabs_pos_eq K) by lra. apply Rplus_le_compat.
      - apply Rmult_le_compat_r; lra.
      - apply Rmult_le_compat; auto using Rabs_pos. }
    eapply Rle_trans; [exact T|]. replace ((up + q) * (V * K) * K + V * K * (q * K)) with ((up + 2 * q) * V * (K * K)) by ring.
    replace (2 * (up + 2 * q) * V * (N * K)) with ((up + 2 * q) * V * (2 * N * K)) by ring.
    apply Rmult_le_compat_l; [apply Rmult_le_pos; lra|]. apply Rmult_le_compat_r; [lra|]. apply Rabs_le_inv in EN2. lra. }
  assert (a <= s / K <= b) as AB.
  { split; [apply Rmult_le_reg_r with K; auto; unfold Rdiv; rewrite Rmult_assoc, Rinv_l by lra; lra|
            apply Rmult_le_reg_r with K; auto; unfold Rdiv; rewrite Rmult_assoc, Rinv_l by lra; lra]. }
  split; [auto|]. split; [|auto]. apply Rabs_le_inv in M. lra.
Qed.
