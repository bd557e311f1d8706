(** Facts on the floating-point operations used by the polarmetrics. *)
From Coq Require Import Reals Lra.
From Flocq Require Import Core IEEE754.BinarySingleNaN.
From Verif Require Import Base BaseFacts Float FloatFacts FloatInt RoundModel RoundFacts PolModel.
#[local] Open Scope R_scope.

Definition fin {p e} (x : binary_float p e) : Prop := is_finite x = true.

Lemma fle_R {p e} (x y : binary_float p e) : fin x -> fin y -> fle x y = true <-> B2R x <= B2R y.
Proof.
  intros F G. unfold fle. rewrite Bleb_correct by auto.
  destruct (Rle_bool_spec (B2R x) (B2R y)); split; intros; auto; try discriminate; lra.
Qed.
Lemma flt_R {p e} (x y : binary_float p e) : fin x -> fin y -> flt x y = true <-> B2R x < B2R y.
Proof.
  intros F G. unfold flt. rewrite Bltb_correct by auto.
  destruct (Rlt_bool_spec (B2R x) (B2R y)); split; intros; auto; try discriminate; lra.
Qed.
Lemma feq_R {p e} (x y : binary_float p e) : fin x -> fin y -> feq x y = true <-> B2R x = B2R y.
Proof.
  intros F G. unfold feq. rewrite Beqb_correct by auto.
  destruct (Req_bool_spec (B2R x) (B2R y)); split; intros; auto; try discriminate; lra.
Qed.
Lemma flt_nan_l {p e} (y : binary_float p e) : flt B754_nan y = false.
Proof. reflexivity. Qed.
Lemma flt_nan_r {p e} (x : binary_float p e) : flt x B754_nan = false.
Proof. destruct x as [[]|[]| |[]]; reflexivity. Qed.
Lemma fle_nan_r {p e} (x : binary_float p e) : fle x B754_nan = false.
Proof. destruct x as [[]|[]| |[]]; reflexivity. Qed.

(** A finite result within the range is the rounded exact one. *)
Lemma add32_R (x y : f32) : fin x -> fin y -> Rabs (rnd32 (B2R x + B2R y)) < bpow radix2 128 ->
  fin (f32_add x y) /\ B2R (f32_add x y) = fadd (B2R x) (B2R y).
Proof.
  intros F G H. pose proof (Bplus_correct 24 128 prec24 emax24 mode_NE x y F G) as C.
  change (round radix2 (SpecFloat.fexp 24 128) (round_mode mode_NE) (B2R x + B2R y)) with (fadd (B2R x) (B2R y)) in C.
  rewrite Rlt_bool_true in C by exact H. destruct C as (C1 & C2 & _). split; [exact C2|exact C1].
Qed.
Lemma sub32_R (x y : f32) : fin x -> fin y -> Rabs (rnd32 (B2R x - B2R y)) < bpow radix2 128 ->
  fin (f32_sub x y) /\ B2R (f32_sub x y) = fsub (B2R x) (B2R y).
Proof.
  intros F G H. pose proof (Bminus_correct 24 128 prec24 emax24 mode_NE x y F G) as C.
  change (round radix2 (SpecFloat.fexp 24 128) (round_mode mode_NE) (B2R x - B2R y)) with (fsub (B2R x) (B2R y)) in C.
  rewrite Rlt_bool_true in C by exact H. destruct C as (C1 & C2 & _). split; [exact C2|exact C1].
Qed.
Lemma mul32_R (x y : f32) : fin x -> fin y -> Rabs (rnd32 (B2R x * B2R y)) < bpow radix2 128 ->
  fin (f32_mul x y) /\ B2R (f32_mul x y) = fmul (B2R x) (B2R y).
Proof.
  intros F G H. pose proof (Bmult_correct 24 128 prec24 emax24 mode_NE x y) as C.
  change (round radix2 (SpecFloat.fexp 24 128) (round_mode mode_NE) (B2R x * B2R y)) with (fmul (B2R x) (B2R y)) in C.
  rewrite Rlt_bool_true in C by exact H. destruct C as (C1 & C2 & _). rewrite F, G in C2. split; [exact C2|exact C1].
Qed.
Lemma div32_R (x y : f32) : fin x -> B2R y <> 0 -> Rabs (rnd32 (B2R x / B2R y)) < bpow radix2 128 ->
  fin (f32_div x y) /\ B2R (f32_div x y) = fdiv (B2R x) (B2R y).
Proof.
  intros F G H. pose proof (Bdiv_correct 24 128 prec24 emax24 mode_NE x y G) as C.
  change (round radix2 (SpecFloat.fexp 24 128) (round_mode mode_NE) (B2R x / B2R y)) with (fdiv (B2R x) (B2R y)) in C.
  rewrite Rlt_bool_true in C by exact H. destruct C as (C1 & C2 & _). rewrite F in C2. split; [exact C2|exact C1].
Qed.
Lemma rnd32_B2R (x : f32) : rnd32 (B2R x) = B2R x.
Proof. apply round_generic; [apply valid_rnd_N|]. exact (generic_format_B2R 24 128 x). Qed.
Lemma rnd64_B2R (x : f64) : rnd64 (B2R x) = B2R x.
Proof. apply round_generic; [apply valid_rnd_N|]. exact (generic_format_B2R 53 1024 x). Qed.

Lemma bpow128_big : 1e15 < bpow radix2 128.
Proof. change (bpow radix2 128) with (IZR (2 ^ 128)). apply Rlt_trans with (IZR (10 ^ 16)); [|apply IZR_lt; reflexivity]. replace (10 ^ 16)%Z with 10000000000000000%Z by reflexivity. lra. Qed.

(** Rounding keeps bounds that are integers representable as float. *)
Lemma rnd32_pow a : (0 <= a <= 100)%Z -> rnd32 (IZR (2 ^ a)) = IZR (2 ^ a).
Proof.
  intros H. pose proof (rnd32_dyadic 1 a ltac:(reflexivity) ltac:(lia)) as D.
  rewrite Rmult_1_l in D. rewrite <- (IZR_Zpower radix2) in D by lia. exact D.
Qed.

(** The saturating sum: no running sum of values up to 2^16 ever exceeds 2^41. *)
Definition top41 : R := IZR (2 ^ 41).
Lemma saturate : rnd32 (IZR (2 ^ 41 + 2 ^ 16)) = top41.
Proof.
  pose proof (binary_normalize_correct 24 128 prec24 emax24 mode_NE (2 ^ 41 + 2 ^ 16) 0 false) as C.
  cbv zeta in C. replace (F2R {| Fnum := (2 ^ 41 + 2 ^ 16)%Z; Fexp := 0 |}) with (IZR (2 ^ 41 + 2 ^ 16)) in C
    by (unfold F2R; cbn [Fnum Fexp]; change (bpow radix2 0) with 1; ring).
  change (round radix2 (SpecFloat.fexp 24 128) (round_mode mode_NE) (IZR (2 ^ 41 + 2 ^ 16))) with (rnd32 (IZR (2 ^ 41 + 2 ^ 16))) in C.
  destruct (Rlt_bool_spec (Rabs (rnd32 (IZR (2 ^ 41 + 2 ^ 16)))) (bpow radix2 128)) as [H|H].
  - destruct C as (C & _). rewrite <- C.
    change (B2R (f32_of_Z (2 ^ 41 + 2 ^ 16)) = top41).
    assert (B2R (f32_of_Z (2 ^ 41 + 2 ^ 16)) = B2R (f32_of_Z (2 ^ 41))) as E.
    { rewrite <- !SF2R_B2SF. f_equal. }
    rewrite E.
    pose proof (binary_normalize_correct 24 128 prec24 emax24 mode_NE (2 ^ 41) 0 false) as C'.
    cbv zeta in C'. replace (F2R {| Fnum := (2 ^ 41)%Z; Fexp := 0 |}) with (IZR (2 ^ 41)) in C'
      by (unfold F2R; cbn [Fnum Fexp]; change (bpow radix2 0) with 1; ring).
    change (round radix2 (SpecFloat.fexp 24 128) (round_mode mode_NE) (IZR (2 ^ 41))) with (rnd32 (IZR (2 ^ 41))) in C'.
    rewrite rnd32_pow in C' by lia. rewrite Rlt_bool_true in C'; [destruct C' as (C' & _); exact C'|].
    rewrite Rabs_pos_eq by (apply (IZR_le 0); lia). eapply Rlt_trans; [|apply bpow128_big].
    apply Rlt_trans with (IZR (10 ^ 14)); [apply IZR_lt; reflexivity|replace (10 ^ 14)%Z with 100000000000000%Z by reflexivity; lra].
  - exfalso. assert (IZR (2 ^ 41 + 2 ^ 16) <= IZR (2 ^ 42)) as B by (apply IZR_le; lia).
    apply rnd32_le in B. rewrite rnd32_pow in B by lia.
    assert (0 <= rnd32 (IZR (2 ^ 41 + 2 ^ 16))) as P.
    { rewrite <- rnd32_0. apply rnd32_le. apply (IZR_le 0). lia. }
    rewrite Rabs_pos_eq in H by auto. pose proof bpow128_big.
    assert (IZR (2 ^ 42) < 1e15) by (replace (2 ^ 42)%Z with 4398046511104%Z by reflexivity; lra). lra.
Qed.

Definition val_ok (x : f32) : Prop := fin x /\ 0 <= B2R x <= 65536.
Definition sum_ok (x : f32) : Prop := fin x /\ 0 <= B2R x <= top41.

Lemma top41_val : top41 = 2199023255552.
Proof. reflexivity. Qed.
Lemma val_sum x : val_ok x -> sum_ok x.
Proof. intros [F H]. split; auto. rewrite top41_val. lra. Qed.

Lemma sum_step c v : sum_ok c -> val_ok v ->
  sum_ok (f32_add c v) /\ B2R c <= B2R (f32_add c v) /\ B2R v <= B2R (f32_add c v).
Proof.
  intros [F H] [G K].
  assert (rnd32 (B2R c + B2R v) <= top41) as U.
  { rewrite <- saturate. apply rnd32_le. rewrite plus_IZR. change (IZR (2 ^ 16)) with 65536. fold top41. lra. }
  assert (B2R c <= rnd32 (B2R c + B2R v)) as A by (rewrite <- (rnd32_B2R c) at 1; apply rnd32_le; lra).
  assert (B2R v <= rnd32 (B2R c + B2R v)) as B by (rewrite <- (rnd32_B2R v) at 1; apply rnd32_le; lra).
  destruct (add32_R c v F G) as [P Q].
  { rewrite Rabs_pos_eq by lra. rewrite top41_val in U. pose proof bpow128_big. lra. }
  unfold fadd in Q. unfold sum_ok. rewrite Q. repeat split; auto; lra.
Qed.

(** Shares of a positive total. *)
Lemma share_ok c t : sum_ok c -> sum_ok t -> B2R c <= B2R t -> 0 < B2R t ->
  fin (f32_div c t) /\ 0 <= B2R (f32_div c t) <= 1 /\ B2R (f32_div c t) = fdiv (B2R c) (B2R t).
Proof.
  intros [F H] [G K] L P.
  assert (0 <= B2R c / B2R t <= 1) as Q.
  { split; [apply Rmult_le_pos; [lra|apply Rlt_le, Rinv_0_lt_compat; lra]|].
    apply Rmult_le_reg_r with (B2R t); auto. unfold Rdiv. rewrite Rmult_assoc, Rinv_l by lra. lra. }
  assert (0 <= rnd32 (B2R c / B2R t) <= 1) as B.
  { apply (rnd32_between 0 1); [reflexivity|reflexivity|lra]. }
  destruct (div32_R c t F) as [A E]; [lra| |].
  { rewrite Rabs_pos_eq by lra. pose proof bpow128_big. lra. }
  rewrite E. unfold fdiv. auto.
Qed.
Lemma share_mono c d t : sum_ok c -> sum_ok d -> sum_ok t -> B2R c <= B2R d -> B2R d <= B2R t -> 0 < B2R t ->
  B2R (f32_div c t) <= B2R (f32_div d t).
Proof.
  intros C D T L M P.
  destruct (share_ok c t) as (_ & _ & E1); auto; [lra|]. destruct (share_ok d t) as (_ & _ & E2); auto.
  rewrite E1, E2. unfold fdiv. apply rnd32_le. apply Rmult_le_compat_r; [apply Rlt_le, Rinv_0_lt_compat; auto|auto].
Qed.
Lemma share_full t c : sum_ok c -> sum_ok t -> B2R c = B2R t -> 0 < B2R t -> B2R (f32_div c t) = 1.
Proof.
  intros C T E P. destruct (share_ok c t) as (_ & _ & Q); auto; [lra|]. rewrite Q, E. unfold fdiv.
  replace (B2R t / B2R t) with (IZR 1) by (unfold Rdiv; rewrite Rinv_r; lra). apply (rnd32_int 1). reflexivity.
Qed.
(** Without a positive total the shares are no numbers. *)
Lemma share_none c t : sum_ok c -> sum_ok t -> B2R c <= B2R t -> B2R t = 0 -> f32_div c t = B754_nan.
Proof.
  intros [F H] [G K] L Z.
  assert (forall x : f32, fin x -> B2R x = 0 -> exists s, x = B754_zero s) as I.
  { intros x Fx Hx. destruct x as [s|s| |s m e b]; try discriminate Fx; [eauto|].
    exfalso. cbn in Hx. unfold F2R in Hx. cbn in Hx. pose proof (bpow_gt_0 radix2 e).
    apply Rmult_integral in Hx. destruct Hx as [Hx|Hx]; [|lra]. apply eq_IZR in Hx. destruct s; discriminate. }
  destruct (I t G Z) as [s ->]. destruct (I c F) as [s' ->]; [lra|]. reflexivity.
Qed.

Lemma one32 : fin (f32_of_Z 1) /\ B2R (f32_of_Z 1) = 1.
Proof. destruct (isZ32 1) as [A B]; [lia|]. split; auto. Qed.
