(** Lemmas about the helpers. *)
From Coq Require Import Reals Lra Lia ZifyBool.
From Flocq Require Import Core Mult_error Relative.
From Verif Require Import Base CStr RoundModel RoundFacts UtilModel UtilSpec.
#[local] Open Scope R_scope.

Definition big (a b : R) : R := if Rlt_bool (Rabs a) (Rabs b) then Rabs b else Rabs a.
Lemma big_max a b : big a b = Rmax (Rabs a) (Rabs b).
Proof. unfold big, Rmax. destruct (Rlt_bool_spec (Rabs a) (Rabs b)); destruct (Rle_dec (Rabs a) (Rabs b)); lra. Qed.
Section Eq.
Variables (emin prec eps : Z).
Hypothesis prec2 : (3 <= prec)%Z.
Hypothesis epsr : (eps = 1 - prec)%Z.
#[local] Instance precp : Prec_gt_0 prec. Proof. unfold Prec_gt_0. lia. Qed.
Definition rn (x : R) : R := round radix2 (FLT_exp emin prec) ZnearestE x.
Definition qeq (a b : R) : bool := Rle_bool (Rabs (rn (a - b))) (rn (big a b * bpow radix2 eps)).
Lemma rn_le x y : x <= y -> rn x <= rn y. Proof. intros H. apply round_le; [typeclasses eauto|typeclasses eauto|exact H]. Qed.
Lemma rn_0 : rn 0 = 0. Proof. apply round_0. typeclasses eauto. Qed.
Lemma rn_nn x : 0 <= x -> 0 <= rn x. Proof. intros H. rewrite <- rn_0. apply rn_le. exact H. Qed.
Lemma rn_id x : generic_format radix2 (FLT_exp emin prec) x -> rn x = x. Proof. intros H. apply round_generic; [typeclasses eauto|exact H]. Qed.
Lemma rn_abs x : Rabs (rn x) = rn (Rabs x). Proof. symmetry. unfold rn. apply round_NE_abs. typeclasses eauto. Qed.
Lemma eps_pos : 0 < bpow radix2 eps. Proof. apply bpow_gt_0. Qed.
Lemma eps_half : bpow radix2 eps <= / 4.
Proof. change (/ 4) with (bpow radix2 (-2)). apply bpow_le. lia. Qed.
Lemma big_nn a b : 0 <= big a b.
Proof. rewrite big_max. apply Rle_trans with (Rabs a); [apply Rabs_pos|apply Rmax_l]. Qed.
Lemma big_sym a b : big a b = big b a.
Proof. rewrite !big_max. apply Rmax_comm. Qed.
Lemma qeq_refl a : qeq a a = true.
Proof. unfold qeq. rewrite Rminus_eq_0, rn_0, Rabs_R0. apply Rle_bool_true. apply rn_nn. apply Rmult_le_pos; [apply big_nn|left; apply eps_pos]. Qed.
Lemma qeq_sym a b : qeq a b = qeq b a.
Proof. unfold qeq. rewrite big_sym. rewrite !rn_abs. rewrite Rabs_minus_sym. reflexivity. Qed.
(** Zero is a number of the format, so rounding at most doubles. *)
Lemma rn_double y : 0 <= y -> rn y <= 2 * y.
Proof.
  intros H. pose proof (round_N_pt radix2 (FLT_exp emin prec) (fun x => negb (Z.even x)) y) as (_ & N). specialize (N 0 (generic_format_0 _ _)). fold (rn y) in N. change (round radix2 (FLT_exp emin prec) (Znearest (fun x => negb (Z.even x))) y) with (rn y) in N.
  rewrite (Rabs_left1 (0 - y)) in N by lra. apply Rabs_le_inv in N. lra.
Qed.
Lemma qeq_zero x : generic_format radix2 (FLT_exp emin prec) x -> (qeq x 0 = true <-> x = 0).
Proof.
  intros F. split; [|intros ->; apply qeq_refl]. unfold qeq. intros H. revert H; case Rle_bool_spec; [intros H _|discriminate].
  rewrite Rminus_0_r in H. rewrite rn_id in H by exact F. rewrite big_max, Rabs_R0, Rmax_left in H by apply Rabs_pos.
  pose proof (Rabs_pos x) as P. pose proof eps_pos. pose proof eps_half.
  destruct (Req_dec x 0) as [|N]; [assumption|]. exfalso. assert (0 < Rabs x) by (apply Rabs_pos_lt; exact N).
  pose proof (rn_double (Rabs x * bpow radix2 eps) ltac:(nra)). nra.
Qed.
(** Equal numbers differ by at most two units of the comparison. *)
Lemma fix_sub a b : generic_format radix2 (FLT_exp emin prec) a -> generic_format radix2 (FLT_exp emin prec) b -> exists m, a - b = IZR m * bpow radix2 emin.
Proof.
  intros A B. apply generic_format_FIX_FLT in A. apply generic_format_FIX_FLT in B. apply FIX_format_generic in A. apply FIX_format_generic in B.
  destruct A as [[ma ea] EA XA], B as [[mb eb] EB XB]. cbn [Fexp] in XA, XB. exists (ma - mb)%Z. rewrite EA, EB, minus_IZR. unfold F2R. cbn [Fnum Fexp]. rewrite XA, XB. ring.
Qed.
Lemma qeq_close a b : generic_format radix2 (FLT_exp emin prec) a -> generic_format radix2 (FLT_exp emin prec) b -> qeq a b = true -> Rabs (a - b) <= 2 * bpow radix2 eps * big a b.
Proof.
  intros FA FB. unfold qeq. case Rle_bool_spec; [intros H _|discriminate]. rewrite rn_abs in H. pose proof (big_nn a b) as BN. pose proof eps_pos as EP. set (y := big a b * bpow radix2 eps) in *. assert (Y : 0 <= y) by (apply Rmult_le_pos; lra).
  replace (2 * bpow radix2 eps * big a b) with (2 * y) by (unfold y; ring). set (d := Rabs (a - b)) in *. destruct (Rle_or_lt d (2 * y)) as [|L]; [assumption|exfalso]. pose proof (rn_double y Y) as D.
  destruct (Rle_or_lt (bpow radix2 (emin + prec)) d) as [G|G].
  - (* relative errors *)
    assert (P0 : bpow radix2 (emin + prec) = 2 * bpow radix2 (emin + prec - 1)) by (replace (emin + prec)%Z with (1 + (emin + prec - 1))%Z at 1 by lia; rewrite bpow_plus; reflexivity).
    pose proof (bpow_gt_0 radix2 (emin + prec - 1)) as BP. assert (RB : forall x, bpow radix2 (emin + prec - 1) <= x -> Rabs (rn x - x) <= / 4 * x).
    { intros x X. pose proof (relative_error_N_FLT radix2 emin prec ltac:(unfold Prec_gt_0; lia) (fun x => negb (Z.even x)) x) as R. rewrite (Rabs_pos_eq x) in R by lra. specialize (R X). eapply Rle_trans; [exact R|]. apply Rmult_le_compat_r; [lra|]. assert (bpow radix2 (- prec + 1) <= bpow radix2 (-1)) by (apply bpow_le; lia). change (bpow radix2 (-1)) with (/ 2) in H0. lra. }
    destruct (Rle_or_lt (bpow radix2 (emin + prec - 1)) y) as [K|K].
    + pose proof (RB y K) as R1. pose proof (RB d ltac:(lra)) as R2. apply Rabs_le_inv in R1. apply Rabs_le_inv in R2. lra.
    + assert (rn y <= bpow radix2 (emin + prec - 1)). { rewrite <- (rn_id (bpow radix2 (emin + prec - 1))); [apply rn_le; lra|]. apply generic_format_bpow. unfold FLT_exp. lia. }
      assert (bpow radix2 (emin + prec) <= rn d). { rewrite <- (rn_id (bpow radix2 (emin + prec))); [apply rn_le; lra|]. apply generic_format_bpow. unfold FLT_exp. lia. } lra.
  - destruct (fix_sub a b FA FB) as (m & M). assert (F : generic_format radix2 (FLT_exp emin prec) d).
    { apply generic_format_abs. apply generic_format_FLT. exists (Float radix2 m emin); cbn [Fnum Fexp]; [exact M| |lia]. apply lt_IZR. rewrite abs_IZR. unfold d in G. rewrite M, Rabs_mult, (Rabs_pos_eq (bpow radix2 emin)) in G by apply bpow_ge_0. rewrite bpow_plus, Rmult_comm in G. apply Rmult_lt_reg_l in G; [|apply bpow_gt_0]. rewrite IZR_Zpower by lia. exact G. }
    rewrite (rn_id d F) in H. lra.
Qed.
(** Small integers are compared exactly. *)
Lemma int_format n : (emin <= 0)%Z -> (Z.abs n < 2 ^ prec)%Z -> generic_format radix2 (FLT_exp emin prec) (IZR n).
Proof. intros E H. apply generic_format_FLT. exists (Float radix2 n 0); cbn [Fnum Fexp]; [unfold F2R; cbn; ring|exact H|exact E]. Qed.
Lemma int_scaled n : (emin <= eps)%Z -> (Z.abs n < 2 ^ prec)%Z -> generic_format radix2 (FLT_exp emin prec) (IZR n * bpow radix2 eps).
Proof. intros E H. apply generic_format_FLT. exists (Float radix2 n eps); cbn [Fnum Fexp]; [reflexivity|exact H|exact E]. Qed.
Lemma big_int a b : big (IZR a) (IZR b) = IZR (Z.max (Z.abs a) (Z.abs b)).
Proof. rewrite big_max. rewrite <- !abs_IZR. unfold Rmax. destruct (Rle_dec _ _) as [L|L]; f_equal; [apply le_IZR in L; lia|]. assert (~ (Z.abs a <= Z.abs b)%Z) by (intros K; apply L; apply IZR_le; exact K). lia. Qed.
Lemma qeq_int a b : (emin <= eps)%Z -> (Z.abs a < 2 ^ (prec - 1))%Z -> (Z.abs b < 2 ^ (prec - 1))%Z -> (qeq (IZR a) (IZR b) = true <-> a = b).
Proof.
  intros E A B. split; [|intros ->; apply qeq_refl]. unfold qeq. case Rle_bool_spec; [intros H _|discriminate].
  assert (P : (2 ^ prec = 2 * 2 ^ (prec - 1))%Z) by (replace prec with (1 + (prec - 1))%Z at 1 by lia; rewrite Z.pow_add_r by lia; reflexivity). rewrite <- minus_IZR, big_int in H. rewrite rn_id in H by (apply int_format; lia). rewrite rn_id in H by (apply int_scaled; lia). rewrite <- abs_IZR in H.
  assert (IZR (Z.max (Z.abs a) (Z.abs b)) * bpow radix2 eps < 1). { apply Rlt_le_trans with (IZR (2 ^ (prec - 1)) * bpow radix2 eps); [apply Rmult_lt_compat_r; [apply eps_pos|apply IZR_lt; lia]|]. rewrite (IZR_Zpower radix2) by lia. rewrite <- bpow_plus. replace (prec - 1 + eps)%Z with 0%Z by lia. apply Rle_refl. }
  assert (Z.abs (a - b) < 1)%Z by (apply lt_IZR; lra). lia.
Qed.
(** From there on, neighbours count as equal. *)
Lemma qeq_next n : (emin <= eps)%Z -> (n = 2 ^ (prec - 1))%Z -> qeq (IZR n) (IZR (n + 1)) = true /\ qeq (IZR (n + 1)) (IZR (n + 2)) = true /\ qeq (IZR n) (IZR (n + 2)) = false.
Proof.
  intros E N. assert (P : (2 ^ prec = 2 * 2 ^ (prec - 1))%Z) by (replace prec with (1 + (prec - 1))%Z at 1 by lia; rewrite Z.pow_add_r by lia; reflexivity). assert (P2 : (4 <= 2 ^ (prec - 1))%Z) by (change 4%Z with (2 ^ 2)%Z; apply Z.pow_le_mono_r; lia).
  assert (U : IZR n * bpow radix2 eps = 1). { rewrite N, (IZR_Zpower radix2) by lia. rewrite <- bpow_plus. replace (prec - 1 + eps)%Z with 0%Z by lia. reflexivity. }
  pose proof eps_pos as EP. assert (ES : bpow radix2 eps <= / 4) by (change (/ 4) with (bpow radix2 (-2)); apply bpow_le; lia).
  assert (K : forall x y, (0 <= x < y)%Z -> (y <= n + 2)%Z -> qeq (IZR x) (IZR y) = Rle_bool (IZR (y - x)) (IZR y * bpow radix2 eps)).
  { intros x y XY Y. unfold qeq. rewrite <- minus_IZR, big_int. rewrite rn_id by (apply int_format; lia). rewrite rn_id by (apply int_scaled; lia). rewrite <- abs_IZR. f_equal; [f_equal; lia|]. f_equal. f_equal. lia. }
  rewrite !K by lia. replace (n + 1 - n)%Z with 1%Z by lia. replace (n + 2 - (n + 1))%Z with 1%Z by lia. replace (n + 2 - n)%Z with 2%Z by lia. rewrite !plus_IZR, !Rmult_plus_distr_r, U. repeat split; [apply Rle_bool_true|apply Rle_bool_true|apply Rle_bool_false]; lra.
Qed.
End Eq.
Lemma fequal_q a b : fequal a b = qeq (-149) 24 (-23) a b.
Proof. reflexivity. Qed.
Lemma dequal_q a b : dequal a b = qeq (-1074) 53 (-52) a b.
Proof. reflexivity. Qed.

(** Digits *)
Lemma places_digits f : forall i, (1 <= f)%nat -> (0 <= i < 10 ^ Z.of_nat f)%Z -> exists k, places_pos f i = Some k /\ digits i k.
Proof.
  induction f as [|f IH]; intros i F1 I; [lia|]. cbn [places_pos]. destruct (Z.ltb_spec i 10) as [L|L].
  - exists 1%Z. split; [reflexivity|]. unfold digits. change (10 ^ 1)%Z with 10%Z. lia.
  - rewrite Nat2Z.inj_succ, Z.pow_succ_r in I by lia. destruct (IH (i / 10)%Z) as (k & E & D1 & D2 & D3). { destruct f; [cbn in I; lia|lia]. } { split; [apply Z.div_pos; lia|apply Z.div_lt_upper_bound; lia]. }
    rewrite E. exists (1 + k)%Z. split; [reflexivity|]. assert (Q : (0 <= i / 10)%Z) by (apply Z.div_pos; lia). rewrite Z.abs_eq in * by lia. pose proof (Z.div_mod i 10 ltac:(lia)) as DM. pose proof (Z.mod_pos_bound i 10 ltac:(lia)) as MB. split; [lia|]. split.
    + rewrite Z.pow_add_r by lia. change (10 ^ 1)%Z with 10%Z. rewrite Z.abs_eq by lia. lia.
    + right. rewrite Z.abs_eq by lia. replace (1 + k - 1)%Z with k by lia. destruct D3 as [->|D3]; [change (10 ^ 1)%Z with 10%Z; lia|]. replace k with (1 + (k - 1))%Z at 1 by lia. rewrite Z.pow_add_r by lia. change (10 ^ 1)%Z with 10%Z. lia.
Qed.
(** Sizes *)
Lemma rnd64_format x : is_double (rnd64 x).
Proof. apply generic_format_round; typeclasses eauto. Qed.
Lemma div_exact x : is_double x -> 1024 <= x -> rnd64 (x / 1024) = x / 1024.
Proof.
  intros F L. apply round_generic; [typeclasses eauto|]. change (x / 1024) with (x * bpow radix2 (-10)). apply mult_bpow_exact_FLT; [exact F|]. assert (10 < mag radix2 x)%Z. { apply mag_gt_bpow. rewrite Rabs_pos_eq by lra. change (bpow radix2 10) with 1024. exact L. } lia.
Qed.
Lemma scale_exact f : forall i d, is_double d -> exists d' j, scale_bytes f i d = (d', (i + j)%nat) /\ (j <= f)%nat /\ d' * bpow radix2 (10 * Z.of_nat j) = d /\ (d' < 1024 \/ j = f) /\ (j = 0%nat \/ 1 <= d').
Proof.
  induction f as [|f IH]; intros i d D.
  - exists d, 0%nat. cbn [scale_bytes]. rewrite Nat.add_0_r. repeat split; auto. cbn. ring.
  - cbn [scale_bytes]. destruct (Rle_bool_spec 1024 d) as [L|L].
    + destruct (IH (S i) (rnd64 (d / 1024)) (rnd64_format _)) as (d' & j & E & J & V & B & C). exists d', (S j). rewrite E. rewrite div_exact in V by auto. split; [f_equal; lia|]. split; [lia|]. split; [|split].
      * replace (10 * Z.of_nat (S j))%Z with (10 * Z.of_nat j + 10)%Z by lia. rewrite bpow_plus, <- Rmult_assoc, V. change (bpow radix2 10) with 1024. field.
      * destruct B as [B|B]; [left; exact B|right; lia].
      * right. destruct C as [->|C]; [|exact C]. change (bpow radix2 (10 * Z.of_nat 0)) with 1 in V. lra.
    + exists d, 0%nat. rewrite Nat.add_0_r. repeat split; auto; [lia|]. cbn. ring.
Qed.
