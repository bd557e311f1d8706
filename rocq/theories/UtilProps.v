(** C142: comparing numbers, counting digits, printing sizes. *)
From Coq Require Import Reals Lra Lia ZifyBool.
From Flocq Require Import Core.
From Verif Require Import Base CStr RoundModel RoundFacts UtilModel UtilSpec UtilProofs.
#[local] Open Scope R_scope.

(** Every number equals itself, and equality does not depend on the order. *)
Theorem C142_reflexive a : fequal a a = true /\ dequal a a = true.
Proof. rewrite fequal_q, dequal_q. split; apply qeq_refl; lia. Qed.
Theorem C142_symmetric a b : fequal a b = fequal b a /\ dequal a b = dequal b a.
Proof. rewrite !fequal_q, !dequal_q. split; apply qeq_sym; lia. Qed.
(** Nothing but zero equals zero, however small. *)
Theorem C142_zero x : (is_float x -> (fequal x 0 = true <-> x = 0)) /\ (is_double x -> (dequal x 0 = true <-> x = 0)).
Proof. rewrite fequal_q, dequal_q. split; intros F; apply qeq_zero; try lia; exact F. Qed.
(** Integers of less than 23 (52) bits are compared exactly: this holds for all pixels of 16 bit images and their nodata values. *)
Theorem C142_integers a b : ((Z.abs a < 2 ^ 23)%Z -> (Z.abs b < 2 ^ 23)%Z -> (fequal (IZR a) (IZR b) = true <-> a = b)) /\
  ((Z.abs a < 2 ^ 52)%Z -> (Z.abs b < 2 ^ 52)%Z -> (dequal (IZR a) (IZR b) = true <-> a = b)).
Proof. rewrite fequal_q, dequal_q. split; intros A B; apply qeq_int; lia || assumption. Qed.
(** Numbers that count as equal differ by at most 2^-22 (2^-51) of the larger one. *)
Theorem C142_close a b : (is_float a -> is_float b -> fequal a b = true -> Rabs (a - b) <= bpow radix2 (-22) * Rmax (Rabs a) (Rabs b)) /\
  (is_double a -> is_double b -> dequal a b = true -> Rabs (a - b) <= bpow radix2 (-51) * Rmax (Rabs a) (Rabs b)).
Proof.
  rewrite fequal_q, dequal_q, <- big_max. change (-22)%Z with (1 + -23)%Z. change (-51)%Z with (1 + -52)%Z. rewrite !bpow_plus. change (bpow radix2 1) with 2.
  split; intros A B; apply qeq_close; try lia; assumption.
Qed.
(** Large integers are not told from their neighbours, and equality is not transitive. *)
Theorem C142_large_refuted : exists a b c, (2 ^ 23 <= a)%Z /\ a <> b /\ fequal (IZR a) (IZR b) = true /\ fequal (IZR b) (IZR c) = true /\ fequal (IZR a) (IZR c) = false.
Proof.
  exists (2 ^ 23)%Z, (2 ^ 23 + 1)%Z, (2 ^ 23 + 2)%Z. rewrite !fequal_q. split; [lia|]. split; [lia|]. apply (qeq_next (-149) 24 (-23)); lia.
Qed.
(** The number of digits of any int. *)
Theorem C142_digits i : (-2147483648 <= i <= 2147483647)%Z -> exists k, num_decimal_places i = Some k /\ digits i k.
Proof.
  intros I. unfold num_decimal_places. destruct (Z.ltb_spec i 0) as [L|L]; [|apply places_digits; lia].
  destruct (Z.eqb_spec i (-2147483648)) as [->|N].
  - exists 10%Z. split; [reflexivity|]. unfold digits. change (Z.abs (-2147483648)) with 2147483648%Z. change (10 ^ 10)%Z with 10000000000%Z. change (10 ^ (10 - 1))%Z with 1000000000%Z. lia.
  - destruct (places_digits 12 (- i)%Z) as (k & E & D); [lia|lia|]. exists k. split; [exact E|]. unfold digits in *. rewrite Z.abs_opp in D. exact D.
Qed.
Theorem C142_digits_unique i k l : digits i k -> digits i l -> k = l.
Proof.
  intros (A1 & A2 & A3) (B1 & B2 & B3). destruct (Z.lt_trichotomy k l) as [L|[L|L]]; auto; exfalso.
  - assert (10 ^ k <= 10 ^ (l - 1))%Z by (apply Z.pow_le_mono_r; lia). lia.
  - assert (10 ^ l <= 10 ^ (k - 1))%Z by (apply Z.pow_le_mono_r; lia). lia.
Qed.
(** A size is printed as a number below 1024, at least 1 unless it is in bytes, and number times unit is the size (as a double: exactly below 2^53). *)
Theorem C142_size bytes : (0 <= bytes < 2 ^ 63)%Z -> exists d u k, readable bytes = (d, u) /\ in_unit u = Some k /\ d * IZR k = rnd64 (IZR bytes) /\ 0 <= d < 1024 /\ (k = 1%Z \/ 1 <= d).
Proof.
  intros B. destruct (scale_exact 8 0 (rnd64 (IZR bytes)) (rnd64_format _)) as (d & j & E & J & V & T & C). unfold readable. rewrite E. cbn [Nat.add].
  assert (U : rnd64 (IZR bytes) <= bpow radix2 63). { replace (bpow radix2 63) with (rnd64 (bpow radix2 63)) by (rewrite <- (Rmult_1_l (bpow radix2 63)); apply (rnd64_dyadic 1 63); lia). apply rnd64_le. rewrite <- (IZR_Zpower radix2) by lia. apply IZR_le. change (Zpower radix2 63) with (2 ^ 63)%Z. lia. }
  assert (L : 0 <= rnd64 (IZR bytes)) by (rewrite <- rnd64_0; apply rnd64_le; apply IZR_le; lia).
  assert (D0 : 0 <= d). { apply Rmult_le_reg_r with (bpow radix2 (10 * Z.of_nat j)); [apply bpow_gt_0|]. lra. }
  assert (J6 : (j <= 6)%nat). { destruct C as [->|C]; [lia|]. destruct (Nat.le_gt_cases j 6) as [|G]; [assumption|exfalso]. assert (bpow radix2 70 <= bpow radix2 (10 * Z.of_nat j)) by (apply bpow_le; lia). assert (bpow radix2 63 < bpow radix2 70) by (apply bpow_lt; lia). pose proof (bpow_gt_0 radix2 70). nra. }
  exists d, (nth j units []), (2 ^ (10 * Z.of_nat j))%Z. split; [reflexivity|]. split; [|split; [|split]].
  - do 7 (destruct j as [|j]; [reflexivity|]). lia.
  - rewrite <- V. f_equal. change 2%Z with (radix_val radix2). rewrite IZR_Zpower by lia. reflexivity.
  - split; [exact D0|]. destruct T as [T|T]; [exact T|lia].
  - destruct C as [->|C]; [left; reflexivity|right; exact C].
Qed.

Example C142_example : fequal (IZR (-9999)) (IZR (-9998)) = false /\ num_decimal_places (-9999) = Some 4%Z /\ digits (-9999) 4 /\ readable 1536 = (1.5, `"KB").
Proof.
  split; [|split; [reflexivity|split; [unfold digits; cbn; lia|]]].
  - apply Bool.not_true_iff_false. intros H. apply C142_integers in H; cbn; lia.
  - unfold readable. rewrite (rnd64_int 1536) by (cbn; lia). cbn [scale_bytes]. rewrite Rle_bool_true by lra. replace (IZR 1536 / 1024) with (IZR 3 / 2) by lra. rewrite (rnd64_half 3) by (cbn; lia). rewrite Rle_bool_false by lra. cbn [nth units]. f_equal. lra.
Qed.

Print Assumptions C142_reflexive.
Print Assumptions C142_symmetric.
Print Assumptions C142_zero.
Print Assumptions C142_integers.
Print Assumptions C142_close.
Print Assumptions C142_large_refuted.
Print Assumptions C142_digits.
Print Assumptions C142_digits_unique.
Print Assumptions C142_size.
