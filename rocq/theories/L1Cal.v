(** Proofs about the calibration of Level 1 images and about the coarse grid. *)
From Coq Require Import Reals Lra Lia.
From Flocq Require Import Core Relative.
From Verif Require Import Base BaseFacts RoundModel RoundFacts L1Model L1Spec.
#[local] Open Scope R_scope.

Lemma rnd32_near m e x : (2 ^ 23 < m < 2 ^ 24)%Z -> (-149 <= e)%Z -> Rabs (x - IZR m * bpow radix2 e) < / 2 * bpow radix2 e -> rnd32 x = IZR m * bpow radix2 e.
Proof.
  intros [M1 M2] E H. assert (0 < bpow radix2 e) as P by apply bpow_gt_0.
  assert (IZR (2 ^ 23) + 1 <= IZR m <= IZR (2 ^ 24) - 1) as [B1 B2] by (split; [rewrite <- (plus_IZR (2 ^ 23) 1)|rewrite <- (minus_IZR (2 ^ 24) 1)]; apply IZR_le; lia).
  apply Rabs_lt_inv in H. assert (mag radix2 x = e + 24 :> Z)%Z as Mg.
  { apply mag_unique_pos. replace (e + 24 - 1)%Z with (23 + e)%Z by lia. replace (e + 24)%Z with (24 + e)%Z by lia. rewrite !bpow_plus. change (bpow radix2 23) with (IZR (2 ^ 23)). change (bpow radix2 24) with (IZR (2 ^ 24)). nra. }
  unfold rnd32, round, F2R, scaled_mantissa, cexp. rewrite Mg. unfold FLT_exp. replace (Z.max (e + 24 - 24) (-149)) with e by lia. cbn [Fnum Fexp].
  f_equal. f_equal. apply Znearest_imp. replace (x * bpow radix2 (- e) - IZR m) with ((x - IZR m * bpow radix2 e) * bpow radix2 (- e)); [|rewrite Rmult_minus_distr_r, Rmult_assoc, <- bpow_plus; replace (e + - e)%Z with 0%Z by lia; change (bpow radix2 0) with 1; ring].
  rewrite Rabs_mult, (Rabs_pos_eq (bpow radix2 (- e))) by apply bpow_ge_0. replace (/ 2) with (/ 2 * bpow radix2 e * bpow radix2 (- e)) by (rewrite Rmult_assoc, <- bpow_plus; replace (e + - e)%Z with 0%Z by lia; change (bpow radix2 0) with 1; ring).
  apply Rmult_lt_compat_r; [apply bpow_gt_0|]. apply Rabs_lt. lra.
Qed.
Lemma rnd32_rel x : bpow radix2 (-120) <= Rabs x -> Rabs (rnd32 x - x) <= / 16777216 * Rabs x.
Proof.
  intros H. assert (bpow radix2 (-149 + 24 - 1) <= Rabs x) as B. { eapply Rle_trans; [apply bpow_le|exact H]. lia. }
  pose proof (relative_error_N_FLT radix2 (-149) 24 ltac:(reflexivity) (fun x => negb (Z.even x)) x B) as R. unfold rnd32.
  eapply Rle_trans; [exact R|]. apply Req_le. change (bpow radix2 (- (24) + 1)) with (/ 8388608). lra.
Qed.
Lemma rnd32_1 : rnd32 1 = 1.
Proof. apply (rnd32_int 1). reflexivity. Qed.
Lemma rnd32_nonneg x : 0 <= x -> 0 <= rnd32 x.
Proof. intros H. rewrite <- rnd32_0. apply rnd32_le. auto. Qed.
Lemma rnd64_nonneg x : 0 <= x -> 0 <= rnd64 x.
Proof. intros H. rewrite <- rnd64_0. apply rnd64_le. auto. Qed.

(** Truncation of a number close to an integer: at most one off, and only towards zero. *)
Lemma trunc_close x n : Rabs (x - IZR n) < / 10 -> ((0 <= n -> n - 1 <= Ztrunc x <= n) /\ (n <= 0 -> n <= Ztrunc x <= n + 1))%Z.
Proof.
  intros H. apply Rabs_def2 in H.
  destruct (Rle_or_lt 0 x) as [P | P].
  - rewrite Ztrunc_floor by auto. pose proof (Zfloor_lb x) as L. pose proof (Zfloor_ub x) as U.
    assert (-1 < n)%Z as N by (apply lt_IZR; lra).
    assert (n - 1 < Zfloor x + 1)%Z as A by (apply lt_IZR; rewrite minus_IZR, plus_IZR; lra).
    assert (Zfloor x < n + 1)%Z as B by (apply lt_IZR; rewrite plus_IZR; lra).
    split; intros; split; try lia.
    assert (n = 0)%Z by lia. subst n. pose proof (Zfloor_lub 0 x P). lia.
  - rewrite Ztrunc_ceil by lra. pose proof (Zceil_ub x) as L. pose proof (Zceil_lb x) as U.
    assert (n < 1)%Z as N by (apply lt_IZR; lra).
    assert (Zceil x - 1 < n + 1)%Z as A by (apply lt_IZR; rewrite minus_IZR, plus_IZR; lra).
    assert (n - 1 < Zceil x)%Z as B by (apply lt_IZR; rewrite minus_IZR; lra).
    split; intros; split; try lia.
    assert (n = 0)%Z by lia. subst n. assert (Zceil x <= 0)%Z by (apply Zceil_glb; lra). lia.
Qed.
Lemma short_of_ok x : (-32768 <= Ztrunc x <= 32767)%Z -> short_of x = Ret (Ztrunc x).
Proof. intros H. unfold short_of, in_shortb. replace _ with true; [reflexivity|]. symmetry. lia. Qed.
Lemma short_of_UB x : (32767 < Ztrunc x)%Z -> short_of x = UB.
Proof. intros H. unfold short_of, in_shortb. replace _ with false; [reflexivity|]. symmetry. lia. Qed.

(** ** Sentinel-2 *)
Lemma toa_close dn radd : (0 <= dn <= 65535)%Z -> (Z.abs radd <= 10000)%Z ->
  Rabs (fmul (fdiv (fadd (IZR dn) (IZR radd)) 10000) 10000 - IZR (dn + radd)) < / 10.
Proof.
  intros D A. unfold fadd. rewrite <- plus_IZR. rewrite rnd32_int by lia. set (n := (dn + radd)%Z).
  assert (Rabs (IZR n) <= 100000) as B by (rewrite <- abs_IZR; apply IZR_le; lia).
  apply Rabs_le_inv in B. unfold fdiv, fmul.
  pose proof (rnd32_err (IZR n / 10000) 10 ltac:(lra) ltac:(apply Rabs_le; lra)) as E. apply Rabs_le_inv in E.
  set (y := rnd32 (IZR n / 10000)) in *.
  pose proof (rnd32_err (y * 10000) 100001 ltac:(lra) ltac:(apply Rabs_le; lra)) as E2. apply Rabs_le_inv in E2.
  apply Rabs_def1; lra.
Qed.

(** ** Landsat *)
Lemma reflectance_mono c pd sun d d' : 0 < c_rmul c -> 0 < sun -> (d <= d')%Z -> reflectance c pd sun d <= reflectance c pd sun d'.
Proof.
  intros M S L. unfold reflectance. destruct (Req_bool_spec (c_rmul c) (-32768)); [lra|].
  apply rnd32_le. apply Rmult_le_compat_r; [apply Rlt_le, Rinv_0_lt_compat; auto|]. apply rnd32_le. apply Rplus_le_compat_l.
  apply rnd32_le. apply Rmult_le_compat_l; [lra|]. apply IZR_le; auto.
Qed.
(** The result of a conversion as a number that orders nodata first. *)
Lemma trunc_mono x y : x <= y -> (Ztrunc x <= Ztrunc y)%Z.
Proof. apply Ztrunc_le. Qed.
Lemma store_cases cir t v : store_reflectance cir t = Ret v ->
  (t < flt_min /\ v = (if cir then (0%Z, false) else (-9999, true)%Z)) \/ (flt_min <= t /\ v = (Ztrunc (fmul t 10000), false) /\ (0 <= Ztrunc (fmul t 10000) <= 32767)%Z).
Proof.
  unfold store_reflectance. destruct (Rlt_bool_spec t flt_min) as [H | H].
  - destruct cir; intros E; inversion E; auto.
  - unfold short_of. destruct (in_shortb (Ztrunc (fmul t 10000))) eqn:B; cbn [bind]; intros E; inversion E. right. split; auto. split; auto.
    unfold in_shortb in B. assert (0 <= Ztrunc (fmul t 10000))%Z; [|lia]. rewrite <- (Ztrunc_IZR 0). apply Ztrunc_le.
    apply rnd32_nonneg. assert (0 < flt_min) by apply bpow_gt_0. nra.
Qed.
Lemma reflectance_close c pd sun d : c_rmul c <> -32768 -> (0 <= d <= 65535)%Z -> 0 <= c_rmul c * 65535 <= 2 -> Rabs (c_radd c) <= 1 -> / 10 <= sun <= 1 ->
  Rabs ((c_radd c + c_rmul c * IZR d) / sun) <= 4 -> Rabs (reflectance c pd sun d - (c_radd c + c_rmul c * IZR d) / sun) <= 5 / 1000000.
Proof.
  intros NF D M A S B. unfold reflectance. destruct (Req_bool_spec (c_rmul c) (-32768)); [contradiction|].
  assert (0 <= IZR d <= 65535) as D' by (split; apply IZR_le; lia). apply Rabs_le_inv in A, B.
  assert (0 <= c_rmul c * IZR d <= 2) as MD by nra. unfold fdiv, fadd, fmul.
  pose proof (rnd32_err (c_rmul c * IZR d) 2 ltac:(lra) ltac:(apply Rabs_le; lra)) as E1. apply Rabs_le_inv in E1. set (y := rnd32 (c_rmul c * IZR d)) in *.
  pose proof (rnd32_err (c_radd c + y) 4 ltac:(lra) ltac:(apply Rabs_le; lra)) as E2. apply Rabs_le_inv in E2. set (z := rnd32 (c_radd c + y)) in *.
  set (t := c_radd c + c_rmul c * IZR d) in *.
  assert (Rabs (z - t) <= 6 / 16000000) as E3 by (apply Rabs_le; unfold t; lra). apply Rabs_le_inv in E3.
  assert (0 < / sun) as IS by (apply Rinv_0_lt_compat; lra). assert (/ sun <= 10) as IS2. { rewrite <- (Rinv_inv 10). apply Rinv_le_contravar; lra. }
  assert (- (4 / 1000000) + 1 / 10000000 <= (z - t) / sun <= 4 / 1000000 - 1 / 10000000) as E4. { change ((z - t) / sun) with ((z - t) * / sun). set (u := / sun) in *. set (w := z - t) in *. clearbody u w. clear - IS IS2 E3. split; nra. }
  replace ((z - t) / sun) with (z / sun - t / sun) in E4 by (field; lra).
  pose proof (rnd32_err (z / sun) 5 ltac:(lra) ltac:(apply Rabs_le; lra)) as E5. apply Rabs_le_inv in E5.
  apply Rabs_le. lra.
Qed.
Lemma stored_close c pd sun d cir : c_rmul c <> -32768 -> (0 <= d <= 65535)%Z -> 0 <= c_rmul c * 65535 <= 2 -> Rabs (c_radd c) <= 1 -> / 10 <= sun <= 1 ->
  2 / 10000 <= (c_radd c + c_rmul c * IZR d) / sun <= 32766 / 10000 ->
  exists v, store_reflectance cir (reflectance c pd sun d) = Ret (v, false) /\ Rabs (IZR v - 10000 * ((c_radd c + c_rmul c * IZR d) / sun)) <= 11 / 10.
Proof.
  intros NF D M A S B. pose proof (reflectance_close c pd sun d NF D M A S ltac:(apply Rabs_le; lra)) as E. set (t := (c_radd c + c_rmul c * IZR d) / sun) in *.
  set (r := reflectance c pd sun d) in *. apply Rabs_le_inv in E. unfold store_reflectance.
  assert (flt_min <= / 10000) as FM. { unfold flt_min. apply Rle_trans with (bpow radix2 (-14)); [apply bpow_le; lia|]. change (bpow radix2 (-14)) with (/ 16384). lra. }
  rewrite Rlt_bool_false by lra.
  assert (Rabs (r * 10000) <= 40000) as B2 by (apply Rabs_le; lra).
  pose proof (rnd32_err (r * 10000) 40000 ltac:(lra) B2) as E2. apply Rabs_le_inv in E2. fold (fmul r 10000) in E2. set (y := fmul r 10000) in *.
  assert (0 <= y) as Y by lra. rewrite short_of_ok.
  - cbn [bind]. eexists. split; [reflexivity|]. rewrite Ztrunc_floor by auto. pose proof (Zfloor_lb y). pose proof (Zfloor_ub y). apply Rabs_le. lra.
  - rewrite Ztrunc_floor by auto. pose proof (Zfloor_lb y). pose proof (Zfloor_ub y). split.
    + apply Zfloor_lub. lra.
    + assert (Zfloor y < 32768)%Z by (apply lt_IZR; lra). lia.
Qed.
Lemma stored_overflow c pd sun d cir : c_rmul c <> -32768 -> (0 <= d <= 65535)%Z -> 0 <= c_rmul c * 65535 <= 2 -> Rabs (c_radd c) <= 1 -> / 10 <= sun <= 1 ->
  32769 / 10000 <= (c_radd c + c_rmul c * IZR d) / sun <= 4 -> store_reflectance cir (reflectance c pd sun d) = UB.
Proof.
  intros NF D M A S B. pose proof (reflectance_close c pd sun d NF D M A S ltac:(apply Rabs_le; lra)) as E. set (t := (c_radd c + c_rmul c * IZR d) / sun) in *.
  set (r := reflectance c pd sun d) in *. apply Rabs_le_inv in E. unfold store_reflectance.
  assert (flt_min <= / 10000) as FM. { unfold flt_min. apply Rle_trans with (bpow radix2 (-14)); [apply bpow_le; lia|]. change (bpow radix2 (-14)) with (/ 16384). lra. }
  rewrite Rlt_bool_false by lra.
  assert (Rabs (r * 10000) <= 41000) as B2 by (apply Rabs_le; lra).
  pose proof (rnd32_err (r * 10000) 41000 ltac:(lra) B2) as E2. apply Rabs_le_inv in E2. fold (fmul r 10000) in E2. set (y := fmul r 10000) in *.
  rewrite short_of_UB; auto. rewrite Ztrunc_floor by lra. assert (32768 <= Zfloor y)%Z by (apply Zfloor_lub; lra). lia.
Qed.

(** ** Temperature *)
Lemma ln_lower y : 0 < y -> y / (1 + y) <= ln (1 + y).
Proof.
  intros Y. destruct (Rle_lt_dec (y / (1 + y)) (ln (1 + y))) as [|H]; auto. exfalso.
  pose proof (exp_ineq1 (- ln (1 + y))) as E. assert (0 < ln (1 + y)) as P. { rewrite <- ln_1. apply ln_increasing; lra. }
  specialize (E ltac:(lra)). rewrite exp_Ropp, exp_ln in E by lra.
  assert (/ (1 + y) = 1 - y / (1 + y)) as Q by (field; lra). lra.
Qed.
Lemma ln_upper y : -1 < y -> ln (1 + y) <= y.
Proof.
  intros Y. destruct (Req_dec y 0) as [-> | N]; [rewrite Rplus_0_r, ln_1; lra|].
  rewrite <- (ln_exp y) at 2. apply Rlt_le, ln_increasing; [lra|]. apply exp_ineq1. auto.
Qed.
Lemma ln_mono x y : 0 < x -> x <= y -> ln x <= ln y.
Proof. intros P [H | ->]; [apply Rlt_le, ln_increasing; auto|lra]. Qed.
(** A float above 1 is at least 1 + 2^-23. *)
Lemma above_one y : 1 <= y -> rnd32 y <> 1 -> 1 + / 8388608 <= rnd32 y.
Proof.
  intros Y N. destruct (Rle_lt_dec (1 + / 8388608) (rnd32 y)) as [|H]; auto. exfalso. apply N.
  assert (1 <= rnd32 y) as G by (rewrite <- rnd32_1; apply rnd32_le; auto).
  assert (y < 1 + / 8388608) as U. { destruct (Rlt_le_dec y (1 + / 8388608)) as [|K]; auto. apply rnd32_le in K.
    assert (rnd32 (1 + / 8388608) = 1 + / 8388608) as X; [|lra].
    replace (1 + / 8388608) with (IZR 8388609 * bpow radix2 (-23)). { apply rnd32_dyadic; [reflexivity|lia]. }
    change (bpow radix2 (-23)) with (/ 8388608). lra. }
  unfold rnd32, round, F2R in *. cbn [Fnum Fexp] in *. unfold scaled_mantissa, cexp in *.
  assert (mag radix2 y = 1%Z :> Z) as M. { apply mag_unique_pos. cbn. lra. }
  rewrite M in *. change (FLT_exp (-149) 24 1) with (-23)%Z in *.
  set (m := ZnearestE (y * bpow radix2 (- -23))) in *. change (bpow radix2 (-23)) with (/ 8388608) in *.
  assert (8388608 <= m)%Z as A by (apply le_IZR; lra).
  assert (m < 8388609)%Z as B by (apply lt_IZR; lra). assert (m = 8388608)%Z as -> by lia. lra.
Qed.
Lemma ln_pos y : 1 <= y -> rnd32 y <> 1 -> / 16777216 <= rnd64 (ln (rnd32 y)).
Proof.
  intros Y N. pose proof (above_one y Y N) as A.
  assert (rnd64 (/ 16777216) = / 16777216) as <-. { change (/ 16777216) with (bpow radix2 (-24)). rewrite <- (Rmult_1_l (bpow radix2 (-24))). apply (rnd64_dyadic 1 (-24)); [reflexivity|lia]. }
  apply rnd64_le. apply Rle_trans with (ln (1 + / 8388608)); [|apply ln_mono; lra].
  pose proof (ln_lower (/ 8388608) ltac:(lra)) as L. eapply Rle_trans; [|exact L]. lra.
Qed.
Definition ratio (c : cal) (rad : R) : R := fadd (fdiv (c_k1 c) rad) 1.
Definition kelvin (c : cal) (x : R) : R := rnd32 (rnd64 (rnd64 (c_k2 c / rnd64 (ln x)) * 100)).
Lemma ratio_pos c rad : 0 < c_k1 c -> 0 < rad -> 1 <= ratio c rad /\ (ratio c rad <> 1 -> / 16777216 <= rnd64 (ln (ratio c rad))).
Proof.
  intros K1 P. assert (1 <= fdiv (c_k1 c) rad + 1) as Y. { assert (0 <= fdiv (c_k1 c) rad); [|lra]. apply rnd32_nonneg. apply Rlt_le, Rdiv_lt_0_compat; auto. }
  split; [|apply ln_pos; auto]. unfold ratio, fadd. rewrite <- rnd32_1 at 1. apply rnd32_le; auto.
Qed.
Lemma kelvin_nonneg c rad : 0 < c_k1 c -> 0 < c_k2 c -> 0 < rad -> ratio c rad <> 1 -> 0 <= kelvin c (ratio c rad).
Proof.
  intros K1 K2 P N. destruct (ratio_pos c rad K1 P) as (_ & L). specialize (L N).
  unfold kelvin. apply rnd32_nonneg, rnd64_nonneg. apply Rmult_le_pos; [|lra]. apply rnd64_nonneg. apply Rlt_le, Rdiv_lt_0_compat; lra.
Qed.
Lemma temperature_form c rad : 0 < c_k1 c -> 0 < c_k2 c -> 0 < rad ->
  temperature c rad = Ret (if Req_bool (ratio c rad) 1 then 32767%Z else Z.min 32767 (Ztrunc (kelvin c (ratio c rad)))).
Proof.
  intros K1 K2 P. unfold temperature. fold (ratio c rad). fold (kelvin c (ratio c rad)). rewrite Req_bool_false by lra.
  destruct (ratio_pos c rad K1 P) as (X & _). rewrite Rlt_bool_false by lra. rewrite Req_bool_false by lra.
  destruct (Req_bool_spec (ratio c rad) 1) as [E | E]; auto. pose proof (kelvin_nonneg c rad K1 K2 P E) as T. set (t := kelvin c (ratio c rad)) in *.
  rewrite Ztrunc_floor by auto. pose proof (Zfloor_lb t) as F1. pose proof (Zfloor_ub t) as F2. assert (0 <= Zfloor t)%Z as F3 by (apply Zfloor_lub; auto).
  destruct (Rlt_bool_spec t 32767) as [L | L].
  - assert (Zfloor t < 32767)%Z by (apply lt_IZR; lra). rewrite short_of_ok; rewrite Ztrunc_floor by auto; [|lia]. f_equal. lia.
  - assert (32767 <= Zfloor t)%Z by (apply Zfloor_lub; lra). f_equal. lia.
Qed.
Lemma ratio_anti c rad rad' : 0 < c_k1 c -> 0 < rad -> rad <= rad' -> ratio c rad' <= ratio c rad.
Proof.
  intros K P L. unfold ratio, fadd, fdiv. apply rnd32_le, Rplus_le_compat_r, rnd32_le. apply Rmult_le_compat_l; [lra|]. apply Rinv_le_contravar; auto.
Qed.
Lemma kelvin_anti c x y : 0 < c_k2 c -> 0 < x <= y -> 0 < rnd64 (ln x) -> kelvin c y <= kelvin c x.
Proof.
  intros K L P. unfold kelvin. apply rnd32_le, rnd64_le, Rmult_le_compat_r; [lra|]. apply rnd64_le. apply Rmult_le_compat_l; [lra|].
  apply Rinv_le_contravar; auto. apply rnd64_le, ln_mono; lra.
Qed.
Lemma temperature_mono c rad rad' : 0 < c_k1 c -> 0 < c_k2 c -> 0 < rad -> rad <= rad' ->
  exists v v', temperature c rad = Ret v /\ temperature c rad' = Ret v' /\ (0 <= v <= v' /\ v' <= 32767)%Z.
Proof.
  intros K1 K2 P L. rewrite !temperature_form by lra. eexists. eexists. split; [reflexivity|]. split; [reflexivity|].
  pose proof (ratio_anti c rad rad' K1 P L) as RA. destruct (ratio_pos c rad K1 P) as (X & _). destruct (ratio_pos c rad' K1 ltac:(lra)) as (X' & LP).
  assert (forall r, 0 < r -> ratio c r <> 1 -> (0 <= Ztrunc (kelvin c (ratio c r)))%Z) as NN.
  { intros r R N. rewrite <- (Ztrunc_IZR 0). apply Ztrunc_le. apply kelvin_nonneg; auto. }
  destruct (Req_bool_spec (ratio c rad') 1) as [E' | E'].
  - destruct (Req_bool_spec (ratio c rad) 1) as [E | E]; [lia|]. specialize (NN rad P E). lia.
  - destruct (Req_bool_spec (ratio c rad) 1) as [E | E]; [exfalso; apply E'; lra|]. specialize (NN rad P E).
    assert (Ztrunc (kelvin c (ratio c rad)) <= Ztrunc (kelvin c (ratio c rad')))%Z; [|lia]. apply Ztrunc_le. apply kelvin_anti; [auto|lra|]. specialize (LP E'). lra.
Qed.
(** Accuracy: the Planck temperature in hundredths of a Kelvin, below 327.66 K. *)
Lemma ratio_close c rad : 0 < rad -> 1 <= c_k1 c / rad <= 10000 -> Rabs (ratio c rad - (c_k1 c / rad + 1)) <= / 8000000 * (c_k1 c / rad + 1).
Proof.
  intros P B. set (y := c_k1 c / rad) in *. unfold ratio, fadd, fdiv. fold y.
  assert (bpow radix2 (-120) <= 1) as S by (change 1 with (bpow radix2 0); apply bpow_le; lia).
  pose proof (rnd32_rel y ltac:(rewrite Rabs_pos_eq; lra)) as E1. rewrite (Rabs_pos_eq y) in E1 by lra. apply Rabs_le_inv in E1. set (u := rnd32 y) in *.
  assert (1 <= u) as U by (unfold u; rewrite <- rnd32_1; apply rnd32_le; lra).
  pose proof (rnd32_rel (u + 1) ltac:(rewrite Rabs_pos_eq; lra)) as E2. rewrite (Rabs_pos_eq (u + 1)) in E2 by lra. apply Rabs_le_inv in E2.
  apply Rabs_le. lra.
Qed.
Lemma temperature_close c rad : 0 < c_k1 c -> 0 < c_k2 c <= 3000 -> 0 < rad -> 1 <= c_k1 c / rad <= 10000 ->
  100 * c_k2 c / ln (c_k1 c / rad + 1) <= 32766 ->
  exists v, temperature c rad = Ret v /\ Rabs (IZR v - 100 * c_k2 c / ln (c_k1 c / rad + 1)) <= 11 / 10.
Proof.
  intros K1 K2 P B T0. pose proof (ratio_close c rad P B) as E0. rewrite temperature_form by lra.
  set (x := ratio c rad) in *. set (x0 := c_k1 c / rad + 1) in *. assert (2 <= x0) as X0 by (unfold x0; lra). apply Rabs_le_inv in E0.
  assert (1 / 2 <= ln 2) as L2. { pose proof (ln_lower 1 ltac:(lra)) as H. replace (1 + 1) with 2 in H by lra. lra. }
  assert (ln 2 <= ln x0) as LX by (apply ln_mono; lra).
  (* the logarithm *)
  assert (Rabs (ln x - ln x0) <= / 7000000) as EL.
  { set (d := (x - x0) / x0). assert (x = x0 * (1 + d)) as EX by (unfold d; field; lra).
    assert (Rabs d <= / 8000000) as D.
    { unfold d. unfold Rdiv. rewrite Rabs_mult, (Rabs_pos_eq (/ x0)) by (apply Rlt_le, Rinv_0_lt_compat; lra).
      apply (Rmult_le_reg_r x0); [lra|]. rewrite Rmult_assoc, Rinv_l, Rmult_1_r by lra. apply Rabs_le. lra. }
    apply Rabs_le_inv in D. rewrite EX, ln_mult by lra. replace (ln x0 + ln (1 + d) - ln x0) with (ln (1 + d)) by ring.
    pose proof (ln_upper d ltac:(lra)) as U.
    assert (- (/ 7000000) <= ln (1 + d)) as W.
    { destruct (Rle_lt_dec 0 d) as [G | G].
      - apply Rle_trans with 0; [lra|]. rewrite <- ln_1. apply ln_mono; lra.
      - pose proof (ln_upper (- d / (1 + d))) as V. assert (-1 < - d / (1 + d)) as V0. { apply (Rmult_lt_reg_r (1 + d)); [lra|]. unfold Rdiv. rewrite Rmult_assoc, Rinv_l by lra. lra. }
        specialize (V V0). replace (1 + - d / (1 + d)) with (/ (1 + d)) in V by (field; lra). rewrite ln_Rinv in V by lra.
        assert (- d / (1 + d) <= / 7000000). { apply (Rmult_le_reg_r (1 + d)); [lra|]. unfold Rdiv. rewrite Rmult_assoc, Rinv_l by lra. lra. }
        lra. }
    apply Rabs_le. lra. }
  apply Rabs_le_inv in EL. set (w0 := ln x0) in *. set (w1 := ln x) in *.
  assert (w0 <= 100000) as W0. { unfold w0. replace x0 with (1 + (x0 - 1)) by ring. eapply Rle_trans; [apply ln_upper; lra|]. unfold x0. lra. }
  assert (1 <= x) as X1 by lra.
  assert (x <> 1) as XN by lra.
  rewrite Req_bool_false by auto.
  (* the rounded logarithm *)
  assert (bpow radix2 (-1000) <= / 4) as S. { change (/ 4) with (bpow radix2 (-2)). apply bpow_le; lia. }
  assert (/ 4 <= w1) as W1 by lra.
  pose proof (rnd64_rel w1 ltac:(rewrite Rabs_pos_eq; lra)) as E1. rewrite (Rabs_pos_eq w1) in E1 by lra. apply Rabs_le_inv in E1.
  unfold kelvin. fold w1. set (w := rnd64 w1) in *.
  assert (Rabs (w - w0) <= / 6900000) as EW by (apply Rabs_le; lra). apply Rabs_le_inv in EW.
  (* the quotient *)
  set (k := c_k2 c) in *. assert (k / w0 <= 328) as Q0. { replace (100 * k / w0) with (100 * (k / w0)) in T0 by (field; lra). lra. }
  assert (0 < k / w0) as Q1 by (apply Rdiv_lt_0_compat; lra).
  assert (Rabs (k / w - k / w0) <= / 9000) as EQ.
  { replace (k / w - k / w0) with (k / w0 * ((w0 - w) / w)) by (field; lra). rewrite Rabs_mult, (Rabs_pos_eq (k / w0)) by lra.
    assert (Rabs ((w0 - w) / w) <= / 3000000) as Z.
    { unfold Rdiv. rewrite Rabs_mult, (Rabs_pos_eq (/ w)) by (apply Rlt_le, Rinv_0_lt_compat; lra).
      apply (Rmult_le_reg_r w); [lra|]. rewrite Rmult_assoc, Rinv_l, Rmult_1_r by lra. apply Rabs_le. lra. }
    pose proof (Rabs_pos ((w0 - w) / w)). set (z := Rabs ((w0 - w) / w)) in *. set (qq := k / w0) in *. clearbody z qq. clear - Q0 Q1 Z H. nra. }
  apply Rabs_le_inv in EQ. set (qt := k / w) in *. set (q0 := k / w0) in *.
  pose proof (rnd64_err qt 330 ltac:(lra) ltac:(apply Rabs_le; lra)) as E2. apply Rabs_le_inv in E2. set (r2 := rnd64 qt) in *.
  pose proof (rnd64_err (r2 * 100) 33100 ltac:(lra) ltac:(apply Rabs_le; lra)) as E3. apply Rabs_le_inv in E3. set (r3 := rnd64 (r2 * 100)) in *.
  pose proof (rnd32_err r3 33200 ltac:(lra) ltac:(apply Rabs_le; lra)) as E4. apply Rabs_le_inv in E4. set (t := rnd32 r3) in *.
  replace (100 * k / w0) with (100 * q0) in * by (unfold q0; field; lra).
  assert (0 <= t) as T.
  { unfold t, r3, r2. apply rnd32_nonneg, rnd64_nonneg, Rmult_le_pos; [|lra]. apply rnd64_nonneg. unfold qt. apply Rlt_le, Rdiv_lt_0_compat; lra. }
  eexists. split; [reflexivity|]. rewrite Ztrunc_floor by auto. pose proof (Zfloor_lb t) as F1. pose proof (Zfloor_ub t) as F2.
  assert (Zfloor t < 32768)%Z as F3 by (apply lt_IZR; lra). replace (Z.min 32767 (Zfloor t)) with (Zfloor t) by lia. apply Rabs_le. lra.
Qed.

(** ** Coarse grid *)
Lemma floor_quotient a b : (0 <= a < 1000000000000)%Z -> (0 < b < 1000000000000)%Z -> Zfloor (rnd64 (IZR a / IZR b)) = (a / b)%Z /\ Zceil (rnd64 (IZR a / IZR b)) = (- (- a / b))%Z.
Proof.
  intros A B. assert (0 < IZR b) as PB by (apply IZR_lt; lia). assert (0 <= IZR a) as PA by (apply IZR_le; lia).
  assert (IZR a < 1000000000000) as UA by (apply IZR_lt; lia). assert (IZR b < 1000000000000) as UB by (apply IZR_lt; lia).
  assert (1 <= IZR b) as B1 by (apply IZR_le; lia).
  assert (0 < / IZR b) as PI by (apply Rinv_0_lt_compat; auto). assert (IZR b * / IZR b = 1) as BI by (apply Rinv_r; lra).
  assert (Rabs (rnd64 (IZR a / IZR b) - IZR a / IZR b) < / IZR b) as E.
  { destruct (Rle_lt_dec 1 (IZR a / IZR b)) as [G | G].
    - eapply Rle_lt_trans; [apply (rnd64_err _ (IZR a / IZR b)); [auto|rewrite Rabs_pos_eq; lra]|]. unfold Rdiv. set (u := / IZR b) in *. nra.
    - eapply Rle_lt_trans; [apply (rnd64_err _ 1); [lra|]|].
      + rewrite Rabs_pos_eq; [lra|]. apply Rmult_le_pos; lra.
      + apply (Rmult_lt_reg_r (IZR b)); auto. rewrite Rinv_l by lra. lra. }
  apply Rabs_def2 in E. set (u := / IZR b) in *. unfold Rdiv in *. fold u in E |- *.
  assert (forall n, (n * b <= a)%Z -> IZR n <= IZR a * u) as LO.
  { intros n H. apply (Rmult_le_reg_r (IZR b)); auto. rewrite Rmult_assoc, (Rmult_comm u), BI, Rmult_1_r, <- mult_IZR. apply IZR_le; auto. }
  assert (forall n, (a <= n * b)%Z -> IZR a * u <= IZR n) as HI.
  { intros n H. apply (Rmult_le_reg_r (IZR b)); auto. rewrite Rmult_assoc, (Rmult_comm u), BI, Rmult_1_r, <- mult_IZR. apply IZR_le; auto. }
  assert (forall n, (n * b < a)%Z -> IZR n + u <= IZR a * u) as LO1.
  { intros n H. apply (Rmult_le_reg_r (IZR b)); auto. rewrite Rmult_assoc, Rmult_plus_distr_r, (Rmult_comm u), BI, Rmult_1_r, <- mult_IZR, <- plus_IZR. apply IZR_le; lia. }
  assert (forall n, (a < n * b)%Z -> IZR a * u <= IZR n - u) as HI1.
  { intros n H. apply (Rmult_le_reg_r (IZR b)); auto. rewrite Rmult_assoc, Rmult_minus_distr_r, (Rmult_comm u), BI, Rmult_1_r, <- mult_IZR, <- minus_IZR. apply IZR_le; lia. }
  assert (forall n, (0 <= n < 1000000000000)%Z -> rnd64 (IZR n) = IZR n) as XI by (intros n H; apply rnd64_int; lia).
  assert (0 <= a / b)%Z as QP by (apply Z.div_pos; lia).
  assert (a / b <= a)%Z as QL by (apply Z.div_le_upper_bound; nia).
  pose proof (Z.div_mod a b ltac:(lia)) as DM. pose proof (Z.mod_pos_bound a b ltac:(lia)) as MB.
  split.
  - apply Zfloor_imp. split.
    + rewrite <- (XI (a / b)%Z) by lia. apply rnd64_le. apply LO. nia.
    + specialize (HI1 (a / b + 1)%Z ltac:(nia)). lra.
  - destruct (Z.eq_dec (a mod b) 0) as [Z0 | NZ].
    + assert (- a / b = - (a / b))%Z as -> by (symmetry; apply Z.div_unique_exact; nia). rewrite Z.opp_involutive.
      replace (IZR a * u) with (IZR (a / b)). * rewrite XI by lia. apply Zceil_IZR.
      * apply Rle_antisym; [apply LO; nia|apply HI; nia].
    + assert (- a / b = - (a / b) - 1)%Z as -> by (symmetry; apply Z.div_unique with (b - a mod b)%Z; nia).
      replace (- (- (a / b) - 1))%Z with (a / b + 1)%Z by lia. apply Zceil_imp. replace (a / b + 1 - 1)%Z with (a / b)%Z by lia. split.
      * specialize (LO1 (a / b)%Z ltac:(nia)). lra.
      * rewrite <- (XI (a / b + 1)%Z); [apply rnd64_le; apply HI; nia|]. assert (a / b < a)%Z; [|lia]. assert (b <> 1)%Z by (intros ->; rewrite Z.mod_1_r in NZ; lia).
        apply Z.div_lt; lia.
Qed.
