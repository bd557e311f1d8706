(** Proofs about the stored value in the arithmetic of the machine. *)
From Coq Require Import Reals Lra Lia.
From Flocq Require Import Core.
From Verif Require Import Base BaseFacts RoundModel RoundFacts RadModel RadSurface.
#[local] Open Scope R_scope.

Lemma stored_near t : in_short t -> Rabs (rnd64 (rnd32 (rnd64 (IZR t / 10000)) * 10000) - IZR t) <= 0.004.
Proof.
  intros (L & H). apply IZR_le in L, H. set (a := IZR t / 10000) in *. assert (Rabs a <= 4) as A by (apply Rabs_le; unfold a; lra).
  pose proof (rnd64_err a 4 ltac:(lra) A) as E1. set (b := rnd64 a) in *. apply Rabs_le_inv in E1, A.
  assert (Rabs b <= 5) as B by (apply Rabs_le; lra). pose proof (rnd32_err b 5 ltac:(lra) B) as E2. set (c := rnd32 b) in *. apply Rabs_le_inv in E2, B.
  assert (Rabs (c * 10000) <= 60000) as C by (apply Rabs_le; lra). pose proof (rnd64_err (c * 10000) 60000 ltac:(lra) C) as E3. set (d := rnd64 (c * 10000)) in *. apply Rabs_le_inv in E3.
  unfold a in *. apply Rabs_le. lra.
Qed.
Lemma stored_close t : in_short t -> (Z.abs (stored_toa t - t) <= 1)%Z.
Proof.
  intros H. pose proof (stored_near t H) as E. unfold stored_toa. set (y := rnd64 _) in *. clearbody y. apply Rabs_le_inv in E. destruct (trunc_near y) as (N & _). apply Rabs_def2 in N. set (z := Ztrunc y) in *. clearbody z.
  assert (IZR (z - t) < IZR 2) as A by (rewrite minus_IZR; lra). assert (IZR (-2) < IZR (z - t)) as B by (rewrite minus_IZR; lra). apply lt_IZR in A, B. lia.
Qed.
Lemma stored_zero : stored_toa 0 = 0%Z.
Proof. unfold stored_toa. replace (0 / 10000) with 0 by lra. rewrite rnd64_0, rnd32_0, Rmult_0_l, rnd64_0. apply Ztrunc_IZR. Qed.
Lemma stored_one : stored_toa 1 = 0%Z.
Proof.
  unfold stored_toa. pose proof (rnd64_err (1 / 10000) 1 ltac:(lra) ltac:(apply Rabs_le; lra)) as E. set (y := rnd64 (1 / 10000)) in *. clearbody y. apply Rabs_le_inv in E.
  assert (rnd32 y = 13743895 * bpow radix2 (-37)) as ->.
  { unfold rnd32, round, F2R. cbn [Fnum Fexp]. unfold scaled_mantissa, cexp.
    assert (mag radix2 y = (-13)%Z :> Z) as ->. { apply mag_unique_pos. cbn. lra. }
    change (FLT_exp (-149) 24 (-13)) with (-37)%Z. assert (ZnearestE (y * bpow radix2 (- (-37))) = 13743895%Z) as ->; [|reflexivity].
    apply Znearest_imp. apply Rabs_def1; cbn; lra. }
  set (z := 13743895 * bpow radix2 (-37) * 10000). assert (0 <= z <= 0.99999999) as Z. { unfold z. cbn. lra. }
  assert (Rabs z <= 1) as ZA by (apply Rabs_le; lra). pose proof (rnd64_err z 1 ltac:(lra) ZA) as F. assert (0 <= rnd64 z) as P. { rewrite <- rnd64_0. apply rnd64_le. lra. }
  apply Rabs_le_inv in F. rewrite Ztrunc_floor by auto. apply Zfloor_imp. cbn. lra.
Qed.
