(** Concrete images for PsfProps.v. *)
From Coq Require Import Reals Lra Lia ZifyBool.
From Flocq Require Import Core.
From Verif Require Import Base BaseFacts Loops LoopsFacts ChunkProofs BapComposite RoundModel RoundFacts L1Model L1Cal PsfModel PsfSpec PsfProofs PsfKernel PsfReduce.
#[local] Open Scope R_scope.

Lemma in_2 p : (0 <= p < 2)%Z -> p = 0%Z \/ p = 1%Z.
Proof. lia. Qed.

(** Two by two pixels with the same value. *)
Section Const2.
Context (c nodata : Z) (CR : (-32768 <= c <= 32767)%Z) (C1 : (1 <= Z.abs c)%Z) (CN : c <> nodata).
Notation hr := [c; c; c; c].
Lemma const_image : image16 hr 2 2.
Proof. split; [reflexivity|]. repeat constructor; lia. Qed.
Lemma const_value a b v : value hr 2 2 nodata a b v -> v = c.
Proof.
  intros (A & B & G & _). apply in_2 in A, B. destruct A as [-> | ->], B as [-> | ->]; vm_compute in G; congruence.
Qed.
Lemma const_gauss s p : IZR 2 / 3 <= s <= IZR 2 -> (0 <= p < 4)%Z ->
  exists q, gauss_pixel hr 2 2 nodata 5 (kernel_at 5 s) p = Ret (rnd32 (rnd64 q)) /\ Rabs (q - IZR c / 10000) <= Rabs (IZR c) / 100000000000000.
Proof.
  intros S P. assert (1 <= Rabs (IZR c) <= 32768) as CA by (rewrite <- abs_IZR; split; apply IZR_le; lia).
  assert (get_at hr p = Some c) as G. { assert (p = 0 \/ p = 1 \/ p = 2 \/ p = 3)%Z as [-> | [-> | [-> | ->]]] by lia; reflexivity. }
  destruct (gauss_pixel_ok hr 2 2 nodata 2 s p c (IZR c / 10000) (IZR c / 10000) (Rabs (IZR c) / 10000) const_image ltac:(lia) S ltac:(lia) ltac:(lia) G CN) as (q & _ & _ & E & Q & _).
  - lra.
  - intros x y w V _ _. rewrite (const_value _ _ _ V). unfold Rdiv. rewrite Rabs_mult, (Rabs_pos_eq (/ 10000)) by lra. lra.
  - intros x y w V _ _. rewrite (const_value _ _ _ V). lra.
  - exists q. split; [exact E|]. cbv zeta in Q. change (IZR ((2 * 2 + 1) * (2 * 2 + 1))) with 25 in Q. apply Rabs_le. lra.
Qed.
Lemma const_smooth s g : IZR 2 / 3 <= s <= IZR 2 -> (forall q, Rabs (q - IZR c / 10000) <= Rabs (IZR c) / 100000000000000 -> rnd32 (rnd64 q) = g) ->
  omap (gauss_pixel hr 2 2 nodata 5 (kernel_at 5 s)) (zupto (2 * 2)) = Ret [g; g; g; g].
Proof.
  intros S H. assert (forall p, (0 <= p < 4)%Z -> gauss_pixel hr 2 2 nodata 5 (kernel_at 5 s) p = Ret g) as A.
  { intros p P. destruct (const_gauss s p S P) as (q & E & Q). rewrite E, (H q Q). auto. }
  change (zupto (2 * 2)) with [0; 1; 2; 3]%Z. cbn [omap]. rewrite !A by lia. reflexivity.
Qed.
End Const2.

Lemma width_2 : kernel_width (IZR 2) = 5%Z.
Proof. apply (width_whole 2). lia. Qed.
Lemma ratio_2 : ratio 2 1 = IZR 2.
Proof. apply (ratio_whole 2 1); lia. Qed.
Lemma sigma_2 : exists s, find_sigma (rounds 2) (IZR 2) = Some s /\ IZR 2 / 3 <= s <= IZR 2.
Proof. destruct (sigma_found (rounds 2) 2 (IZR 2) ltac:(lia) ltac:(lra) ltac:(lia)) as (s & E & S & _). eauto. Qed.

Lemma edge_2 a : (0 <= a <= 2)%Z -> edge (IZR 2) 0 a = IZR a / 2.
Proof.
  intros A. unfold edge, fsub, fdiv. rewrite !float_small by lia. rewrite rnd32_half by lia. replace (IZR a / 2 - IZR 0) with (IZR a / 2) by lra. apply rnd32_half. lia.
Qed.
Lemma share_2 a : (0 <= a <= 1)%Z -> share (IZR 2) 0 a = IZR 1 / 2.
Proof.
  intros A. unfold share, cap1, cap0, fsub. rewrite !edge_2 by lia. assert (a = 0 \/ a = 1)%Z as [-> | ->] by lia.
  - change (0 + 1)%Z with 1%Z. rewrite !Rlt_bool_false by lra. replace (1 / 2 - 0 / 2) with (IZR 1 / 2) by lra. apply rnd32_half. lia.
  - change (1 + 1)%Z with 2%Z. rewrite !Rlt_bool_false by lra. replace (2 / 2 - 1 / 2) with (IZR 1 / 2) by lra. apply rnd32_half. lia.
Qed.
Lemma weight_2 a b : (0 <= a <= 1)%Z -> (0 <= b <= 1)%Z -> fmul (share (IZR 2) 0 a) (share (IZR 2) 0 b) = IZR 1 * bpow radix2 (-2).
Proof.
  intros A B. rewrite !share_2 by auto. unfold fmul. replace (IZR 1 / 2 * (IZR 1 / 2)) with (IZR 1 * bpow radix2 (-2)) by (change (bpow radix2 (-2)) with (/ 4); lra).
  apply rnd32_dyadic; lia.
Qed.
Lemma pairs_2 : pairs 2 2 = [(0, 0); (0, 1); (1, 0); (1, 1)]%Z.
Proof. reflexivity. Qed.
Lemma floor_0 k : Zfloor (fmul (float_of 0) (IZR k)) = 0%Z.
Proof. unfold fmul. rewrite float_small by lia. rewrite Rmult_0_l, rnd32_0. apply (Zfloor_IZR 0). Qed.

(** The average of four equal numbers m * 2^e. *)
Lemma average_2 m e nodata : (0 < m < 2 ^ 24)%Z -> (-140 <= e <= 0)%Z -> IZR m * bpow radix2 e <> float_of nodata ->
  let g := IZR m * bpow radix2 e in
  reduced_pixel [g; g; g; g] 2 2 nodata 1 (IZR 2) 0 = short_of (rnd64 (rnd64 (g / 1) * 10000)).
Proof.
  intros M E NG g. unfold reduced_pixel. rewrite Zceil_IZR, pairs_2. change (0 / 1)%Z with 0%Z. change (0 mod 1)%Z with 0%Z.
  assert (forall x, x = g -> Req_bool x (float_of nodata) = false) as NB by (intros x ->; apply Req_bool_false; auto).
  assert (forall n, (1 <= n <= 4)%Z -> rnd64 (IZR (m * n) * bpow radix2 (e - 2)) = IZR (m * n) * bpow radix2 (e - 2)) as D by (intros n Hn; apply rnd64_dyadic; [assert (m * n <= m * 4)%Z by (apply Z.mul_le_mono_nonneg_l; lia); assert (0 <= m * n)%Z by (apply Z.mul_nonneg_nonneg; lia); lia|lia]).
  assert (forall n, (1 <= n <= 4)%Z -> rnd64 (IZR n * bpow radix2 (-2)) = IZR n * bpow radix2 (-2)) as DN by (intros n Hn; apply rnd64_dyadic; lia).
  assert (fmul g (IZR 1 * bpow radix2 (-2)) = IZR (m * 1) * bpow radix2 (e - 2)) as FW.
  { unfold fmul, g. replace (IZR m * bpow radix2 e * (IZR 1 * bpow radix2 (-2))) with (IZR (m * 1) * bpow radix2 (e - 2)).
    - apply rnd32_dyadic; lia.
    - unfold Z.sub. rewrite bpow_plus, Z.mul_1_r. change (bpow radix2 (- (2))) with (bpow radix2 (-2)). ring. }
  cbn [aggregate]. rewrite !floor_0.
  change ((2 <=? 0 + 0) || (2 <=? 0 + 0))%Z with false. change ((2 <=? 0 + 0) || (2 <=? 0 + 1))%Z with false. change ((2 <=? 0 + 1) || (2 <=? 0 + 0))%Z with false. change ((2 <=? 0 + 1) || (2 <=? 0 + 1))%Z with false.
  change (get_at [g; g; g; g] ((0 + 0) * 2 + (0 + 0))) with (Some g). change (get_at [g; g; g; g] ((0 + 0) * 2 + (0 + 1))) with (Some g).
  change (get_at [g; g; g; g] ((0 + 1) * 2 + (0 + 0))) with (Some g). change (get_at [g; g; g; g] ((0 + 1) * 2 + (0 + 1))) with (Some g).
  cbn [of_option bind]. rewrite NB by auto. rewrite !weight_2 by lia. rewrite FW.
  replace (0 + IZR (m * 1) * bpow radix2 (e - 2)) with (IZR (m * 1) * bpow radix2 (e - 2)) by ring. rewrite (D 1%Z) by lia.
  replace (0 + IZR 1 * bpow radix2 (-2)) with (IZR 1 * bpow radix2 (-2)) by ring. rewrite (DN 1%Z) by lia.
  assert (forall n, (1 <= n <= 3)%Z -> rnd64 (IZR (m * n) * bpow radix2 (e - 2) + IZR (m * 1) * bpow radix2 (e - 2)) = IZR (m * (n + 1)) * bpow radix2 (e - 2)) as ST.
  { intros n Hn. rewrite <- Rmult_plus_distr_r, <- plus_IZR. replace (m * n + m * 1)%Z with (m * (n + 1))%Z by ring. apply D. lia. }
  assert (forall n, (1 <= n <= 3)%Z -> rnd64 (IZR n * bpow radix2 (-2) + IZR 1 * bpow radix2 (-2)) = IZR (n + 1) * bpow radix2 (-2)) as SN.
  { intros n Hn. rewrite <- Rmult_plus_distr_r, <- plus_IZR. apply DN. lia. }
  rewrite (ST 1%Z), (SN 1%Z) by lia. change (1 + 1)%Z with 2%Z. rewrite (ST 2%Z), (SN 2%Z) by lia. change (2 + 1)%Z with 3%Z. rewrite (ST 3%Z), (SN 3%Z) by lia. change (3 + 1)%Z with 4%Z.
  cbn [bind fst snd]. replace (IZR 4 * bpow radix2 (-2)) with 1 by (change (bpow radix2 (-2)) with (/ 4); lra). rewrite Rlt_bool_true by lra.
  replace (IZR (m * 4) * bpow radix2 (e - 2)) with g; [reflexivity|]. unfold g, Z.sub. rewrite bpow_plus, mult_IZR. change (bpow radix2 (-(2))) with (/ 4). field.
Qed.

(** ** The value 1 becomes 0 *)
Lemma one_becomes_zero : reduce_psf (rounds 2) [1; 1; 1; 1]%Z 2 2 1 1 (-9999) = Ret (Some [0%Z]).
Proof.
  unfold reduce_psf. rewrite ratio_2, width_2. destruct sigma_2 as (s & -> & S).
  set (g := IZR 13743895 * bpow radix2 (-37)). assert (g = 13743895 / 137438953472) as GV. { unfold g. change (bpow radix2 (-37)) with (/ 137438953472). reflexivity. }
  rewrite (const_smooth 1 (-9999) ltac:(lia) ltac:(lia) ltac:(lia) s g S).
  - cbn [bind]. change (zupto (1 * 1)) with [0%Z]. cbn [omap]. unfold g. rewrite average_2; [|lia|lia|fold g; rewrite GV, float_small by lia; lra].
    fold g. replace (g / 1) with g by field. assert (rnd64 g = g) as ->. { apply rnd64_dyadic; lia. }
    replace (g * 10000) with (IZR (13743895 * 10000) * bpow radix2 (-37)) by (unfold g; rewrite mult_IZR; ring). rewrite rnd64_dyadic by lia.
    assert (Ztrunc (IZR (13743895 * 10000) * bpow radix2 (-37)) = 0%Z) as T. { change (bpow radix2 (-37)) with (/ 137438953472). change (13743895 * 10000)%Z with 137438950000%Z. rewrite Ztrunc_floor by lra. apply Zfloor_imp. change (0 + 1)%Z with 1%Z. lra. }
    unfold short_of. rewrite T. reflexivity.
  - intros q Q. rewrite (Rabs_pos_eq 1) in Q by lra. apply Rabs_le_inv in Q.
    assert (Rabs (rnd64 q - q) <= / 1000000000000000000) as E.
    { eapply Rle_trans; [apply rnd64_rel|]. { eapply Rle_trans; [apply (bpow_le radix2 (-1000) (-20)); lia|]. change (bpow radix2 (-20)) with (/ 1048576). rewrite Rabs_pos_eq; lra. } rewrite Rabs_pos_eq; lra. }
    apply Rabs_le_inv in E. unfold g. apply rnd32_near; try lia. change (bpow radix2 (-37)) with (/ 137438953472). apply Rabs_lt. lra.
Qed.

(** ** A nodata value that is also a reflectance *)
Lemma ones_are_lost : reduce_psf (rounds 2) [10000; 10000; 10000; 10000]%Z 2 2 1 1 1 = Ret (Some [1%Z]).
Proof.
  unfold reduce_psf. rewrite ratio_2, width_2. destruct sigma_2 as (s & -> & S).
  rewrite (const_smooth 10000 1 ltac:(lia) ltac:(lia) ltac:(lia) s 1 S).
  - cbn [bind]. change (zupto (1 * 1)) with [0%Z]. cbn [omap].
    assert (reduced_pixel [1; 1; 1; 1] 2 2 1 1 (IZR 2) 0 = Ret 1%Z) as ->; [|reflexivity].
    unfold reduced_pixel. rewrite Zceil_IZR, pairs_2. change (0 / 1)%Z with 0%Z. change (0 mod 1)%Z with 0%Z.
    assert (Req_bool 1 (float_of 1) = true) as NB by (rewrite float_small by lia; apply Req_bool_true; auto).
    cbn [aggregate]. rewrite !floor_0.
    change ((2 <=? 0 + 0) || (2 <=? 0 + 0))%Z with false. change ((2 <=? 0 + 0) || (2 <=? 0 + 1))%Z with false. change ((2 <=? 0 + 1) || (2 <=? 0 + 0))%Z with false. change ((2 <=? 0 + 1) || (2 <=? 0 + 1))%Z with false.
    change (get_at [1; 1; 1; 1] ((0 + 0) * 2 + (0 + 0))) with (Some 1). change (get_at [1; 1; 1; 1] ((0 + 0) * 2 + (0 + 1))) with (Some 1).
    change (get_at [1; 1; 1; 1] ((0 + 1) * 2 + (0 + 0))) with (Some 1). change (get_at [1; 1; 1; 1] ((0 + 1) * 2 + (0 + 1))) with (Some 1).
    cbn [of_option bind]. rewrite NB. cbn [bind fst snd]. rewrite Rlt_bool_false by lra. reflexivity.
  - intros q Q. rewrite (Rabs_pos_eq 10000) in Q by lra. apply Rabs_le_inv in Q.
    assert (Rabs (rnd64 q - q) <= 2 / 1000000000000) as E. { apply rnd64_err; [lra|]. apply Rabs_le. lra. }
    apply Rabs_le_inv in E. set (x := rnd64 q) in *.
    assert (generic_format radix2 (FLT_exp (-149) 24) 1) as F1 by (rewrite <- rnd32_1; apply generic_format_round; typeclasses eauto).
    assert (generic_format radix2 (FLT_exp (-149) 24) (rnd32 x)) as Fx by (apply generic_format_round; typeclasses eauto).
    assert (Rabs (rnd32 x - x) <= Rabs (1 - x)) as C.
    { destruct (round_N_pt radix2 (FLT_exp (-149) 24) (fun z => negb (Z.even z)) x) as [_ N]. apply (N 1 F1). }
    assert (Rabs (1 - x) <= / 1000000000) as C1 by (apply Rabs_le; lra). apply Rabs_le_inv in C1.
    assert (Rabs (rnd32 x - x) <= / 1000000000) as C2 by (eapply Rle_trans; [exact C|apply Rabs_le; lra]). apply Rabs_le_inv in C2.
    apply Rle_antisym; apply Rnot_lt_le; intros H.
    + assert (succ radix2 (FLT_exp (-149) 24) 1 <= rnd32 x) as SU by (apply succ_le_lt; auto; typeclasses eauto).
      rewrite succ_eq_pos in SU by lra. change 1 with (bpow radix2 0) in SU. rewrite ulp_bpow in SU. unfold FLT_exp in SU. change (Z.max (0 + 1 - 24) (-149)) with (-23)%Z in SU. change (bpow radix2 0) with 1 in SU. change (bpow radix2 (-23)) with (/ 8388608) in SU. lra.
    + assert (rnd32 x <= pred radix2 (FLT_exp (-149) 24) 1) as PR by (apply pred_ge_gt; auto; typeclasses eauto).
      change 1 with (bpow radix2 0) in PR. rewrite pred_bpow in PR. unfold FLT_exp in PR. change (Z.max (0 - 24) (-149)) with (-24)%Z in PR. change (bpow radix2 0) with 1 in PR. change (bpow radix2 (-24)) with (/ 16777216) in PR. lra.
Qed.

(** ** The result depends on the division into chunks *)
Notation wide := [0; 0; 20000; 20000; 0; 0; 20000; 20000]%Z.
Lemma wide_image : image16 wide 4 2.
Proof. split; [reflexivity|]. repeat constructor; lia. Qed.
Lemma wide_value a b v : value wide 4 2 (-9999) a b v -> (0 <= v <= 20000)%Z /\ ((2 <= b)%Z -> v = 20000%Z).
Proof.
  intros (A & B & G & _). apply in_2 in A. assert (b = 0 \/ b = 1 \/ b = 2 \/ b = 3)%Z as [-> | [-> | [-> | ->]]] by lia; destruct A as [-> | ->]; vm_compute in G; inversion G; lia.
Qed.
Lemma wide_first : exists r0 r1, reduce_psf (rounds 2) wide 4 2 2 1 (-9999) = Ret (Some [r0; r1]) /\ (1 <= r0)%Z.
Proof.
  unfold reduce_psf. assert (ratio 4 2 = IZR 2) as -> by (apply (ratio_whole 2 2); lia). rewrite width_2. destruct sigma_2 as (s & -> & S).
  set (Rel := fun (p : Z) (x : R) => smoothed x 0 2 /\ ((p mod 4 < 2)%Z -> 2 / 10000 <= x)).
  destruct (omap_get (gauss_pixel wide 4 2 (-9999) 5 (kernel_at 5 s)) Rel (zupto (4 * 2))) as (g & Eg & Lg & Hg).
  { intros i p Gp. assert (0 <= p < 4 * 2)%Z as PR by (apply get_at_In in Gp; apply zupto_In in Gp; lia).
    assert (exists v, get_at wide p = Some v /\ v <> (-9999)%Z) as (v & Gv & Nv).
    { destruct wide_image as [WL WF]. destruct (get_at_some wide p) as [v Gv]; [rewrite WL; lia|]. exists v. split; auto.
      assert (Forall (fun v => v <> (-9999)%Z) wide) as F by (repeat constructor; lia). eapply Forall_get_at in F; eauto. }
    destruct (gauss_pixel_ok wide 4 2 (-9999) 2 s p v 0 2 2 wide_image ltac:(lia) S ltac:(lia) ltac:(lia) Gv Nv ltac:(lra)) as (q & s' & K & E & Q & KP & QK & W).
    { intros x y w V _ _. destruct (wide_value _ _ _ V) as [[V1 V2] _]. apply IZR_le in V1, V2. apply Rabs_le. lra. }
    { intros x y w V _ _. destruct (wide_value _ _ _ V) as [[V1 V2] _]. apply IZR_le in V1, V2. lra. }
    cbv zeta in *. change (IZR ((2 * 2 + 1) * (2 * 2 + 1))) with 25 in *.
    assert (Rabs q <= 2.1) as Q4 by (apply Rabs_le; lra). pose proof (rnd64_err q 2.1 ltac:(lra) Q4) as R1. set (x1 := rnd64 q) in *.
    assert (Rabs x1 <= 2.2) as Q5. { apply Rabs_le_inv in R1, Q4. apply Rabs_le. lra. }
    pose proof (rnd32_err x1 2.2 ltac:(lra) Q5) as R2. apply Rabs_le_inv in R1, R2.
    exists (rnd32 x1). split; [exact E|]. split; [unfold smoothed; lra|]. intros PM.
    assert (0 <= p / 4 < 2)%Z as PD. { split; [apply Z.div_pos; lia|]. apply Z.div_lt_upper_bound; lia. }
    assert (0 <= p mod 4 < 4)%Z as PM2 by (apply Z.mod_pos_bound; lia).
    assert (value wide 4 2 (-9999) (p / 4) 2 20000) as V. { split; [lia|]. split; [lia|]. split; [|lia]. apply in_2 in PD. destruct PD as [-> | ->]; reflexivity. }
    specialize (W ltac:(lra) _ _ _ V ltac:(lia) ltac:(lia)). replace (p / 4 - p / 4 + 2)%Z with 2%Z in W by lia.
    pose proof (kernel_lower 5 s 2 (2 - p mod 4 + 2) 5 2 ltac:(lra) ltac:(lra) ltac:(lia)) as KL.
    assert (99 / 100 * / 3 ^ 5 * amp s <= kernel_at 5 s 2 (2 - p mod 4 + 2)) as KL2.
    { apply KL. change ((5 - 1) / 2)%Z with 2%Z. apply Rle_trans with 4; [|simpl INR; lra]. apply IZR_le. assert (p mod 4 = 0 \/ p mod 4 = 1)%Z as [-> | ->] by lia; lia. }
    clear KL. assert (0 < amp s) as AP by (apply amp_pos; lra). pose proof (amp_range s 2 ltac:(lra) ltac:(lra)) as [A1 A2].
    assert (rnd32 (amp s) <= 1.001 * amp s) as AR.
    { pose proof (rnd32_rel (amp s)) as R. rewrite Rabs_pos_eq in R by lra. assert (bpow radix2 (-120) <= amp s) as B. { eapply Rle_trans; [apply (bpow_le radix2 (-120) (-20)); lia|]. change (bpow radix2 (-20)) with (/ 1048576). lra. }
      specialize (R B). apply Rabs_le_inv in R. lra. }
    assert (3 / 10000 <= s' / K) as LOW.
    { apply Rmult_le_reg_r with K; [lra|]. unfold Rdiv at 2. rewrite Rmult_assoc, Rinv_l, Rmult_1_r by lra.
      apply Rle_trans with (3 / 10000 * (1.001 * amp s * 25)); [apply Rmult_le_compat_l; lra|]. replace (3 ^ 5) with 243 in KL2 by ring. change (2 * 2 + 1)%Z with 5%Z in W. lra. }
    apply Rabs_le_inv in QK. lra. }
  rewrite Eg. cbn [bind]. assert (forall a b, (0 <= a < 2)%Z -> (0 <= b < 4)%Z -> exists x, get_at g (a * 4 + b) = Some x /\ smoothed x 0 2 /\ ((b < 2)%Z -> 2 / 10000 <= x)) as Hg'.
  { intros a b A B. destruct (Hg _ _ (get_zupto (4 * 2) (a * 4 + b) ltac:(lia))) as (x & Gx & R1 & R2). exists x. split; auto. split; auto.
    rewrite Z.add_comm, Z.mod_add, Z.mod_small in R2 by lia. auto. }
  assert (forall x, smoothed x 0 2 -> x <> float_of (-9999)) as NN. { intros x [X1 X2]. rewrite float_small by lia. lra. }
  change (zupto (2 * 1)) with [0; 1]%Z. cbn [omap].
  destruct (reduced_ok g 4 2 (-9999) 2 2 0 2 20000 ltac:(lia) ltac:(lia) eq_refl ltac:(lia) ltac:(lia) ltac:(lia) ltac:(vm_compute; discriminate) ltac:(lia) ltac:(lia)) as (r0 & E0 & C0 & _).
  { intros x y [CX CY]. change (0 / 2)%Z with 0%Z in CX. change (0 mod 2)%Z with 0%Z in CY. destruct (Hg' x y ltac:(lia) ltac:(lia)) as (v & Gv & SV & LV). exists v. split; auto. right. split; auto.
    specialize (LV ltac:(lia)). unfold smoothed in *. lra. }
  destruct (reduced_ok g 4 2 (-9999) 2 2 1 0 20000 ltac:(lia) ltac:(lia) eq_refl ltac:(lia) ltac:(lia) ltac:(lia) ltac:(vm_compute; discriminate) ltac:(lia) ltac:(lia)) as (r1 & E1 & _ & _).
  { intros x y [CX CY]. change (1 / 2)%Z with 0%Z in CX. change (1 mod 2)%Z with 1%Z in CY. destruct (Hg' x y ltac:(lia) ltac:(lia)) as (v & Gv & SV & LV). exists v. split; auto. right. split; auto.
    unfold smoothed in *. lra. }
  rewrite E0, E1. cbn [bind]. exists r0, r1. split; auto.
  assert (cut_between 2 20000 r0) as CB. { apply C0. exists 0%Z, 0%Z. destruct (Hg' 0%Z 0%Z ltac:(lia) ltac:(lia)) as (v & Gv & SV & _). exists v. split; [unfold of_cell; change (0 / 2)%Z with 0%Z; change (0 mod 2)%Z with 0%Z; lia|]. split; auto. }
  unfold cut_between in CB. change (0 <? 2)%Z with true in CB. cbn [Z.ltb] in CB. lia.
Qed.
Lemma left_alone : reduce_psf (rounds 2) [0; 0; 0; 0]%Z 2 2 1 1 (-9999) = Ret (Some [0%Z]).
Proof.
  destruct (reduce_ok (rounds 2) [0; 0; 0; 0]%Z 1 1 2 (-9999) ltac:(lia) ltac:(lia) ltac:(lia) ltac:(lia) ltac:(lia)) as (lr & E & L & H).
  { split; [reflexivity|]. repeat constructor; lia. } { lia. } { lia. }
  change (2 * 1)%Z with 2%Z in *. rewrite E. destruct (H 0%Z 0%Z ltac:(lia) ltac:(lia)) as (r & G & _ & B).
  assert (forall a b v, value [0; 0; 0; 0]%Z 2 2 (-9999) a b v -> v = 0%Z) as V0.
  { intros a b v (A & B' & Gv & _). apply in_2 in A, B'. destruct A as [-> | ->], B' as [-> | ->]; vm_compute in Gv; congruence. }
  assert (cut_between 0 0 r) as C.
  { apply B. { exists 0%Z, 0%Z, 0%Z. split; [unfold of_cell; lia|]. split; [lia|]. split; [lia|]. split; [reflexivity|lia]. } intros a b v _ V. rewrite (V0 _ _ _ V). lia. }
  unfold cut_between in C. cbn [Z.ltb Z.compare] in C. assert (r = 0%Z) by lia. subst r.
  destruct lr as [|r [|? ?]]; try (unfold zlen in L; cbn [length] in L; lia). vm_compute in G. inversion G. auto.
Qed.
