(** Definedness, symmetry and order of the index values; witnesses. *)
From Coq Require Import Reals Lra.
From Flocq Require Import Core.
From Verif Require Import Base BaseFacts Loops CStr StringModel AggModel RoundModel RoundFacts
  IndexModel IndexSpec IndexProofs IndexProofs2.
#[local] Open Scope R_scope.

Lemma trunc_range a b x : IZR a <= x <= IZR b -> (a <= Ztrunc x <= b)%Z.
Proof.
  intros [A B]. split.
  - rewrite <- (Ztrunc_IZR a). now apply Ztrunc_le.
  - rewrite <- (Ztrunc_IZR b). now apply Ztrunc_le.
Qed.

Lemma to_value_between a b x : (-32768 <= a)%Z -> (b <= 32767)%Z -> IZR a <= x <= IZR b ->
  to_value x = Ret (Some (Ztrunc x)) /\ (a <= Ztrunc x <= b)%Z.
Proof.
  intros A B X. pose proof (trunc_range a b x X) as T. split; [|exact T].
  unfold to_value, short_of_real. unfold in_shortb. destruct (_ && _)%bool eqn:E; [reflexivity|]. lia.
Qed.

(** ** Normalized difference *)
Lemma times_10000 i : -1 <= i <= 1 -> -10000 <= fmul i 10000 <= 10000.
Proof. intros [A B]. apply (rnd32_between (-10000) 10000); [reflexivity..|]. lra. Qed.

Lemma differenced_inv a b : exists r, differenced a b = Ret r /\ forall v, r = Some v ->
  (-10000 <= v <= 10000)%Z /\ (a + b <> 0)%Z /\ v = Ztrunc (fmul (fdiv (IZR (a - b)) (IZR (a + b))) 10000).
Proof.
  unfold differenced. destruct (Z.eqb_spec (a + b) 0) as [E|E]; [exists None; split; [reflexivity | discriminate]|].
  set (i := fdiv _ _). destruct (Rlt_dec i (-1)) as [L|L]; [exists None; split; [reflexivity | discriminate]|].
  destruct (Rlt_dec 1 i) as [M|M]; [exists None; split; [reflexivity | discriminate]|].
  destruct (to_value_between (-10000) 10000 (fmul i 10000) ltac:(lia) ltac:(lia)) as [T B].
  { apply times_10000. lra. }
  rewrite T. eexists; split; [reflexivity|]. intros v [= <-]. auto.
Qed.

Definition neg_value (r : outcome (option Z)) : outcome (option Z) :=
  match r with Ret (Some v) => Ret (Some (- v)%Z) | r => r end.

Lemma fdiv_opp x y : fdiv (- x) y = - fdiv x y.
Proof. unfold fdiv. rewrite <- rnd32_opp. f_equal. unfold Rdiv. ring. Qed.

Lemma fmul_opp x y : fmul (- x) y = - fmul x y.
Proof. unfold fmul. rewrite <- rnd32_opp. f_equal. ring. Qed.

Lemma differenced_swap a b : differenced b a = neg_value (differenced a b).
Proof.
  unfold differenced. rewrite (Z.add_comm b a). destruct (Z.eqb_spec (a + b) 0) as [E|E]; [reflexivity|].
  replace (IZR (b - a)) with (- IZR (a - b)) by (rewrite <- opp_IZR; f_equal; lia).
  rewrite fdiv_opp. set (i := fdiv (IZR (a - b)) (IZR (a + b))).
  destruct (Rlt_dec (- i) (-1)) as [A|A]; destruct (Rlt_dec 1 (- i)) as [B|B]; destruct (Rlt_dec i (-1)) as [C|C]; destruct (Rlt_dec 1 i) as [D|D];
    try reflexivity; try lra.
  rewrite fmul_opp. destruct (to_value_between (-10000) 10000 (fmul i 10000) ltac:(lia) ltac:(lia)) as [T _]; [apply times_10000; lra|].
  destruct (to_value_between (-10000) 10000 (- fmul i 10000) ltac:(lia) ltac:(lia)) as [T' _]; [pose proof (times_10000 i); lra|].
  rewrite T, T', Ztrunc_opp. reflexivity.
Qed.

Lemma differenced_ratio a b c d : (a + b <> 0)%Z -> (c + d <> 0)%Z -> (a * d = c * b)%Z -> differenced a b = differenced c d.
Proof.
  intros N M E. unfold differenced. destruct (Z.eqb_spec (a + b) 0) as [|_]; [contradiction|]. destruct (Z.eqb_spec (c + d) 0) as [|_]; [contradiction|].
  cbv zeta. replace (fdiv (IZR (a - b)) (IZR (a + b))) with (fdiv (IZR (c - d)) (IZR (c + d))); [reflexivity|].
  unfold fdiv. f_equal. apply Rmult_eq_reg_r with (IZR (a + b)); [|now apply IZR_neq in N].
  apply Rmult_eq_reg_r with (IZR (c + d)); [|now apply IZR_neq in M].
  replace (IZR (c - d) / IZR (c + d) * IZR (a + b) * IZR (c + d)) with (IZR (c - d) * IZR (a + b)) by (field; now apply IZR_neq in M).
  replace (IZR (a - b) / IZR (a + b) * IZR (a + b) * IZR (c + d)) with (IZR (a - b) * IZR (c + d)) by (field; now apply IZR_neq in N).
  rewrite <- !mult_IZR. f_equal. nia.
Qed.

Lemma differenced_value a b : (0 <= a)%Z -> (0 <= b)%Z -> (0 < a + b)%Z ->
  differenced a b = Ret (Some (Ztrunc (fmul (fdiv (IZR (a - b)) (IZR (a + b))) 10000))).
Proof.
  intros A B S. unfold differenced. destruct (Z.eqb_spec (a + b) 0) as [E|E]; [lia|]. cbv zeta.
  set (i := fdiv _ _).
  assert (I : -1 <= i <= 1).
  { apply (rnd32_between (-1) 1); [reflexivity..|]. rewrite minus_IZR, plus_IZR. apply nd_bound; [now apply IZR_le..|].
    rewrite <- plus_IZR. now apply IZR_neq. }
  destruct (Rlt_dec i (-1)) as [L|L]; [lra|]. destruct (Rlt_dec 1 i) as [M|M]; [lra|].
  apply (to_value_between (-10000) 10000); [lia..|]. now apply times_10000.
Qed.

Lemma differenced_mono a a' b b' : (0 <= a <= a')%Z -> (0 <= b' <= b)%Z -> (0 < a + b)%Z -> (0 < a' + b')%Z ->
  exists v v', differenced a b = Ret (Some v) /\ differenced a' b' = Ret (Some v') /\ (v <= v')%Z.
Proof.
  intros A B S S'. rewrite (differenced_value a b), (differenced_value a' b') by lia.
  do 2 eexists. split; [reflexivity|]. split; [reflexivity|].
  apply Ztrunc_le. unfold fmul. apply rnd32_le. apply Rmult_le_compat_r; [lra|]. unfold fdiv. apply rnd32_le.
  apply IZR_lt in S, S'.
  apply Rmult_le_reg_r with (IZR (a + b)); [exact S|]. apply Rmult_le_reg_r with (IZR (a' + b')); [exact S'|].
  replace (IZR (a - b) / IZR (a + b) * IZR (a + b) * IZR (a' + b')) with (IZR (a - b) * IZR (a' + b')) by (field; lra).
  replace (IZR (a' - b') / IZR (a' + b') * IZR (a + b) * IZR (a' + b')) with (IZR (a' - b') * IZR (a + b)) by (field; lra).
  rewrite <- !mult_IZR. apply IZR_le. nia.
Qed.

(** The value -9999 needs a sum of 19999 at least. *)
Lemma differenced_not_nodata a b : (0 <= a <= 10000)%Z -> (0 <= b <= 10000)%Z -> differenced a b <> Ret (Some (-9999)%Z).
Proof.
  intros A B. destruct (Z.eq_dec (a + b) 0) as [E|E].
  { unfold differenced. rewrite E. discriminate. }
  rewrite differenced_value by lia. set (i := fdiv _ _). intro H. injection H as H.
  destruct (Z.eq_dec a 0) as [->|NA].
  - assert (I : i = -1).
    { unfold i, fdiv. replace (IZR (0 - b) / IZR (0 + b)) with (IZR (-1)); [apply rnd32_int; reflexivity|].
      replace (0 - b)%Z with (- b)%Z by lia. rewrite Z.add_0_l, opp_IZR. field. apply IZR_neq. lia. }
    rewrite I in H. unfold fmul in H. replace (-1 * 10000) with (IZR (-10000)) in H by lra.
    rewrite rnd32_int in H by reflexivity. rewrite Ztrunc_IZR in H. discriminate.
  - assert (X : - (99985 / 100000) <= IZR (a - b) / IZR (a + b)).
    { assert (P : 0 < IZR (a + b)) by (apply IZR_lt; lia).
      apply Rmult_le_reg_r with (IZR (a + b)); [exact P|].
      replace (IZR (a - b) / IZR (a + b) * IZR (a + b)) with (IZR (a - b)) by (field; lra).
      assert (Q : IZR (- 99985 * (a + b)) <= IZR (100000 * (a - b))) by (apply IZR_le; lia).
      rewrite !mult_IZR in Q. lra. }
    assert (X1 : IZR (a - b) / IZR (a + b) <= 1).
    { rewrite minus_IZR, plus_IZR. apply nd_bound; [apply IZR_le; lia..|]. rewrite <- plus_IZR. apply IZR_neq; lia. }
    pose proof (Rabs_le_inv _ _ (rnd32_err (IZR (a - b) / IZR (a + b)) 1 ltac:(lra) ltac:(apply Rabs_le; lra))) as G.
    fold (fdiv (IZR (a - b)) (IZR (a + b))) in G. fold i in G.
    assert (Y : -9999 < fmul i 10000).
    { unfold fmul. pose proof (Rabs_le_inv _ _ (rnd32_err (i * 10000) 10001 ltac:(lra) ltac:(apply Rabs_le; lra))). lra. }
    destruct (Rle_lt_dec 0 (fmul i 10000)) as [P|P].
    + assert (0 <= Ztrunc (fmul i 10000))%Z by (apply (trunc_range 0 10000); split; [exact P|]; apply times_10000;
        unfold i, fdiv; apply (rnd32_between (-1) 1); [reflexivity..|]; lra). lia.
    + rewrite Ztrunc_ceil in H by lra. unfold Zceil in H. pose proof (Zfloor_lb (- fmul i 10000)) as F.
      assert (Zfloor (- fmul i 10000) = 9999)%Z by lia. rewrite H0 in F. lra.
Qed.

(** ** The other ratios *)
Lemma ratio_minus1_total a b : exists r, ratio_minus1 a b = Ret r.
Proof.
  unfold ratio_minus1. destruct (b =? 0)%Z; [eauto|]. cbv zeta. set (i := rnd32 (rnd64 _)).
  destruct (Rlt_dec 32767 (fmul i 1000)); [eauto|]. destruct (Rlt_dec (fmul i 1000) (-32768)); [eauto|].
  destruct (to_value_between (-32768) 32767 (fmul i 1000) ltac:(lia) ltac:(lia) ltac:(lra)) as [-> _]. eauto.
Qed.

Lemma kernelized_total a b : exists r, kernelized a b = Ret r /\ forall v, r = Some v -> (0 <= v <= 10000)%Z.
Proof.
  unfold kernelized. destruct (_ || _)%bool; [exists None; split; [reflexivity | discriminate]|]. cbv zeta.
  set (e := fdiv (- _) _).
  assert (E : e <= 0).
  { unfold e, fdiv. rewrite <- rnd32_0. apply rnd32_le. unfold Rdiv. rewrite Ropp_mult_distr_l_reverse.
    set (d := IZR (a - b)). set (s := rnd32 (rnd64 _)).
    assert (D : 0 <= fmul d d) by (unfold fmul; rewrite <- rnd32_0; apply rnd32_le; nra).
    assert (S : 0 <= fmul (fmul 2 s) s).
    { unfold fmul at 1. rewrite <- rnd32_0 at 1. apply rnd32_le. unfold fmul.
      destruct (Rle_lt_dec 0 s) as [P|P].
      - apply Rmult_le_pos; [|exact P]. rewrite <- rnd32_0. apply rnd32_le. lra.
      - assert (rnd32 (2 * s) <= 0) by (rewrite <- rnd32_0; apply rnd32_le; lra). nra. }
    destruct (Rle_lt_or_eq_dec _ _ S) as [P|P].
    - assert (0 < / fmul (fmul 2 s) s) by now apply Rinv_0_lt_compat. nra.
    - rewrite <- P, Rinv_0. lra. }
  set (t := rnd32 (rnd64 (exp e))).
  assert (T : 0 <= t <= 1).
  { pose proof (exp_pos e). assert (X : exp e <= 1) by (rewrite <- exp_0; destruct (Rle_lt_or_eq_dec _ _ E) as [L| ->]; [left; now apply exp_increasing | lra]).
    assert (Y : 0 <= rnd64 (exp e) <= 1).
    { split; [rewrite <- rnd64_0; apply rnd64_le; lra|]. rewrite <- (rnd64_int 1) by reflexivity. now apply rnd64_le. }
    apply (rnd32_between 0 1); [reflexivity..|exact Y]. }
  assert (U : 0 <= fsub 1 t <= 1) by (apply (rnd32_between 0 1); [reflexivity..|lra]).
  assert (V : 1 <= fadd 1 t <= 2) by (apply (rnd32_between 1 2); [reflexivity..|lra]).
  set (u := fsub 1 t) in *. set (w := fadd 1 t) in *.
  assert (Q : 0 <= fdiv u w <= 1).
  { apply (rnd32_between 0 1); [reflexivity..|]. split.
    - apply Rmult_le_pos; [lra|]. left. apply Rinv_0_lt_compat. lra.
    - apply Rmult_le_reg_r with w; [lra|]. replace (u / w * w) with u by (field; lra). lra. }
  destruct (to_value_between 0 10000 (fmul (fdiv u w) 10000) ltac:(lia) ltac:(lia)) as [-> B].
  { apply (rnd32_between 0 10000); [reflexivity..|]. lra. }
  eexists; split; [reflexivity|]. intros v [= <-]. exact B.
Qed.

Lemma to_value_ub x : 32768 <= x -> to_value x = UB.
Proof.
  intro H. unfold to_value, short_of_real. destruct (in_shortb (Ztrunc x)) eqn:E; [|reflexivity].
  assert (32768 <= Ztrunc x)%Z by (rewrite <- (Ztrunc_IZR 32768); now apply Ztrunc_le). unfold in_shortb in E. lia.
Qed.

(** A denominator of one ten-thousandth. *)
Lemma evi_overflow : resistance (25 / 10) 6 (75 / 10) 1 false 5001 0 2000 = UB.
Proof.
  unfold resistance. cbv zeta.
  pose proof (red_exact false 0 2000 ltac:(lia) ltac:(lia)) as R. cbn [red_of] in R. rewrite R. clear R.
  pose proof (below_exact 6 15 2 5001 0 2000 ltac:(lia) ltac:(lia) ltac:(lia) ltac:(lia) ltac:(lia) ltac:(lia)) as B.
  replace (75 / 10) with (IZR 15 / 2) by lra. replace 1 with (IZR 2 / 2) at 1 by lra.
  replace (fmul 1 10000) with (fmul (IZR 2 / 2) 10000) by (f_equal; lra). rewrite B.
  change (twice_below 6 15 2 5001 0 2000) with 2%Z. replace (IZR 2 / 2) with 1 by lra.
  destruct (Req_EM_T 1 0) as [E|_]; [lra|].
  replace (fsub 5001 0) with (IZR 5001) by (unfold fsub; rewrite Rminus_0_r; symmetry; apply rnd32_int; reflexivity).
  replace (fmul (25 / 10) (IZR 5001)) with (IZR 25005 / 2) by (unfold fmul; replace (25 / 10 * IZR 5001) with (IZR 25005 / 2) by lra; symmetry; apply rnd32_half; reflexivity).
  replace (fdiv (IZR 25005 / 2) 1) with (IZR 25005 / 2) by (unfold fdiv; replace (IZR 25005 / 2 / 1) with (IZR 25005 / 2) by lra; symmetry; apply rnd32_half; reflexivity).
  apply to_value_ub. unfold fmul. rewrite <- (rnd32_int 32768) by reflexivity. apply rnd32_le. lra.
Qed.

(** A red that the correction makes negative, as large as the near infrared. *)
Lemma arvi_overflow : resistance 1 1 0 0 true 5001 0 5000 = UB.
Proof.
  unfold resistance. cbv zeta.
  pose proof (red_exact true 0 5000 ltac:(lia) ltac:(lia)) as R. cbn [red_of] in R. rewrite R. clear R. change (0 - (5000 - 0))%Z with (-5000)%Z.
  pose proof (below_exact 1 0 0 5001 (-5000) 5000 ltac:(lia) ltac:(lia) ltac:(lia) ltac:(lia) ltac:(lia) ltac:(lia)) as B.
  replace (fmul 0 5000) with (fmul (IZR 0 / 2) 5000) by (f_equal; lra). replace (fmul 0 10000) with (fmul (IZR 0 / 2) 10000) by (f_equal; lra). rewrite B.
  change (twice_below 1 0 0 5001 (-5000) 5000) with 2%Z. replace (IZR 2 / 2) with 1 by lra.
  destruct (Req_EM_T 1 0) as [E|_]; [lra|].
  replace (fsub 5001 (-5000)) with (IZR 10001) by (unfold fsub; replace (5001 - -5000) with (IZR 10001) by lra; symmetry; apply rnd32_int; reflexivity).
  replace (fmul 1 (IZR 10001)) with (IZR 10001) by (unfold fmul; rewrite Rmult_1_l; symmetry; apply rnd32_int; reflexivity).
  replace (fdiv (IZR 10001) 1) with (IZR 10001) by (unfold fdiv; replace (IZR 10001 / 1) with (IZR 10001) by lra; symmetry; apply rnd32_int; reflexivity).
  apply to_value_ub. unfold fmul. rewrite <- (rnd32_int 32768) by reflexivity. apply rnd32_le. lra.
Qed.
Lemma sarvi_overflow : resistance (15 / 10) 1 0 (5 / 10) true 1 0 5000 = UB.
Proof.
  unfold resistance. cbv zeta.
  pose proof (red_exact true 0 5000 ltac:(lia) ltac:(lia)) as R. cbn [red_of] in R. rewrite R. clear R. change (0 - (5000 - 0))%Z with (-5000)%Z.
  pose proof (below_exact 1 0 1 1 (-5000) 5000 ltac:(lia) ltac:(lia) ltac:(lia) ltac:(lia) ltac:(lia) ltac:(lia)) as B.
  replace (fmul 0 5000) with (fmul (IZR 0 / 2) 5000) by (f_equal; lra). replace (fmul (5 / 10) 10000) with (fmul (IZR 1 / 2) 10000) by (f_equal; lra). rewrite B.
  change (twice_below 1 0 1 1 (-5000) 5000) with 2%Z. replace (IZR 2 / 2) with 1 by lra.
  destruct (Req_EM_T 1 0) as [E|_]; [lra|].
  replace (fsub 1 (-5000)) with (IZR 5001) by (unfold fsub; replace (1 - -5000) with (IZR 5001) by lra; symmetry; apply rnd32_int; reflexivity).
  replace (fmul (15 / 10) (IZR 5001)) with (IZR 15003 / 2) by (unfold fmul; replace (15 / 10 * IZR 5001) with (IZR 15003 / 2) by lra; symmetry; apply rnd32_half; reflexivity).
  replace (fdiv (IZR 15003 / 2) 1) with (IZR 15003 / 2) by (unfold fdiv; replace (IZR 15003 / 2 / 1) with (IZR 15003 / 2) by lra; symmetry; apply rnd32_half; reflexivity).
  apply to_value_ub. unfold fmul. rewrite <- (rnd32_int 32768) by reflexivity. apply rnd32_le. lra.
Qed.

(** Tasseled cap disturbance of a bright surface. *)
Lemma tcdi_overflow : tasseled TCD [10000; 10000; 10000; 0; 10000; 10000]%Z = UB.
Proof.
  set (v := [10000; 10000; 10000; 0; 10000; 10000]%Z).
  assert (V : Forall (fun v => 0 <= v <= 10000)%Z v) by (repeat constructor; lia).
  assert (L : length v = 6%nat) by reflexivity.
  assert (Z0 : Rabs (0 - 0) <= 0) by (rewrite Rminus_0_r, Rabs_R0; lra).
  pose proof (add_component 0 0 1 TCB v 0 ltac:(lia) ltac:(discriminate) L V Z0 ltac:(rewrite Rabs_R0; lra) ltac:(lra)) as E1.
  destruct (component_err TCB v ltac:(discriminate) L V) as [_ B1]. destruct (component_err TCG v ltac:(discriminate) L V) as [_ B2].
  replace (0 + 1 * tc_exact TCB v) with (tc_exact TCB v) in E1 by ring.
  pose proof (add_component _ _ (-1) TCG v _ ltac:(lia) ltac:(discriminate) L V E1 ltac:(lra) ltac:(lra)) as E2.
  apply Rabs_le_inv in B1, B2.
  pose proof (add_component _ _ (-1) TCW v _ ltac:(lia) ltac:(discriminate) L V E2 ltac:(apply Rabs_le; lra) ltac:(lra)) as E3.
  unfold tasseled. cbv zeta. apply to_value_ub. apply Rabs_le_inv in E3.
  assert (X : tc_exact TCB v + -1 * tc_exact TCG v + -1 * tc_exact TCW v = 35433) by (unfold v, tc_exact; cbv zeta; lra).
  rewrite X in E3. lra.
Qed.

(** Wetness of a surface dark but for the short wave infrared is -0.99995. *)
Lemma tcwet_nodata : tasseled TCW [0; 0; 0; 0; 7200; 8347]%Z = Ret (Some (-9999)%Z).
Proof.
  set (v := [0; 0; 0; 0; 7200; 8347]%Z).
  assert (V : Forall (fun v => 0 <= v <= 10000)%Z v) by (repeat constructor; lia).
  assert (Z0 : Rabs (0 - 0) <= 0) by (rewrite Rminus_0_r, Rabs_R0; lra).
  pose proof (add_component 0 0 1 TCW v 0 ltac:(lia) ltac:(discriminate) eq_refl V Z0 ltac:(rewrite Rabs_R0; lra) ltac:(lra)) as E1.
  replace (0 + 1 * tc_exact TCW v) with (tc_exact TCW v) in E1 by ring.
  assert (X : tc_exact TCW v = - (6806 * 7200 + 6109 * 8347) / 10000) by (unfold v, tc_exact; cbv zeta; lra).
  rewrite X in E1. apply Rabs_le_inv in E1. unfold tasseled. cbv zeta. set (x := fadd _ _) in *.
  assert (T : Ztrunc x = (-9999)%Z).
  { rewrite Ztrunc_ceil by lra. unfold Zceil. rewrite (Zfloor_imp 9999); [reflexivity|]. rewrite plus_IZR. lra. }
  unfold to_value, short_of_real. rewrite T. reflexivity.
Qed.

(** The root of a negative number. *)
Lemma msrre_nan : msrre (-20) 10 = UB.
Proof.
  unfold msrre. cbn [Z.eqb]. cbv zeta.
  replace (fdiv (IZR (-20)) (IZR 10)) with (IZR (-2)) by (unfold fdiv; replace (IZR (-20) / IZR 10) with (IZR (-2)) by lra; symmetry; apply rnd32_int; reflexivity).
  replace (rnd64 (IZR (-2) + 1)) with (IZR (-1)) by (replace (IZR (-2) + 1) with (IZR (-1)) by lra; symmetry; apply rnd64_int; reflexivity).
  destruct (Rlt_dec (-1) 0) as [_|N]; [reflexivity | lra].
Qed.
