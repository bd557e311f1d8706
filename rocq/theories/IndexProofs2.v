(** Error bounds of the index computations: EVI and relatives, tasseled cap,
    continuum removal. *)
From Coq Require Import Reals Lra.
From Flocq Require Import Core.
From Verif Require Import Base BaseFacts Loops CStr StringModel AggModel RoundModel RoundFacts IndexModel IndexSpec IndexProofs.
#[local] Open Scope R_scope.

(** ** Indices with resistance terms *)
Definition red_of (rbc : bool) (r b : Z) : Z := if rbc then (r - (b - r))%Z else r.

Lemma red_exact (rbc : bool) r b : (0 <= r <= 10000)%Z -> (0 <= b <= 10000)%Z ->
  fsub (IZR r) (fmul (if rbc then 1 else 0) (fsub (IZR b) (IZR r))) = IZR (red_of rbc r b).
Proof.
  intros R B. unfold fsub, fmul, red_of. destruct rbc.
  - rewrite <- minus_IZR, (rnd32_int (b - r)) by lia. rewrite Rmult_1_l, (rnd32_int (b - r)) by lia.
    rewrite <- minus_IZR. apply rnd32_int. lia.
  - rewrite Rmult_0_l, rnd32_0, Rminus_0_r. apply rnd32_int. lia.
Qed.

Definition twice_below (k2 k3 k4 : Z) (n r b : Z) : Z := (2 * n + 2 * (k2 * r) - k3 * b + 10000 * k4)%Z.

Lemma below_exact k2 k3 k4 n r b : (0 <= k2 <= 6)%Z -> (0 <= k3 <= 15)%Z -> (0 <= k4 <= 2)%Z ->
  (0 <= n <= 10000)%Z -> (-10000 <= r <= 20000)%Z -> (0 <= b <= 10000)%Z ->
  fadd (fsub (fadd (IZR n) (fmul (IZR k2) (IZR r))) (fmul (IZR k3 / 2) (IZR b))) (fmul (IZR k4 / 2) 10000)
  = IZR (twice_below k2 k3 k4 n r b) / 2.
Proof.
  intros K2 K3 K4 N R B. unfold fadd, fsub, fmul, twice_below.
  assert (A : (Z.abs (k2 * r) <= 120000)%Z) by nia.
  assert (C : (0 <= k3 * b <= 150000)%Z) by nia.
  rewrite <- mult_IZR, (rnd32_int (k2 * r)) by lia.
  rewrite <- plus_IZR, (rnd32_int (n + k2 * r)) by lia.
  replace (IZR k3 / 2 * IZR b) with (IZR (k3 * b) / 2) by (rewrite mult_IZR; field).
  rewrite (rnd32_half (k3 * b)) by lia.
  replace (IZR (n + k2 * r) - IZR (k3 * b) / 2) with (IZR (2 * (n + k2 * r) - k3 * b) / 2) by (rewrite minus_IZR, mult_IZR; field).
  rewrite (rnd32_half (2 * (n + k2 * r) - k3 * b)) by lia.
  replace (IZR k4 / 2 * 10000) with (IZR (10000 * k4) / 2) by (rewrite mult_IZR; field).
  rewrite (rnd32_half (10000 * k4)) by lia.
  replace (IZR (2 * (n + k2 * r) - k3 * b) / 2 + IZR (10000 * k4) / 2) with (IZR (2 * (n + k2 * r) - k3 * b + 10000 * k4) / 2)
    by (rewrite (plus_IZR (2 * (n + k2 * r) - k3 * b)); field).
  rewrite rnd32_half by lia. do 2 f_equal. lia.
Qed.

(** The factor: exact, or nearly. *)
Definition factor (f1 F : R) : Prop :=
  0 < F <= 3 /\ forall d, (Z.abs d <= 30000)%Z -> Rabs (fmul f1 (IZR d) - F * IZR d) <= Rabs (F * IZR d) / 5000000.

Lemma factor_half k : (0 < k <= 6)%Z -> factor (IZR k / 2) (IZR k / 2).
Proof.
  intro K. split; [pose proof (IZR_lt _ _ (proj1 K)); pose proof (IZR_le _ _ (proj2 K)); lra|].
  intros d D. unfold fmul. replace (IZR k / 2 * IZR d) with (IZR (k * d) / 2) by (rewrite mult_IZR; field).
  rewrite rnd32_half by nia. rewrite Rminus_diag_eq, Rabs_R0 by reflexivity.
  pose proof (Rabs_pos (IZR (k * d) / 2)). lra.
Qed.
Lemma factor_24 : factor (rnd32 (24 / 10)) 2.4.
Proof.
  split; [lra|]. intros d D. unfold fmul.
  pose proof (Rabs_le_inv _ _ (rnd32_err (24 / 10) (24 / 10) ltac:(lra) ltac:(apply Rabs_le; lra))) as E.
  set (f := rnd32 (24 / 10)) in *.
  destruct (Z.eq_dec d 0) as [->|D0].
  { rewrite Rmult_0_r, rnd32_0. rewrite Rmult_0_r, Rminus_0_r, Rabs_R0. lra. }
  assert (D1 : 1 <= Rabs (IZR d)) by (rewrite <- abs_IZR; apply IZR_le; lia).
  assert (FD : Rabs (f * IZR d) <= 2.5 * Rabs (IZR d)).
  { rewrite Rabs_mult. apply Rmult_le_compat_r; [apply Rabs_pos | apply Rabs_le; lra]. }
  pose proof (rnd32_err (f * IZR d) (2.5 * Rabs (IZR d)) ltac:(lra) FD) as G.
  replace (rnd32 (f * IZR d) - 2.4 * IZR d) with ((rnd32 (f * IZR d) - f * IZR d) + (f - 2.4) * IZR d) by ring.
  eapply Rle_trans; [apply Rabs_triang|]. rewrite (Rabs_mult (f - 2.4)), (Rabs_mult 2.4), (Rabs_pos_eq 2.4) by lra.
  assert (Rabs (f - 2.4) <= 2.4 / 16000000) by (apply Rabs_le; lra).
  assert (Rabs (f - 2.4) * Rabs (IZR d) <= 2.4 / 16000000 * Rabs (IZR d)) by (apply Rmult_le_compat_r; lra).
  lra.
Qed.

Lemma resistance_ok f1 F k2 k3 k4 rbc n r b :
  factor f1 F -> (0 <= k2 <= 6)%Z -> (0 <= k3 <= 15)%Z -> (0 <= k4 <= 2)%Z ->
  (0 <= n <= 10000)%Z -> (0 <= r <= 10000)%Z -> (0 <= b <= 10000)%Z ->
  stores (resistance f1 (IZR k2) (IZR k3 / 2) (IZR k4 / 2) rbc n r b)
    (quotient (F * IZR (n - red_of rbc r b)) (IZR (twice_below k2 k3 k4 n (red_of rbc r b) b) / 2)) 10000.
Proof.
  intros [F0 HF] K2 K3 K4 N R B. unfold resistance. cbv zeta. rewrite red_exact by assumption.
  assert (RD : (-10000 <= red_of rbc r b <= 20000)%Z) by (unfold red_of; destruct rbc; lia).
  set (rd := red_of rbc r b) in *.
  rewrite below_exact by assumption. set (t := IZR (twice_below k2 k3 k4 n rd b) / 2).
  unfold stores, quotient. destruct (Req_EM_T t 0) as [E|E]; [reflexivity|].
  intro H. unfold fsub. rewrite <- minus_IZR, (rnd32_int (n - rd)) by lia.
  specialize (HF (n - rd)%Z ltac:(lia)). set (p := F * IZR (n - rd)) in *. set (q := fmul f1 (IZR (n - rd))) in *.
  assert (X : Rabs (p / t) <= 32 / 10) by (rewrite Rabs_mult, (Rabs_pos_eq 10000) in H by lra; lra).
  assert (Q : Rabs (q / t - p / t) <= 1 / 1000000).
  { replace (q / t - p / t) with ((q - p) * / t) by (field; exact E). rewrite Rabs_mult.
    apply Rle_trans with (Rabs p / 5000000 * Rabs (/ t)); [apply Rmult_le_compat_r; [apply Rabs_pos | exact HF]|].
    replace (Rabs p / 5000000 * Rabs (/ t)) with (Rabs (p / t) / 5000000) by (unfold Rdiv; rewrite Rabs_mult; ring). lra. }
  assert (QB : Rabs (q / t) <= 4).
  { replace (q / t) with (p / t + (q / t - p / t)) by ring. eapply Rle_trans; [apply Rabs_triang|]. lra. }
  pose proof (rnd32_err (q / t) 4 ltac:(lra) QB) as I. unfold fdiv. set (i := rnd32 (q / t)) in *.
  assert (I2 : Rabs (i - p / t) <= 2 / 1000000).
  { replace (i - p / t) with ((i - q / t) + (q / t - p / t)) by ring. eapply Rle_trans; [apply Rabs_triang|]. lra. }
  pose proof (times_err i (p / t) 10000 _ _ I2 X ltac:(lra) ltac:(lra)) as P.
  apply to_value_ok; [|exact H]. rewrite (Rmult_comm 10000). eapply Rle_trans; [exact P|]. lra.
Qed.

(** ** Tasseled cap *)
Lemma coef_err k v : (Z.abs k <= 8000)%Z -> (0 <= v <= 10000)%Z ->
  Rabs (fmul (rnd32 (IZR k / 10000)) (IZR v) - IZR k / 10000 * IZR v) <= 1 / 800.
Proof.
  intros K V. assert (K1 : Rabs (IZR k) <= 8000) by (rewrite <- abs_IZR; apply IZR_le; exact K).
  apply Rabs_le_inv in K1. apply IZR_range in V.
  pose proof (rnd32_err (IZR k / 10000) 1 ltac:(lra) ltac:(apply Rabs_le; lra)) as E.
  pose proof (times_err _ _ (IZR v) _ (8 / 10) E ltac:(apply Rabs_le; lra) ltac:(lra)) as T.
  destruct (Rle_lt_dec 1 (IZR v * (8 / 10 + 1 / 16000000))) as [L|L].
  - specialize (T L). eapply Rle_trans; [exact T|]. nra.
  - clear T. unfold fmul. set (c := rnd32 (IZR k / 10000)) in *. apply Rabs_le_inv in E.
    assert (V2 : IZR v <= 2) by nra.
    assert (C : -1 <= c <= 1) by lra.
    assert (CV : Rabs (c * IZR v) <= 2) by (apply Rabs_le; nra).
    pose proof (Rabs_le_inv _ _ (rnd32_err (c * IZR v) 2 ltac:(lra) CV)) as G.
    apply Rabs_le. nra.
Qed.

(** Adding one product to a sum. *)
Lemma add_err acc a k v e m : (Z.abs k <= 8000)%Z -> (0 <= v <= 10000)%Z -> Rabs (acc - a) <= e -> Rabs a <= m -> 0 <= e <= 1 -> 1 <= m <= 24000 ->
  Rabs (fadd acc (fmul (rnd32 (IZR k / 10000)) (IZR v)) - (a + IZR k / 10000 * IZR v)) <= e + 7 / 2000.
Proof.
  intros K V A M E M1. pose proof (coef_err k v K V) as C.
  assert (P : Rabs (IZR k / 10000 * IZR v) <= 8000).
  { assert (K1 : Rabs (IZR k) <= 8000) by (rewrite <- abs_IZR; apply IZR_le; exact K).
    apply Rabs_le_inv in K1. apply IZR_range in V. apply Rabs_le. nra. }
  set (p := IZR k / 10000 * IZR v) in *. set (q := fmul _ _) in *. unfold fadd.
  apply Rabs_le_inv in A, M, C, P.
  pose proof (Rabs_le_inv _ _ (rnd32_err (acc + q) (m + 8010) ltac:(lra) ltac:(apply Rabs_le; lra))) as G.
  apply Rabs_le. lra.
Qed.

Lemma product_bound k v : (0 <= v <= 10000)%Z -> Rabs (IZR k / 10000 * IZR v) <= IZR (Z.abs k).
Proof.
  intro V. apply IZR_range in V. rewrite abs_IZR, Rabs_mult.
  replace (Rabs (IZR k / 10000)) with (Rabs (IZR k) / 10000) by (unfold Rdiv; rewrite Rabs_mult, (Rabs_pos_eq (/ 10000)); lra).
  rewrite (Rabs_pos_eq (IZR v)) by lra. pose proof (Rabs_pos (IZR k)). nra.
Qed.

Lemma dot6_err k1 k2 k3 k4 k5 k6 v1 v2 v3 v4 v5 v6 :
  (Z.abs k1 <= 8000)%Z -> (Z.abs k2 <= 8000)%Z -> (Z.abs k3 <= 8000)%Z -> (Z.abs k4 <= 8000)%Z -> (Z.abs k5 <= 8000)%Z -> (Z.abs k6 <= 8000)%Z ->
  (Z.abs k1 + Z.abs k2 + Z.abs k3 + Z.abs k4 + Z.abs k5 + Z.abs k6 <= 24000)%Z ->
  Forall (fun v => 0 <= v <= 10000)%Z [v1; v2; v3; v4; v5; v6] ->
  let x := IZR k1 / 10000 * IZR v1 + IZR k2 / 10000 * IZR v2 + IZR k3 / 10000 * IZR v3 + IZR k4 / 10000 * IZR v4
           + IZR k5 / 10000 * IZR v5 + IZR k6 / 10000 * IZR v6 in
  Rabs (dot6 (map (fun k => rnd32 (IZR k / 10000)) [k1; k2; k3; k4; k5; k6]) [v1; v2; v3; v4; v5; v6] - x) <= 1 / 50 /\ Rabs x <= 24000.
Proof.
  intros A1 A2 A3 A4 A5 A6 S V.
  repeat match goal with H : Forall _ (_ :: _) |- _ => apply Forall_cons_iff in H; destruct H as [? H] end. 
  apply IZR_le in S. rewrite !plus_IZR in S.
  pose proof (product_bound k1 v1 ltac:(assumption)) as P1. pose proof (product_bound k2 v2 ltac:(assumption)) as P2.
  pose proof (product_bound k3 v3 ltac:(assumption)) as P3. pose proof (product_bound k4 v4 ltac:(assumption)) as P4.
  pose proof (product_bound k5 v5 ltac:(assumption)) as P5. pose proof (product_bound k6 v6 ltac:(assumption)) as P6.
  pose proof (IZR_le _ _ (Z.abs_nonneg k1)). pose proof (IZR_le _ _ (Z.abs_nonneg k2)). pose proof (IZR_le _ _ (Z.abs_nonneg k3)).
  pose proof (IZR_le _ _ (Z.abs_nonneg k4)). pose proof (IZR_le _ _ (Z.abs_nonneg k5)). pose proof (IZR_le _ _ (Z.abs_nonneg k6)).
  apply Rabs_le_inv in P1, P2, P3, P4, P5, P6.
  intro x. split; [|unfold x; apply Rabs_le; lra].
  unfold dot6. cbn [map combine fold_left fst snd].
  pose proof (coef_err k1 v1 A1 ltac:(assumption)) as E1.
  pose proof (fun P => add_err _ _ k2 v2 _ 24000 A2 ltac:(assumption) E1 P ltac:(lra) ltac:(lra)) as E2. specialize (E2 ltac:(apply Rabs_le; lra)).
  pose proof (fun P => add_err _ _ k3 v3 _ 24000 A3 ltac:(assumption) E2 P ltac:(lra) ltac:(lra)) as E3. specialize (E3 ltac:(apply Rabs_le; lra)).
  pose proof (fun P => add_err _ _ k4 v4 _ 24000 A4 ltac:(assumption) E3 P ltac:(lra) ltac:(lra)) as E4. specialize (E4 ltac:(apply Rabs_le; lra)).
  pose proof (fun P => add_err _ _ k5 v5 _ 24000 A5 ltac:(assumption) E4 P ltac:(lra) ltac:(lra)) as E5. specialize (E5 ltac:(apply Rabs_le; lra)).
  pose proof (fun P => add_err _ _ k6 v6 _ 24000 A6 ltac:(assumption) E5 P ltac:(lra) ltac:(lra)) as E6. specialize (E6 ltac:(apply Rabs_le; lra)).
  eapply Rle_trans; [exact E6|]. lra.
Qed.

Definition tc_exact (c : component) (v : list Z) : R :=
  match v with
  | [b; g; r; n; s1; s2] =>
      let bright := 0.2043 * IZR b + 0.4158 * IZR g + 0.5524 * IZR r + 0.5741 * IZR n + 0.3124 * IZR s1 + 0.2303 * IZR s2 in
      let green := -0.1603 * IZR b - 0.2819 * IZR g - 0.4934 * IZR r + 0.7940 * IZR n - 0.0002 * IZR s1 - 0.1446 * IZR s2 in
      let wet := 0.0315 * IZR b + 0.2021 * IZR g + 0.3102 * IZR r + 0.1594 * IZR n - 0.6806 * IZR s1 - 0.6109 * IZR s2 in
      match c with TCB => bright | TCG => green | TCW => wet | TCD => bright - (green + wet) end
  | _ => 0
  end.

Lemma component_err c v : c <> TCD -> length v = 6%nat -> Forall (fun v => 0 <= v <= 10000)%Z v ->
  Rabs (dot6 (coefficients c) v - tc_exact c v) <= 1 / 50 /\ Rabs (tc_exact c v) <= 24000.
Proof.
  intros C L V. destruct v as [|b [|g [|r [|n [|s1 [|s2 [|]]]]]]]; try discriminate L.
  destruct c; [| | |now elim C]; unfold coefficients, tc_exact.
  - pose proof (dot6_err 2043 4158 5524 5741 3124 2303 b g r n s1 s2 ltac:(lia) ltac:(lia) ltac:(lia) ltac:(lia) ltac:(lia) ltac:(lia) ltac:(lia) V) as E.
    cbv zeta in E. destruct E as [E1 E2]. apply Rabs_le_inv in E1, E2. split; apply Rabs_le; lra.
  - pose proof (dot6_err (-1603) (-2819) (-4934) 7940 (-2) (-1446) b g r n s1 s2 ltac:(lia) ltac:(lia) ltac:(lia) ltac:(lia) ltac:(lia) ltac:(lia) ltac:(lia) V) as E.
    cbv zeta in E. destruct E as [E1 E2]. apply Rabs_le_inv in E1, E2. split; apply Rabs_le; lra.
  - pose proof (dot6_err 315 2021 3102 1594 (-6806) (-6109) b g r n s1 s2 ltac:(lia) ltac:(lia) ltac:(lia) ltac:(lia) ltac:(lia) ltac:(lia) ltac:(lia) V) as E.
    cbv zeta in E. destruct E as [E1 E2]. apply Rabs_le_inv in E1, E2. split; apply Rabs_le; lra.
Qed.

Lemma add_component ind a (sg : Z) c v e : (sg = 1 \/ sg = -1)%Z -> c <> TCD -> length v = 6%nat -> Forall (fun v => 0 <= v <= 10000)%Z v ->
  Rabs (ind - a) <= e -> Rabs a <= 48000 -> 0 <= e <= 1 ->
  Rabs (fadd ind (fmul (IZR sg) (dot6 (coefficients c) v)) - (a + IZR sg * tc_exact c v)) <= e + 27 / 1000.
Proof.
  intros S C L V A M E. destruct (component_err c v C L V) as [D1 D2]. set (d := dot6 (coefficients c) v) in *. set (x := tc_exact c v) in *.
  apply Rabs_le_inv in A, M, D1, D2.
  assert (P : fmul (IZR sg) d = IZR sg * rnd32 d).
  { unfold fmul. destruct S as [->| ->]; [now rewrite !Rmult_1_l|]. replace (-1 * d) with (- d) by ring. rewrite rnd32_opp. ring. }
  rewrite P. unfold fadd.
  pose proof (Rabs_le_inv _ _ (rnd32_err d 24001 ltac:(lra) ltac:(apply Rabs_le; lra))) as G. set (d1 := rnd32 d) in *.
  assert (Q : Rabs (ind + IZR sg * d1) <= 72010) by (destruct S as [->| ->]; apply Rabs_le; lra).
  pose proof (Rabs_le_inv _ _ (rnd32_err _ 72010 ltac:(lra) Q)) as G2.
  destruct S as [->| ->]; apply Rabs_le; lra.
Qed.

Lemma tasseled_ok c v : length v = 6%nat -> Forall (fun v => 0 <= v <= 10000)%Z v -> stores (tasseled c v) (Some (tc_exact c v / 10000)) 10000.
Proof.
  intros L V. unfold stores. replace (10000 * (tc_exact c v / 10000)) with (tc_exact c v) by field.
  intro H. unfold tasseled. cbv zeta.
  assert (Z0 : Rabs (0 - 0) <= 0) by (rewrite Rminus_0_r, Rabs_R0; lra).
  assert (Z1 : Rabs 0 <= 48000) by (rewrite Rabs_R0; lra).
  assert (S : forall c, c <> TCD -> Rabs (fadd 0 (fmul 1 (dot6 (coefficients c) v)) - tc_exact c v) <= 27 / 1000).
  { intros k K. pose proof (add_component 0 0 1 k v 0 ltac:(lia) K L V Z0 Z1 ltac:(lra)) as E.
    replace (0 + 1 * tc_exact k v) with (tc_exact k v) in E by ring. eapply Rle_trans; [exact E|]. lra. }
  destruct c; try (apply to_value_ok; [eapply Rle_trans; [apply S; discriminate|]; lra | exact H]).
  apply to_value_ok; [|exact H].
  pose proof (S TCB ltac:(discriminate)) as E1.
  destruct (component_err TCB v ltac:(discriminate) L V) as [_ B1]. destruct (component_err TCG v ltac:(discriminate) L V) as [_ B2].
  pose proof (add_component _ _ (-1) TCG v _ ltac:(lia) ltac:(discriminate) L V E1 ltac:(lra) ltac:(lra)) as E2.
  apply Rabs_le_inv in B1, B2.
  pose proof (add_component _ _ (-1) TCW v _ ltac:(lia) ltac:(discriminate) L V E2 ltac:(apply Rabs_le; lra) ltac:(lra)) as E3.
  assert (X : tc_exact TCD v = tc_exact TCB v + -1 * tc_exact TCG v + -1 * tc_exact TCW v).
  { unfold tc_exact. destruct v as [|b [|g [|r [|n [|s1 [|s2 [|]]]]]]]; try discriminate L. cbv zeta. lra. }
  rewrite X. eapply Rle_trans; [exact E3|]. lra.
Qed.

(** ** Continuum removal *)
Lemma small_left e x y : -e <= x <= e -> 0 <= y <= 1 -> -e <= x * y <= e.
Proof. intros. nra. Qed.

Lemma small_scaled e x y M : 0 <= e -> -e <= x <= e -> 0 <= y <= M -> - (M * e) <= y * x <= M * e.
Proof. intros. nra. Qed.

Lemma cont_remove_ok c a b : (0 <= c <= 10000)%Z -> (0 <= a <= 10000)%Z -> (0 <= b <= 10000)%Z ->
  stores (cont_remove (rnd32 (1610 / 1000)) (rnd32 (864 / 1000)) (rnd32 (2186 / 1000)) c a b)
    (Some (IZR c / 10000 - (IZR a / 10000 + (IZR b / 10000 - IZR a / 10000) * ((1.610 - 0.864) / (2.186 - 0.864))))) 10000.
Proof.
  intros C A B. unfold stores. intro H. apply IZR_range in C, A, B.
  unfold cont_remove, fsub, fmul, fadd, fdiv.
  pose proof (Rabs_le_inv _ _ (rnd32_err (1610 / 1000) 2 ltac:(lra) ltac:(apply Rabs_le; lra))) as W.
  pose proof (Rabs_le_inv _ _ (rnd32_err (864 / 1000) 1 ltac:(lra) ltac:(apply Rabs_le; lra))) as W1.
  pose proof (Rabs_le_inv _ _ (rnd32_err (2186 / 1000) 3 ltac:(lra) ltac:(apply Rabs_le; lra))) as W2.
  set (w := rnd32 (1610 / 1000)) in *. set (w1 := rnd32 (864 / 1000)) in *. set (w2 := rnd32 (2186 / 1000)) in *.
  pose proof (Rabs_le_inv _ _ (rnd32_err (w2 - w) 1 ltac:(lra) ltac:(apply Rabs_le; lra))) as D1.
  pose proof (Rabs_le_inv _ _ (rnd32_err (w - w1) 1 ltac:(lra) ltac:(apply Rabs_le; lra))) as D2.
  pose proof (Rabs_le_inv _ _ (rnd32_err (w2 - w1) 2 ltac:(lra) ltac:(apply Rabs_le; lra))) as D3.
  set (d1 := rnd32 (w2 - w)) in *. set (d2 := rnd32 (w - w1)) in *. set (d3 := rnd32 (w2 - w1)) in *.
  assert (P1 : -1 / 250 <= IZR a * d1 - IZR a * 0.576 <= 1 / 250) by nra.
  assert (P2 : -1 / 250 <= IZR b * d2 - IZR b * 0.746 <= 1 / 250) by nra.
  pose proof (Rabs_le_inv _ _ (rnd32_err (IZR a * d1) 6000 ltac:(lra) ltac:(apply Rabs_le; lra))) as E1.
  pose proof (Rabs_le_inv _ _ (rnd32_err (IZR b * d2) 8000 ltac:(lra) ltac:(apply Rabs_le; lra))) as E2.
  set (p1 := rnd32 (IZR a * d1)) in *. set (p2 := rnd32 (IZR b * d2)) in *.
  pose proof (Rabs_le_inv _ _ (rnd32_err (p1 + p2) 14001 ltac:(lra) ltac:(apply Rabs_le; lra))) as E3.
  set (s := rnd32 (p1 + p2)) in *.
  set (m := IZR a * 0.576 + IZR b * 0.746).
  assert (M : -1 / 100 <= s - m <= 1 / 100) by (unfold m; lra).
  assert (M0 : 0 <= m <= 13220) by (unfold m; lra).
  assert (Q : -1 / 40 <= s / d3 - m / 1.322 <= 1 / 40).
  { assert (I : -1 / 1000000 <= / d3 - / 1.322 <= 1 / 1000000).
    { replace (/ d3 - / 1.322) with ((1.322 - d3) * (/ d3 * / 1.322)) by (field; lra).
      assert (0 < / d3 <= 1) by (split; [apply Rinv_0_lt_compat; lra | apply Rmult_le_reg_r with d3; [lra|]; rewrite Rinv_l; lra]).
      assert (0 < / 1.322 <= 1) by (split; [apply Rinv_0_lt_compat; lra | apply Rmult_le_reg_r with 1.322; [lra|]; rewrite Rinv_l; lra]).
      pose proof (small_left 1 (/ d3) (/ 1.322) ltac:(lra) ltac:(lra)).
      assert (0 <= / d3 * / 1.322) by (apply Rmult_le_pos; lra).
      pose proof (small_left (1 / 1000000) (1.322 - d3) (/ d3 * / 1.322) ltac:(lra) ltac:(lra)). lra. }
    assert (J : 0 < / 1.322 <= 1) by (split; [apply Rinv_0_lt_compat; lra | apply Rmult_le_reg_r with 1.322; [lra|]; rewrite Rinv_l; lra]).
    unfold Rdiv at 2 3. replace (s * / d3 - m * / 1.322) with ((s - m) * / d3 + m * (/ d3 - / 1.322)) by ring.
    assert (J2 : 0 < / d3 <= 1) by (split; [apply Rinv_0_lt_compat; lra | apply Rmult_le_reg_r with d3; [lra|]; rewrite Rinv_l; lra]).
    pose proof (small_left (1 / 100) (s - m) (/ d3) ltac:(lra) ltac:(lra)).
    pose proof (small_scaled (1 / 1000000) (/ d3 - / 1.322) m 13220 ltac:(lra) ltac:(lra) M0).
    lra. }
  assert (MB : 0 <= m / 1.322 <= 10000) by (split; [apply Rmult_le_pos; [lra | apply Rlt_le, Rinv_0_lt_compat; lra] | apply Rmult_le_reg_r with 1.322; [lra|]; unfold Rdiv; rewrite Rmult_assoc, Rinv_l; lra]).
  pose proof (Rabs_le_inv _ _ (rnd32_err (s / d3) 10001 ltac:(lra) ltac:(apply Rabs_le; lra))) as E4.
  set (t := rnd32 (s / d3)) in *.
  pose proof (Rabs_le_inv _ _ (rnd32_err (IZR c - t) 20002 ltac:(lra) ltac:(apply Rabs_le; lra))) as E5.
  apply to_value_ok; [|exact H].
  replace (10000 * (IZR c / 10000 - (IZR a / 10000 + (IZR b / 10000 - IZR a / 10000) * ((1.610 - 0.864) / (2.186 - 0.864)))))
    with (IZR c - m / 1.322) by (unfold m; lra).
  apply Rabs_le. lra.
Qed.
