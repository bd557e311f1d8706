(** Error bounds of the index computations. *)
From Coq Require Import Reals Lra.
From Flocq Require Import Core.
From Verif Require Import Base BaseFacts Loops CStr StringModel AggModel RoundModel RoundFacts IndexModel IndexSpec.
#[local] Open Scope R_scope.

Lemma trunc_err y : Rabs (IZR (Ztrunc y) - y) < 1.
Proof.
  unfold Ztrunc. destruct (Rlt_bool_spec y 0) as [H|H].
  - unfold Zceil. rewrite opp_IZR. pose proof (Zfloor_lb (- y)). pose proof (Zfloor_ub (- y)). apply Rabs_lt; lra.
  - pose proof (Zfloor_lb y). pose proof (Zfloor_ub y). apply Rabs_lt; lra.
Qed.

Lemma to_value_ok y x : Rabs (y - x) <= 1 / 10 -> Rabs x <= 32000 -> exists v, to_value y = Ret (Some v) /\ represents v x.
Proof.
  intros H HX. pose proof (trunc_err y) as T. apply Rabs_le_inv in H, HX. apply Rabs_lt_inv in T.
  assert (A : (-32768 <= Ztrunc y <= 32767)%Z).
  { split; apply le_IZR; lra. }
  exists (Ztrunc y). unfold to_value, short_of_real, in_shortb. 
  replace ((-32768 <=? Ztrunc y) && (Ztrunc y <=? 32767))%Z with true by lia.
  split; [reflexivity|]. unfold represents. apply Rabs_lt; lra.
Qed.

(** Products of approximations. *)
Lemma times_err y x c e m : Rabs (y - x) <= e -> Rabs x <= m -> 0 <= c -> 1 <= c * (m + e) -> Rabs (fmul y c - x * c) <= c * e + c * (m + e) / 16000000.
Proof.
  intros H HX HC H1. unfold fmul.
  assert (A : Rabs (y * c) <= c * (m + e)).
  { rewrite Rabs_mult, (Rabs_pos_eq c) by lra. rewrite Rmult_comm. apply Rmult_le_compat_l; [lra|].
    replace y with (x + (y - x)) by ring. eapply Rle_trans; [apply Rabs_triang|]. lra. }
  pose proof (rnd32_err _ _ H1 A) as B.
  replace (rnd32 (y * c) - x * c) with ((rnd32 (y * c) - y * c) + (y - x) * c) by ring.
  eapply Rle_trans; [apply Rabs_triang|]. rewrite (Rabs_mult _ c), (Rabs_pos_eq c) by lra.
  assert (Rabs (y - x) * c <= e * c) by (apply Rmult_le_compat_r; lra). lra.
Qed.

(** ** Normalized difference *)
Lemma IZR_range n a b : (a <= n <= b)%Z -> IZR a <= IZR n <= IZR b.
Proof. intros [H1 H2]. split; now apply IZR_le. Qed.

Lemma nd_bound x y : 0 <= x -> 0 <= y -> x + y <> 0 -> -1 <= (x - y) / (x + y) <= 1.
Proof.
  intros H1 H2 H. assert (0 < x + y) by lra. split.
  - apply Rmult_le_reg_r with (x + y); [lra|]. unfold Rdiv. rewrite Rmult_assoc, Rinv_l by lra. lra.
  - apply Rmult_le_reg_r with (x + y); [lra|]. unfold Rdiv. rewrite Rmult_assoc, Rinv_l by lra. lra.
Qed.

Lemma quotient_scale a b c : c <> 0 -> quotient (a / c) (b / c) = quotient a b.
Proof.
  intro C. unfold quotient. destruct (Req_EM_T b 0) as [->|B].
  - destruct (Req_EM_T (0 / c) 0) as [|N]; [reflexivity|]. exfalso; apply N. field; auto.
  - destruct (Req_EM_T (b / c) 0) as [E|N].
    + exfalso. apply B. replace b with (b / c * c) by (field; auto). rewrite E; ring.
    + f_equal. field; auto.
Qed.
Lemma nd_scale a b c : c <> 0 -> nd (a / c) (b / c) = nd a b.
Proof. intro C. unfold nd. rewrite <- (quotient_scale (a - b) (a + b) c C). f_equal; field; auto. Qed.

(** What is stored is the documented number, if there is one. *)
Definition stores (r : outcome (option Z)) (f : option R) (scale : R) : Prop :=
  match f with
  | None => r = Ret None
  | Some x => Rabs (scale * x) <= 32000 -> exists v, r = Ret (Some v) /\ represents v (scale * x)
  end.

Lemma differenced_ok a b : (0 <= a <= 10000)%Z -> (0 <= b <= 10000)%Z ->
  stores (differenced a b) (nd (IZR a / 10000) (IZR b / 10000)) 10000.
Proof.
  intros A B. rewrite nd_scale by lra. unfold stores, nd, quotient, differenced.
  destruct (Z.eqb_spec (a + b) 0) as [E|E]; destruct (Req_EM_T (IZR a + IZR b) 0) as [F|F].
  - reflexivity.
  - exfalso. apply F. rewrite <- plus_IZR, E. reflexivity.
  - exfalso. apply E. apply eq_IZR. now rewrite plus_IZR.
  - intro H. apply IZR_range in A, B.
    pose proof (nd_bound (IZR a) (IZR b) ltac:(lra) ltac:(lra) F) as Q.
    rewrite <- plus_IZR, <- minus_IZR in *. set (q := IZR (a - b) / IZR (a + b)) in *.
    unfold fdiv. fold q.
    pose proof (rnd32_between (-1) 1 q eq_refl eq_refl Q) as QQ.
    destruct (Rlt_dec (rnd32 q) (-1)) as [|_]; [lra|]. destruct (Rlt_dec 1 (rnd32 q)) as [|_]; [lra|].
    assert (Q1 : Rabs q <= 1) by (apply Rabs_le; lra).
    pose proof (rnd32_err q 1 ltac:(lra) Q1) as Q2.
    apply to_value_ok; [|exact H]. rewrite (Rmult_comm 10000).
    eapply Rle_trans; [apply times_err with (m := 1) (1 := Q2); lra|]. lra.
Qed.

(** ** Ratios *)
Lemma cire_ok a b : (0 <= a <= 10000)%Z -> (0 <= b <= 10000)%Z ->
  stores (ratio_minus1 a b) (match quotient (IZR a / 10000) (IZR b / 10000) with Some q => Some (q - 1) | None => None end) 1000.
Proof.
  intros A B. rewrite quotient_scale by lra. unfold stores, quotient, ratio_minus1.
  destruct (Z.eqb_spec b 0) as [E|E].
  - rewrite E. destruct (Req_EM_T 0 0) as [_|N]; [reflexivity|now elim N].
  - destruct (Req_EM_T (IZR b) 0) as [F|F]; [exfalso; apply E, eq_IZR, F|].
    intro H. apply IZR_range in A, B. set (q := IZR a / IZR b) in *. unfold fdiv. fold q.
    apply Rabs_le_inv in H.
    assert (Q0 : 0 <= q) by (apply Rmult_le_pos; [lra | apply Rlt_le, Rinv_0_lt_compat; lra]).
    assert (Q1 : Rabs q <= 33) by (apply Rabs_le; lra).
    pose proof (Rabs_le_inv _ _ (rnd32_err q 33 ltac:(lra) Q1)) as Q2.
    set (q1 := rnd32 q) in *.
    pose proof (Rabs_le_inv _ _ (rnd64_err (q1 - 1) 35 ltac:(lra) ltac:(apply Rabs_le; lra))) as Q3.
    set (q2 := rnd64 (q1 - 1)) in *.
    pose proof (Rabs_le_inv _ _ (rnd32_err q2 36 ltac:(lra) ltac:(apply Rabs_le; lra))) as Q4.
    set (q3 := rnd32 q2) in *.
    assert (Q5 : Rabs (q3 - (q - 1)) <= 1 / 200000) by (apply Rabs_le; lra).
    assert (Q6 : Rabs (q - 1) <= 33) by (apply Rabs_le; lra).
    pose proof (Rabs_le_inv _ _ (times_err q3 (q - 1) 1000 _ _ Q5 Q6 ltac:(lra) ltac:(lra))) as Q7.
    destruct (Rlt_dec 32767 (fmul q3 1000)) as [|_]; [lra|].
    destruct (Rlt_dec (fmul q3 1000) (-32768)) as [|_]; [lra|].
    apply to_value_ok; apply Rabs_le; lra.
Qed.

(** documented by IndexSpec.documented. *)
Definition ratio_root (a b : R) : option R :=
  if Req_EM_T b 0 then None else if Rlt_dec (-1) (a / b) then Some ((a / b - 1) / sqrt (a / b + 1)) else None.

Lemma sqrt_lip x y : 1 <= x -> 1 / 2 <= y -> Rabs (sqrt y - sqrt x) <= Rabs (y - x).
Proof.
  intros X Y. assert (1 <= sqrt x) by (rewrite <- sqrt_1; apply sqrt_le_1; lra).
  assert (0 <= sqrt y) by apply sqrt_pos.
  assert (E : y - x = (sqrt y - sqrt x) * (sqrt y + sqrt x)).
  { rewrite <- (sqrt_sqrt x), <- (sqrt_sqrt y) at 1 by lra. ring. }
  rewrite E, Rabs_mult, (Rabs_pos_eq (sqrt y + sqrt x)) by lra.
  rewrite <- (Rmult_1_r (Rabs (sqrt y - sqrt x))) at 1. apply Rmult_le_compat_l; [apply Rabs_pos | lra].
Qed.

Lemma quot_err u l u' l' e d K : 1 <= l -> 99 / 100 <= l' -> Rabs (u' - u) <= e -> Rabs (l' - l) <= d -> Rabs (u / l) <= K ->
  Rabs (u' / l' - u / l) <= 11 / 10 * (e + K * d).
Proof.
  intros L L' E D Q.
  replace (u' / l' - u / l) with ((u' - u) * / l' + (u / l) * (l - l') * / l') by (field; lra).
  assert (I : 0 <= / l' <= 11 / 10).
  { split; [apply Rlt_le, Rinv_0_lt_compat; lra|]. apply Rmult_le_reg_r with l'; [lra|]. rewrite Rinv_l by lra. lra. }
  assert (D' : Rabs (l - l') <= d) by (rewrite Rabs_minus_sym; exact D).
  eapply Rle_trans; [apply Rabs_triang|]. rewrite !Rabs_mult, (Rabs_pos_eq (/ l')) by lra.
  pose proof (Rabs_pos (u' - u)). pose proof (Rabs_pos (u / l)). pose proof (Rabs_pos (l - l')).
  assert (Rabs (u' - u) * / l' <= e * (11 / 10)) by (apply Rmult_le_compat; lra).
  assert (Rabs (u / l) * Rabs (l - l') <= K * d) by (apply Rmult_le_compat; lra).
  assert (Rabs (u / l) * Rabs (l - l') * / l' <= K * d * (11 / 10)).
  { apply Rmult_le_compat; try lra. apply Rmult_le_pos; lra. }
  lra.
Qed.

Lemma ratio_root_small q : 0 <= q -> Rabs (10000 * ((q - 1) / sqrt (q + 1))) <= 32000 -> q <= 13 /\ Rabs ((q - 1) / sqrt (q + 1)) <= 32 / 10.
Proof.
  intros Q H. rewrite Rabs_mult, (Rabs_pos_eq 10000) in H by lra.
  assert (L : 1 <= sqrt (q + 1)) by (rewrite <- sqrt_1 at 1; apply sqrt_le_1; lra).
  set (l := sqrt (q + 1)) in *.
  assert (S : l * l = q + 1) by (apply sqrt_sqrt; lra).
  assert (H1 : Rabs ((q - 1) / l) <= 32 / 10) by lra.
  split; [|exact H1].
  destruct (Rle_lt_dec q 13) as [|G]; [assumption|exfalso].
  apply Rabs_le_inv in H1.
  assert (H2 : q - 1 <= 32 / 10 * l).
  { replace (q - 1) with ((q - 1) / l * l) by (field; lra). apply Rmult_le_compat_r; lra. }
  nra.
Qed.

Lemma msrre_ok a b : (0 <= a <= 10000)%Z -> (0 <= b <= 10000)%Z ->
  stores (msrre a b) (ratio_root (IZR a / 10000) (IZR b / 10000)) 10000.
Proof.
  intros A B. unfold stores, ratio_root, msrre.
  destruct (Z.eqb_spec b 0) as [E|E].
  - rewrite E. destruct (Req_EM_T (0 / 10000) 0) as [_|N]; [reflexivity|exfalso; apply N; lra].
  - destruct (Req_EM_T (IZR b / 10000) 0) as [F|F]; [exfalso; apply E, eq_IZR; lra|].
    apply IZR_range in A, B.
    replace (IZR a / 10000 / (IZR b / 10000)) with (IZR a / IZR b) by (field; lra).
    set (q := IZR a / IZR b) in *. unfold fdiv. fold q.
    assert (Q0 : 0 <= q) by (apply Rmult_le_pos; [lra | apply Rlt_le, Rinv_0_lt_compat; lra]).
    destruct (Rlt_dec (-1) q) as [_|N]; [|lra].
    intro H. destruct (ratio_root_small q Q0 H) as [Q1 HQ].
    pose proof (Rabs_le_inv _ _ (rnd32_err q 13 ltac:(lra) ltac:(apply Rabs_le; lra))) as Q2.
    set (q1 := rnd32 q) in *.
    pose proof (Rabs_le_inv _ _ (rnd64_err (q1 - 1) 14 ltac:(lra) ltac:(apply Rabs_le; lra))) as U1.
    set (u1 := rnd64 (q1 - 1)) in *.
    pose proof (Rabs_le_inv _ _ (rnd32_err u1 14 ltac:(lra) ltac:(apply Rabs_le; lra))) as U2.
    set (u2 := rnd32 u1) in *.
    pose proof (Rabs_le_inv _ _ (rnd64_err (q1 + 1) 15 ltac:(lra) ltac:(apply Rabs_le; lra))) as S1.
    set (s1 := rnd64 (q1 + 1)) in *.
    destruct (Rlt_dec s1 0) as [|_]; [lra|].
    assert (L : 1 <= sqrt (q + 1)) by (rewrite <- sqrt_1 at 1; apply sqrt_le_1; lra).
    assert (L4 : sqrt (q + 1) <= 4).
    { replace 4 with (sqrt (4 * 4)) by (apply sqrt_square; lra). apply sqrt_le_1; lra. }
    pose proof (sqrt_lip (q + 1) s1 ltac:(lra) ltac:(lra)) as SL.
    assert (SL1 : Rabs (s1 - (q + 1)) <= 1 / 1200000) by (apply Rabs_le; lra).
    assert (SL2 : Rabs (sqrt s1 - sqrt (q + 1)) <= 1 / 1200000) by lra.
    apply Rabs_le_inv in SL2.
    set (r := sqrt s1) in *. set (l := sqrt (q + 1)) in *.
    pose proof (Rabs_le_inv _ _ (rnd64_err r 5 ltac:(lra) ltac:(apply Rabs_le; lra))) as R1.
    set (r1 := rnd64 r) in *.
    pose proof (Rabs_le_inv _ _ (rnd32_err r1 5 ltac:(lra) ltac:(apply Rabs_le; lra))) as R2.
    set (r2 := rnd32 r1) in *.
    destruct (Req_EM_T r2 0) as [|_]; [lra|].
    assert (D : Rabs (u2 / r2 - (q - 1) / l) <= 11 / 10 * (1 / 550000 + 4 * (1 / 800000))).
    { apply quot_err; try lra; apply Rabs_le; lra. }
    set (x := (q - 1) / l) in *.
    assert (D1 : Rabs (u2 / r2) <= 5).
    { replace (u2 / r2) with (x + (u2 / r2 - x)) by ring. eapply Rle_trans; [apply Rabs_triang|]. lra. }
    pose proof (rnd32_err (u2 / r2) 5 ltac:(lra) D1) as I1. set (i := rnd32 (u2 / r2)) in *.
    assert (I2 : Rabs (i - x) <= 1 / 120000).
    { replace (i - x) with ((i - u2 / r2) + (u2 / r2 - x)) by ring. eapply Rle_trans; [apply Rabs_triang|]. lra. }
    pose proof (times_err i x 10000 _ _ I2 HQ ltac:(lra) ltac:(lra)) as P.
    pose proof (Rabs_le_inv _ _ P) as P'. apply Rabs_le_inv in H.
    destruct (Rlt_dec 32767 (fmul i 10000)) as [|_]; [lra|].
    destruct (Rlt_dec (fmul i 10000) (-32768)) as [|_]; [lra|].
    apply to_value_ok; apply Rabs_le; lra.
Qed.

(** ** Kernel NDVI *)
Lemma exp_lip x y : x <= 0 -> y <= 0 -> Rabs (exp x - exp y) <= Rabs (x - y).
Proof.
  assert (A : forall x y, x <= y -> y <= 0 -> exp y - exp x <= y - x).
  { clear. intros x y H Y. assert (E : exp x = exp y * exp (x - y)) by (rewrite <- exp_plus; f_equal; ring).
    pose proof (exp_ineq1_le (x - y)). pose proof (exp_pos y).
    assert (exp y <= 1) by (rewrite <- exp_0; destruct Y as [Y|Y]; [apply Rlt_le, exp_increasing; exact Y | subst; lra]).
    rewrite E. replace (exp y - exp y * exp (x - y)) with (exp y * (1 - exp (x - y))) by ring.
    assert (exp (x - y) <= 1).
    { rewrite <- exp_0. destruct H as [H|H]; [apply Rlt_le, exp_increasing; lra | subst; rewrite Rminus_diag_eq; [lra|reflexivity]]. }
    apply Rle_trans with (1 * (1 - exp (x - y))); [apply Rmult_le_compat_r; lra | lra]. }
  assert (M : forall x y, x <= y -> exp x <= exp y).
  { intros u v [H|H]; [apply Rlt_le, exp_increasing; exact H | subst; lra]. }
  intros X Y. destruct (Rle_lt_dec x y) as [H|H].
  - rewrite (Rabs_minus_sym (exp x)), (Rabs_minus_sym x). pose proof (M x y H).
    rewrite !Rabs_pos_eq by lra. now apply A.
  - pose proof (M y x ltac:(lra)). rewrite !Rabs_pos_eq by lra. apply A; lra.
Qed.

(** (1-t)/(1+t) *)
Lemma kernel_lip t u : 0 <= t -> 0 <= u -> Rabs ((1 - t) / (1 + t) - (1 - u) / (1 + u)) <= 2 * Rabs (t - u).
Proof.
  intros T U. replace ((1 - t) / (1 + t) - (1 - u) / (1 + u)) with (2 * (u - t) * / ((1 + t) * (1 + u))) by (field; lra).
  rewrite !Rabs_mult, (Rabs_pos_eq 2), (Rabs_minus_sym u) by lra.
  assert (P : 1 <= (1 + t) * (1 + u)) by nra.
  assert (I : 0 <= / ((1 + t) * (1 + u)) <= 1).
  { split; [apply Rlt_le, Rinv_0_lt_compat; lra|]. apply Rmult_le_reg_r with ((1 + t) * (1 + u)); [lra|]. rewrite Rinv_l by lra. lra. }
  rewrite (Rabs_pos_eq (/ _)) by lra.
  pose proof (Rabs_pos (t - u)). rewrite <- (Rmult_1_r (2 * Rabs (t - u))) at 2. apply Rmult_le_compat_l; lra.
Qed.

(** Documented by IndexSpec.documented. *)
Definition kernel (n r : R) : option R :=
  let k := exp (- (n - r) ^ 2 / (2 * (0.5 * (n + r)) ^ 2)) in quotient (1 - k) (1 + k).

(** The exponent as computed. *)
Lemma rel_err x : x = 0 \/ 1 <= x -> exists e, rnd32 x = x * (1 + e) /\ - / 16000000 <= e <= / 16000000.
Proof.
  intros [->|H].
  - exists 0. rewrite rnd32_0. split; lra.
  - exists ((rnd32 x - x) / x). split; [field; lra|].
    pose proof (Rabs_le_inv _ _ (rnd32_err x x H ltac:(rewrite Rabs_pos_eq; lra))) as E.
    split; apply Rmult_le_reg_r with x; try lra; unfold Rdiv; rewrite Rmult_assoc, Rinv_l by lra; lra.
Qed.

Lemma exponent_err d s : d = 0 \/ 1 <= Rabs d -> Rabs d <= s -> 2 <= s ->
  let x := - rnd32 (d * d) / rnd32 (s * (s / 2)) in
  let y := - (d * d) / (s * (s / 2)) in
  -2 <= y <= 0 /\ Rabs (x - y) <= 1 / 1000000 /\ x <= 0.
Proof.
  intros D0 D S x y.
  assert (DD : d * d = Rabs d * Rabs d) by (rewrite <- Rabs_mult, Rabs_pos_eq; [reflexivity | nra]).
  pose proof (Rabs_pos d) as DP.
  assert (S2 : 2 <= s * (s / 2)) by nra.
  assert (D2 : 0 <= d * d <= 2 * (s * (s / 2))) by (rewrite DD; nra).
  assert (D3 : d * d = 0 \/ 1 <= d * d) by (rewrite DD; destruct D0 as [->|D0]; [left; rewrite Rabs_R0; ring | right; nra]).
  unfold x, y. set (m := s * (s / 2)) in *. set (n := d * d) in *.
  assert (Q : 0 <= n / m <= 2).
  { split; [apply Rmult_le_pos; [lra|apply Rlt_le, Rinv_0_lt_compat; lra]|].
    apply Rmult_le_reg_r with m; [lra|]. unfold Rdiv. rewrite Rmult_assoc, Rinv_l by lra. lra. }
  destruct (rel_err n D3) as (e & -> & E). destruct (rel_err m ltac:(lra)) as (f & -> & F).
  assert (Y : - n / m = - (n / m)) by (field; lra).
  assert (X : - (n * (1 + e)) / (m * (1 + f)) = - (n / m * ((1 + e) / (1 + f)))) by (field; lra).
  rewrite Y, X.
  assert (K : 1 - 1 / 4000000 <= (1 + e) / (1 + f) <= 1 + 1 / 4000000).
  { split; apply Rmult_le_reg_r with (1 + f); try lra; unfold Rdiv at 1 2; rewrite ?Rmult_assoc, ?Rinv_l by lra; nra. }
  set (k := (1 + e) / (1 + f)) in *. set (q := n / m) in *.
  split; [lra|]. split; [apply Rabs_le; nra | nra].
Qed.

Lemma kernel_exponent a b : 0 < a -> 0 < b ->
  - (a / 10000 - b / 10000) ^ 2 / (2 * (0.5 * (a / 10000 + b / 10000)) ^ 2) = - ((a - b) * (a - b)) / ((a + b) * ((a + b) / 2)).
Proof. intros A B. replace 0.5 with (/ 2) by lra. field. lra. Qed.

Lemma kernelized_ok a b : (0 < a <= 10000)%Z -> (0 < b <= 10000)%Z ->
  stores (kernelized a b) (kernel (IZR a / 10000) (IZR b / 10000)) 10000.
Proof.
  intros A B. unfold kernelized.
  replace ((a <=? 0)%Z || (b <=? 0)%Z)%bool with false by lia.
  cbv zeta. unfold fmul, fdiv, fsub, fadd.
  set (d := IZR (a - b)). set (t := IZR (a + b)).
  assert (SG : rnd32 (rnd64 (1 / 2 * t)) = t / 2).
  { unfold t. replace (1 / 2 * IZR (a + b)) with (IZR (a + b) / 2) by lra.
    rewrite rnd64_half by lia. apply rnd32_half. lia. }
  assert (S2 : rnd32 (2 * (t / 2)) = t).
  { unfold t. replace (2 * (IZR (a + b) / 2)) with (IZR (a + b)) by lra. apply rnd32_int. lia. }
  rewrite SG, S2.
  assert (T2 : 2 <= t) by (unfold t; apply IZR_le; lia).
  assert (D1 : d = 0 \/ 1 <= Rabs d).
  { unfold d. rewrite <- abs_IZR. destruct (Z.eq_dec (a - b) 0) as [->|N]; [now left|right; apply IZR_le; lia]. }
  assert (D2 : Rabs d <= t) by (unfold d, t; rewrite <- abs_IZR; apply IZR_le; lia).
  destruct (exponent_err d t D1 D2 T2) as (Y & XY & X).
  set (x := - rnd32 (d * d) / rnd32 (t * (t / 2))) in *. set (y := - (d * d) / (t * (t / 2))) in *.
  replace (kernel (IZR a / 10000) (IZR b / 10000)) with (quotient (1 - exp y) (1 + exp y)).
  2:{ pose proof (IZR_lt _ _ (proj1 A)); pose proof (IZR_lt _ _ (proj1 B)).
      unfold kernel, y, d, t. cbv zeta. rewrite minus_IZR, plus_IZR, kernel_exponent by lra. reflexivity. }
  pose proof (exp_pos y) as EY.
  unfold stores, quotient. destruct (Req_EM_T (1 + exp y) 0) as [|_]; [lra|].
  intro H. set (v := (1 - exp y) / (1 + exp y)) in *.
  assert (X2 : rnd32 x <= 0) by (rewrite <- rnd32_0; apply rnd32_le; exact X).
  apply Rabs_le_inv in XY.
  pose proof (Rabs_le_inv _ _ (rnd32_err x 3 ltac:(lra) ltac:(apply Rabs_le; lra))) as X3.
  set (x1 := rnd32 x) in *.
  pose proof (exp_lip x1 y X2 ltac:(lra)) as L.
  assert (L1 : Rabs (x1 - y) <= 3 / 2000000) by (apply Rabs_le; lra).
  assert (L2 : Rabs (exp x1 - exp y) <= 3 / 2000000) by lra. apply Rabs_le_inv in L2.
  pose proof (exp_pos x1) as EX.
  assert (EX1 : exp x1 <= 1) by (rewrite <- exp_0; destruct X2 as [X2|X2]; [apply Rlt_le, exp_increasing; exact X2 | rewrite X2; lra]).
  pose proof (Rabs_le_inv _ _ (rnd64_err (exp x1) 1 ltac:(lra) ltac:(apply Rabs_le; lra))) as E1.
  assert (E0 : 0 <= rnd64 (exp x1)) by (rewrite <- rnd64_0; apply rnd64_le; lra).
  set (z := rnd64 (exp x1)) in *.
  pose proof (Rabs_le_inv _ _ (rnd32_err z 2 ltac:(lra) ltac:(apply Rabs_le; lra))) as E2.
  assert (E3 : 0 <= rnd32 z) by (rewrite <- rnd32_0; apply rnd32_le; lra).
  set (w := rnd32 z) in *.
  assert (EY1 : exp y <= 1) by (rewrite <- exp_0; destruct (proj2 Y) as [Y2|Y2]; [apply Rlt_le, exp_increasing; exact Y2 | rewrite Y2; lra]).
  pose proof (Rabs_le_inv _ _ (rnd32_err (1 - w) 2 ltac:(lra) ltac:(apply Rabs_le; lra))) as N1.
  pose proof (Rabs_le_inv _ _ (rnd32_err (1 + w) 3 ltac:(lra) ltac:(apply Rabs_le; lra))) as M1.
  set (n := rnd32 (1 - w)) in *. set (m := rnd32 (1 + w)) in *.
  assert (V : 0 <= v <= 1).
  { unfold v. split; [apply Rmult_le_pos; [lra|apply Rlt_le, Rinv_0_lt_compat; lra]|].
    apply Rmult_le_reg_r with (1 + exp y); [lra|]. unfold Rdiv. rewrite Rmult_assoc, Rinv_l by lra. lra. }
  assert (Q : Rabs (n / m - v) <= 11 / 10 * (1 / 500000 + 1 * (1 / 500000))).
  { unfold v. apply quot_err; [lra | lra | apply Rabs_le; lra | apply Rabs_le; lra | fold v; rewrite Rabs_pos_eq; lra]. }
  assert (Q1 : Rabs (n / m) <= 2).
  { replace (n / m) with (v + (n / m - v)) by ring. eapply Rle_trans; [apply Rabs_triang|]. rewrite (Rabs_pos_eq v); lra. }
  pose proof (rnd32_err (n / m) 2 ltac:(lra) Q1) as I1. set (i := rnd32 (n / m)) in *.
  assert (I2 : Rabs (i - v) <= 1 / 150000).
  { replace (i - v) with ((i - n / m) + (n / m - v)) by ring. eapply Rle_trans; [apply Rabs_triang|]. lra. }
  pose proof (times_err i v 10000 _ 1 I2 ltac:(apply Rabs_le; lra) ltac:(lra) ltac:(lra)) as P. apply Rabs_le_inv in P.
  unfold fmul in *. apply to_value_ok; apply Rabs_le; lra.
Qed.
