(** Lemmas about slope, aspect and illumination. *)
From Coq Require Import Reals Lra Lia ZifyBool.
From Flocq Require Import Core.
From Verif Require Import Base Loops RoundModel RoundFacts RadModel RadSpec RadProofs TopModel TopSpec.
#[local] Open Scope R_scope.

Lemma pi_pos : 0 < PI. Proof. apply PI_RGT_0. Qed.
Lemma cos_two t : 0 <= t <= 2 -> cos t <= 1 - t * t / 2 + t * t * t * t / 24.
Proof.
  intros H. destruct (pre_cos_bound t 0 ltac:(lra) ltac:(lra)) as (_ & B). unfold cos_approx, cos_term in B. cbn -[INR] in B.
  replace (INR 1) with 1 in * by reflexivity. replace (INR 2) with 2 in * by (cbn; lra). replace (INR 24) with 24 in B by (cbn; lra). lra.
Qed.
Lemma pi_up : PI < 3.2.
Proof.
  destruct (Rlt_or_le PI 3.2) as [L|L]; auto. exfalso. pose proof (cos_two 1.6 ltac:(lra)) as C. assert (0 <= cos 1.6) by (apply cos_ge_0; lra). lra.
Qed.

(** ** The angle of a point *)
Lemma atan_cos t : cos (atan t) = 1 / sqrt (1 + t * t).
Proof. rewrite cos_atan. unfold Rsqr. reflexivity. Qed.
Lemma atan_sin t : sin (atan t) = t / sqrt (1 + t * t).
Proof. rewrite sin_atan. unfold Rsqr. reflexivity. Qed.
Lemma root_ratio x y : x <> 0 -> sqrt (1 + y / x * (y / x)) = sqrt (x * x + y * y) / Rabs x.
Proof.
  intros H. replace (1 + y / x * (y / x)) with ((x * x + y * y) / (x * x)) by (field; auto). rewrite sqrt_div; [|nra|nra]. f_equal. rewrite <- sqrt_Rsqr_abs. unfold Rsqr. reflexivity.
Qed.
Lemma atan2_ok y x : x * x + y * y <> 0 -> let r := sqrt (x * x + y * y) in let t := atan2 y x in
  - PI <= t <= PI /\ r * cos t = x /\ r * sin t = y.
Proof.
  intros N r t. assert (R0 : 0 < r) by (apply sqrt_lt_R0; nra). unfold t, atan2. pose proof pi_pos as PP.
  destruct (Rlt_bool_spec 0 x) as [X|X].
  - pose proof (atan_bound (y / x)) as B. split; [lra|]. rewrite atan_cos, atan_sin, root_ratio by lra. fold r. rewrite Rabs_pos_eq by lra. split; field; lra.
  - destruct (Rlt_bool_spec x 0) as [X'|X'].
    + pose proof (atan_bound (y / x)) as B. assert (ND : Rabs x = - x) by (apply Rabs_left; auto).
      destruct (Rle_bool_spec 0 y) as [Y|Y].
      * assert (y / x <= 0) as Q by (unfold Rdiv; pose proof (Rinv_lt_0_compat x X'); nra).
        assert (atan (y / x) <= 0) as A by (destruct Q as [Q|Q]; [left; rewrite <- atan_0; apply atan_increasing; auto|rewrite Q, atan_0; lra]).
        split; [lra|]. rewrite neg_cos, neg_sin, atan_cos, atan_sin, root_ratio, ND by lra. fold r. split; field; lra.
      * assert (0 < y / x) as Q by (unfold Rdiv; pose proof (Rinv_lt_0_compat x X'); nra).
        assert (0 < atan (y / x)) as A by (rewrite <- atan_0; apply atan_increasing; auto).
        split; [lra|]. replace (atan (y / x) - PI) with (- (PI - atan (y / x))) by ring. rewrite cos_neg, sin_neg. replace (PI - atan (y / x)) with (- atan (y / x) + PI) by ring. rewrite neg_cos, neg_sin, cos_neg, sin_neg, atan_cos, atan_sin, root_ratio, ND by lra. fold r. split; field; lra.
    + assert (x = 0) by lra. subst x. assert (y <> 0) by (intros ->; lra). assert (r = Rabs y) as RY by (unfold r; replace (0 * 0 + y * y) with (Rsqr y) by (unfold Rsqr; ring); apply sqrt_Rsqr_abs).
      destruct (Rlt_bool_spec 0 y) as [Y|Y].
      * split; [lra|]. rewrite cos_PI2, sin_PI2, RY, Rabs_pos_eq by lra. split; ring.
      * split; [lra|]. rewrite cos_neg, sin_neg, cos_PI2, sin_PI2, RY, Rabs_left by lra. split; ring.
Qed.

(** ** Slope and aspect *)
Definition steepness (dx dy : R) : R := sqrt (dx * dx + dy * dy).
Lemma steepness_pos dx dy : 0 <= steepness dx dy. Proof. apply sqrt_pos. Qed.
Lemma degree_pos : 0 < degree. Proof. unfold degree. pose proof pi_pos. lra. Qed.
Lemma slope_rad dx dy : slope_of dx dy * degree = atan (steepness dx dy).
Proof. unfold slope_of, steepness. field. pose proof degree_pos. lra. Qed.
Lemma slope_range dx dy : 0 <= atan (steepness dx dy) < PI / 2.
Proof.
  pose proof (steepness_pos dx dy) as P. pose proof (atan_bound (steepness dx dy)) as B. split; [|lra]. destruct P as [P|P]; [left; rewrite <- atan_0; apply atan_increasing; auto|rewrite <- P, atan_0; lra].
Qed.
Lemma slope_zero dx dy : 0 < slope_of dx dy <-> 0 < steepness dx dy.
Proof.
  pose proof degree_pos as D. pose proof (slope_rad dx dy) as E. split; intros H.
  - destruct (Rlt_or_le 0 (steepness dx dy)) as [L|L]; auto. exfalso. assert (steepness dx dy = 0) as Z by (pose proof (steepness_pos dx dy); lra). rewrite Z, atan_0 in E. nra.
  - assert (0 < atan (steepness dx dy)) as A by (rewrite <- atan_0; apply atan_increasing; auto). rewrite <- E in A. nra.
Qed.
Lemma aspect_ok dx dy : 0 < steepness dx dy -> let a := aspect_of dx dy * degree in
  0 <= a <= 2 * PI /\ steepness dx dy * sin a = - dx /\ steepness dx dy * cos a = dy.
Proof.
  intros H a. assert (N : -1 * dx * (-1 * dx) + dy * dy <> 0).
  { intros E. unfold steepness in H. replace (dx * dx + dy * dy) with 0 in H by lra. rewrite sqrt_0 in H. lra. }
  pose proof (atan2_ok dy (-1 * dx) N) as (B & C & S). cbn zeta in B, C, S. replace (-1 * dx * (-1 * dx)) with (dx * dx) in C, S by ring. fold (steepness dx dy) in C, S.
  set (t := atan2 dy (-1 * dx)) in *. pose proof degree_pos as D. pose proof pi_pos as PP.
  assert (TD : t / degree * degree = t) by (field; lra). assert (D90 : 90 * degree = PI / 2) by (unfold degree; field). assert (D360 : 360 * degree = 2 * PI) by (unfold degree; field).
  assert (LT : forall x, t / degree < x <-> t < x * degree) by (intros x; split; intros L; [rewrite <- TD|apply Rmult_lt_reg_r with degree; auto; rewrite TD; auto]; apply Rmult_lt_compat_r; auto).
  assert (GT : forall x, x < t / degree <-> x * degree < t) by (intros x; split; intros L; [rewrite <- TD|apply Rmult_lt_reg_r with degree; auto; rewrite TD; auto]; apply Rmult_lt_compat_r; auto).
  unfold a, aspect_of. fold t. destruct (Rlt_bool_spec (t / degree) 0) as [L|L].
  - apply LT in L. replace ((90 - t / degree) * degree) with (PI / 2 - t) by (rewrite Rmult_minus_distr_r, TD, D90; auto). rewrite sin_shift, cos_shift. split; [lra|]. lra.
  - assert (0 <= t) as L' by (destruct (Rle_or_lt 0 t) as [K|K]; auto; exfalso; assert (t / degree < 0) by (apply LT; lra); lra).
    destruct (Rlt_bool_spec 90 (t / degree)) as [M|M].
    + apply GT in M. rewrite D90 in M. replace ((360 - t / degree + 90) * degree) with (PI / 2 - t + 2 * PI) by (rewrite Rmult_plus_distr_r, Rmult_minus_distr_r, TD, D90, D360; ring). 
      rewrite sin_plus, cos_plus, sin_2PI, cos_2PI, sin_shift, cos_shift. split; [lra|]. lra.
    + assert (t <= PI / 2) as M' by (destruct (Rle_or_lt t (PI / 2)) as [K|K]; auto; exfalso; assert (90 < t / degree) by (apply GT; lra); lra).
      replace ((90 - t / degree) * degree) with (PI / 2 - t) by (rewrite Rmult_minus_distr_r, TD, D90; auto). rewrite sin_shift, cos_shift. split; [lra|]. lra.
Qed.
Lemma ushort_ok x : 0 <= x < 65536 -> ushort_of x = Ret (Ztrunc x).
Proof.
  intros (L & H). unfold ushort_of. assert (0 <= Ztrunc x <= 65535)%Z as B.
  { rewrite Ztrunc_floor by auto. split; [apply Zfloor_lub; auto|]. assert (Zfloor x < 65536)%Z; [|lia]. apply lt_IZR. pose proof (Zfloor_lb x). lra. }
  match goal with |- (if ?b then _ else _) = _ => destruct b eqn:E end; auto. exfalso. lia.
Qed.
Lemma trunc_err x : 0 <= x -> 0 <= x - IZR (Ztrunc x) < 1.
Proof. intros H. rewrite Ztrunc_floor by auto. pose proof (Zfloor_lb x). pose proof (Zfloor_ub x). lra. Qed.
Lemma inner_ok w res e : complete w = true -> x_off e = false ->
  let dx := devx (valid w) res in let dy := devy (valid w) res in
  exists s a, 0 <= s < PI / 2 /\ tan s = steepness dx dy /\ 0 <= a <= 2 * PI /\ steepness dx dy * sin a = - dx /\ steepness dx dy * cos a = dy /\ (steepness dx dy = 0 -> a = 0) /\
    inner w res e = Ret (mkExpo false (x_steep e || Rlt_bool (2 * PI / 180) s) (Ztrunc (s * 10000)) (Ztrunc (a * 10000))).
Proof.
  intros C O dx dy. pose proof pi_up as PU. pose proof pi_pos as PP. pose proof (slope_range dx dy) as SR. pose proof degree_pos as DP.
  exists (atan (steepness dx dy)), ((if Rlt_bool 0 (slope_of dx dy) then aspect_of dx dy else 0) * degree).
  split; auto. split; [apply tan_atan|].
  assert (A : 0 <= (if Rlt_bool 0 (slope_of dx dy) then aspect_of dx dy else 0) * degree <= 2 * PI /\ steepness dx dy * sin ((if Rlt_bool 0 (slope_of dx dy) then aspect_of dx dy else 0) * degree) = - dx /\ steepness dx dy * cos ((if Rlt_bool 0 (slope_of dx dy) then aspect_of dx dy else 0) * degree) = dy).
  { destruct (Rlt_bool_spec 0 (slope_of dx dy)) as [L|L]; [apply aspect_ok; apply slope_zero; auto|]. rewrite Rmult_0_l, sin_0, cos_0.
    assert (steepness dx dy = 0) as Z. { pose proof (steepness_pos dx dy). destruct (Rle_lt_or_eq_dec 0 (steepness dx dy) H) as [K|K]; auto. apply slope_zero in K. lra. }
    rewrite Z. assert (dx = 0 /\ dy = 0) as (-> & ->); [|lra]. unfold steepness in Z. apply sqrt_eq_0 in Z; [|nra]. split; nra. }
  destruct A as (A1 & A2 & A3). split; auto. split; auto. split; auto. split.
  - intros Z. destruct (Rlt_bool_spec 0 (slope_of dx dy)) as [L|L]; [apply slope_zero in L; lra|ring].
  - unfold inner. rewrite O, C. cbv zeta. fold dx. fold dy. rewrite slope_rad, !ushort_ok by lra. cbn [bind]. f_equal. f_equal. f_equal.
    rewrite <- slope_rad. replace (2 * PI / 180) with (2 * degree) by (unfold degree; field).
    destruct (Rlt_bool_spec 2 (slope_of dx dy)), (Rlt_bool_spec (2 * degree) (slope_of dx dy * degree)); auto; exfalso; nra.
Qed.
Lemma plane_dev z0 res e s : 0 < res -> complete (plane z0 res e s) = true /\ devx (valid (plane z0 res e s)) res = e /\ devy (valid (plane z0 res e s)) res = s.
Proof. intros H. split; [reflexivity|]. unfold devx, devy, valid, plane. cbn [INR]. split; field; lra. Qed.

(** ** Illumination *)
Lemma cos_lip a b : Rabs (cos a - cos b) <= Rabs (a - b).
Proof.
  assert (forall x, Rabs (sin x) <= Rabs x) as SL.
  { intros x. destruct (Rle_or_lt 0 x) as [P|P].
    - rewrite (Rabs_pos_eq x P). destruct (Rle_or_lt x 1) as [Q|Q].
      + destruct P as [P|<-]; [|rewrite sin_0, Rabs_R0; lra]. pose proof (sin_lt_x x P). assert (0 <= sin x) by (apply sin_ge_0; pose proof PI2_1; lra). rewrite Rabs_pos_eq; lra.
      + pose proof (SIN_bound x). apply Rabs_le. lra.
    - rewrite (Rabs_left x P). rewrite <- Rabs_Ropp, <- sin_neg. destruct (Rle_or_lt (- x) 1) as [Q|Q].
      + pose proof (sin_lt_x (- x) ltac:(lra)). assert (0 <= sin (- x)) by (apply sin_ge_0; pose proof PI2_1; lra). rewrite Rabs_pos_eq; lra.
      + pose proof (SIN_bound (- x)). apply Rabs_le. lra. }
  rewrite form2. rewrite !Rabs_mult. pose proof (SL ((a - b) / 2)) as S. assert (Rabs (sin ((a + b) / 2)) <= 1) as T by (apply Rabs_le; apply SIN_bound).
  replace (Rabs (-2)) with 2 by (rewrite Rabs_left; lra). replace (Rabs (a - b)) with (2 * Rabs ((a - b) / 2)) by (unfold Rdiv; rewrite Rabs_mult, (Rabs_pos_eq (/ 2)) by lra; lra).
  pose proof (Rabs_pos (sin ((a - b) / 2))). pose proof (Rabs_pos (sin ((a + b) / 2))). nra.
Qed.
Lemma sin_lip a b : Rabs (sin a - sin b) <= Rabs (a - b).
Proof. rewrite <- !cos_shift. replace (a - b) with (- ((PI / 2 - a) - (PI / 2 - b))) by ring. rewrite Rabs_Ropp. apply cos_lip. Qed.
Lemma illumin_lip zen azi s a s' a' : Rabs (illumin (cos zen) (sin zen) (cos s) (sin s) azi a - illumin (cos zen) (sin zen) (cos s') (sin s') azi a') <= 2 * Rabs (s - s') + Rabs (a - a').
Proof.
  unfold illumin. pose proof (cos_lip s s') as C. pose proof (sin_lip s s') as S. pose proof (cos_lip (azi - a) (azi - a')) as A. replace (azi - a - (azi - a')) with (- (a - a')) in A by ring. rewrite Rabs_Ropp in A.
  replace (cos zen * cos s + sin zen * sin s * cos (azi - a) - (cos zen * cos s' + sin zen * sin s' * cos (azi - a')))
    with (cos zen * (cos s - cos s') + (sin zen * cos (azi - a) * (sin s - sin s') + sin zen * sin s' * (cos (azi - a) - cos (azi - a')))) by ring.
  assert (U : forall u v, Rabs u <= 1 -> Rabs (u * v) <= Rabs v) by (intros u v H; rewrite Rabs_mult; pose proof (Rabs_pos v); nra).
  assert (UU : forall u v, Rabs u <= 1 -> Rabs v <= 1 -> Rabs (u * v) <= 1) by (intros u v H K; rewrite Rabs_mult; pose proof (Rabs_pos v); pose proof (Rabs_pos u); nra).
  assert (C1 : forall x, Rabs (cos x) <= 1) by (intros; apply Rabs_le, COS_bound). assert (S1 : forall x, Rabs (sin x) <= 1) by (intros; apply Rabs_le, SIN_bound).
  eapply Rle_trans; [apply Rabs_triang|]. eapply Rle_trans; [apply Rplus_le_compat; [apply U; auto|apply Rabs_triang]|]. 
  pose proof (U (sin zen * cos (azi - a)) (sin s - sin s') (UU _ _ (S1 _) (C1 _))). pose proof (U (sin zen * sin s') (cos (azi - a) - cos (azi - a')) (UU _ _ (S1 _) (S1 _))). lra.
Qed.
Lemma illumin_unit zen azi s a : Rabs (illumin (cos zen) (sin zen) (cos s) (sin s) azi a) <= 1.
Proof.
  unfold illumin. pose proof (COS_bound (zen - s)) as M. pose proof (COS_bound (zen + s)) as P. rewrite cos_minus in M. rewrite cos_plus in P. pose proof (COS_bound (azi - a)) as B. set (c := cos (azi - a)) in *. clearbody c.
  set (q := sin zen * sin s) in *. set (u := cos zen * cos s) in *. clearbody q u. apply Rabs_le. destruct (Rle_or_lt 0 q); split; nra.
Qed.
Lemma short_of_ok' x : Rabs x <= 10000 -> short_of' x = Ret (Ztrunc x).
Proof.
  intros H. apply Rabs_le_inv in H. unfold short_of'. assert (-10000 <= Ztrunc x <= 10000)%Z as B.
  { split; [rewrite <- (Ztrunc_IZR (-10000))|rewrite <- (Ztrunc_IZR 10000)]; apply Ztrunc_le; lra. }
  match goal with |- (if ?b then _ else _) = _ => destruct b eqn:E end; auto. exfalso. lia.
Qed.
Lemma trunc_abs x : Rabs (IZR (Ztrunc x) - x) < 1.
Proof.
  destruct (Rle_or_lt 0 x) as [P|P].
  - pose proof (trunc_err x P). apply Rabs_lt. lra.
  - rewrite Ztrunc_ceil by lra. unfold Zceil. rewrite opp_IZR. pose proof (Zfloor_lb (- x)). pose proof (Zfloor_ub (- x)). apply Rabs_lt. lra.
Qed.
Lemma trunc_range x a b : IZR a <= x <= IZR b -> (a <= Ztrunc x <= b)%Z.
Proof. intros (A & B). apply Ztrunc_le in A, B. rewrite Ztrunc_IZR in A, B. lia. Qed.
Lemma illuminate_ok zen azi slp asp : (0 <= slp)%Z -> IZR slp / 10000 <= PI / 2 ->
  exists ill cls sky, illuminate zen azi slp asp = Ret (ill, cls, sky) /\
    ill = Ztrunc (illumin (cos zen) (sin zen) (cos (IZR slp / 10000)) (sin (IZR slp / 10000)) azi (IZR asp / 10000) * 10000) /\ (-10000 <= ill <= 10000)%Z /\
    ((cls = 3 <-> ill < 0) /\ (cls = 2 <-> 0 <= ill <= 1736) /\ (cls = 1 <-> 1737 <= ill <= 5735) /\ (cls = 0 <-> 5736 <= ill))%Z /\ (5000 <= sky <= 10000)%Z.
Proof.
  intros S SB. set (v := illumin (cos zen) (sin zen) (cos (IZR slp / 10000)) (sin (IZR slp / 10000)) azi (IZR asp / 10000)). pose proof (illumin_unit zen azi (IZR slp / 10000) (IZR asp / 10000)) as U. fold v in U.
  assert (U2 : Rabs (v * 10000) <= 10000) by (rewrite Rabs_mult, (Rabs_pos_eq 10000) by lra; lra). apply IZR_le in S. pose proof pi_pos as PP.
  assert (SK : 0 <= IZR slp / 10000 / PI <= / 2).
  { split; [apply Rmult_le_pos; [lra|left; apply Rinv_0_lt_compat; lra]|]. apply Rmult_le_reg_r with PI; auto. unfold Rdiv at 1. rewrite Rmult_assoc, Rinv_l by lra. lra. }
  assert (V : (if Req_bool (IZR slp / 10000) 0 then cos zen else illumin (cos zen) (sin zen) (cos (IZR slp / 10000)) (sin (IZR slp / 10000)) azi (IZR asp / 10000)) = v).
  { fold v. destruct (Req_bool_spec (IZR slp / 10000) 0) as [Z|Z]; auto. unfold v, illumin. rewrite Z, cos_0, sin_0. ring. }
  pose proof (short_of_ok' _ U2) as SO. apply Rabs_le_inv in U2. set (sky := Ztrunc (10000 - IZR slp / 10000 / PI * 10000)).
  exists (Ztrunc (v * 10000)). set (ill := Ztrunc (v * 10000)) in *. 
  exists (if (ill <? 0)%Z then 3%Z else if Rlt_bool (IZR ill) 1736.482 then 2%Z else if Rlt_bool (IZR ill) 5735.764 then 1%Z else 0%Z), sky.
  split. { unfold illuminate. cbv zeta. rewrite V, SO. cbn [bind]. rewrite ushort_ok by lra. reflexivity. }
  split; auto. split. { apply (trunc_range _ (-10000) 10000). lra. }
  split.
  - clearbody ill. clear - ill. assert (L1 : IZR ill < 1736.482 <-> (ill <= 1736)%Z) by (split; intros H; [assert (ill < 1737)%Z; [apply lt_IZR; lra|lia]|apply IZR_le in H; lra]).
    assert (L2 : IZR ill < 5735.764 <-> (ill <= 5735)%Z) by (split; intros H; [assert (ill < 5736)%Z; [apply lt_IZR; lra|lia]|apply IZR_le in H; lra]).
    destruct (Z.ltb_spec ill 0); [lia|]. destruct (Rlt_bool_spec (IZR ill) 1736.482) as [A|A].
    + apply L1 in A. lia.
    + assert (1736 < ill)%Z by (destruct (Z.le_gt_cases ill 1736) as [K|K]; [apply L1 in K; lra|lia]). destruct (Rlt_bool_spec (IZR ill) 5735.764) as [B|B]; [apply L2 in B; lia|].
      assert (5735 < ill)%Z by (destruct (Z.le_gt_cases ill 5735) as [K|K]; [apply L2 in K; lra|lia]). lia.
  - apply (trunc_range _ 5000 10000). lra.
Qed.
Lemma normal_ok e s z a : 0 <= z < PI / 2 -> tan z = steepness e s -> steepness e s * sin a = - e -> steepness e s * cos a = s -> unit_vec z a = normal e s.
Proof.
  intros Z T S C. assert (CZ : 0 < cos z) by (apply cos_gt_0; lra). pose proof (steepness_pos e s) as SP. set (m := steepness e s) in *.
  assert (M : m * m = e * e + s * s) by (unfold m, steepness; apply sqrt_sqrt; nra).
  assert (SZ : sin z = m * cos z) by (rewrite <- T; unfold tan; field; lra). pose proof (sin2_cos2 z) as P. unfold Rsqr in P.
  assert (N : sqrt (1 + e * e + s * s) = / cos z).
  { replace (1 + e * e + s * s) with (/ cos z * / cos z); [apply sqrt_square; left; apply Rinv_0_lt_compat; auto|]. apply Rmult_eq_reg_r with (cos z * cos z); [|nra]. replace (/ cos z * / cos z * (cos z * cos z)) with 1 by (field; lra). rewrite SZ in P. nra. }
  unfold unit_vec, normal. cbv zeta. rewrite N, SZ. f_equal; [f_equal|]; unfold Rdiv; rewrite Rinv_inv; nra.
Qed.
