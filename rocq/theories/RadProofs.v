(** Facts about the radiative transfer terms. *)
From Coq Require Import Reals Lra Lia.
From Coquelicot Require Import Coquelicot.
From Verif Require Import Base RadModel RadSpec.
#[local] Open Scope R_scope.

Lemma exp_neg_le x y : x <= y -> exp (- y) <= exp (- x).
Proof. intros. destruct (Req_dec x y) as [->|N]; [lra|]. left. apply exp_increasing. lra. Qed.
Lemma exp_le x y : x <= y -> exp x <= exp y.
Proof. intros. destruct (Req_dec x y) as [->|N]; [lra|]. left. apply exp_increasing. lra. Qed.
Lemma exp_le_1 x : x <= 0 -> exp x <= 1.
Proof. intros. rewrite <- exp_0. now apply exp_le. Qed.
Lemma exp_lt_1 x : x < 0 -> exp x < 1.
Proof. intros. rewrite <- exp_0. now apply exp_increasing. Qed.
Lemma div_ge0 a b : 0 <= a -> 0 < b -> 0 <= a / b.
Proof. intros. apply Rmult_le_pos; auto. left. now apply Rinv_0_lt_compat. Qed.
Lemma div_le_div a b m : a <= b -> 0 < m -> a / m <= b / m.
Proof. intros. apply Rmult_le_compat_r; auto. left. now apply Rinv_0_lt_compat. Qed.

(** ** Transmittances *)
Section Transmittance.
Variables aod mod_ ms mv : R.
Hypothesis HA : 0 <= aod.
Hypothesis HM : 0 <= mod_.
Hypothesis HS : above ms.
Hypothesis HV : above mv.
Lemma total_ge_direct m : above m -> exp (-1.0 * (aod + mod_) / m) <= exp (-1.0 * (0.52 * mod_ + 0.167 * aod) / m).
Proof. intros (M & _). apply exp_le. apply div_le_div; auto. lra. Qed.
Lemma total_le_1 m : above m -> exp (-1.0 * (0.52 * mod_ + 0.167 * aod) / m) <= 1.
Proof. intros (M & _). apply exp_le_1. unfold Rdiv. assert (0 <= (0.52 * mod_ + 0.167 * aod) / m) by (apply div_ge0; lra). unfold Rdiv in *. lra. Qed.
End Transmittance.

Lemma tend_max x : 0 <= x -> x * exp (- x) <= exp (-1).
Proof.
  intros H. assert (x <= exp (x - 1)) as L. { pose proof (exp_ineq1_le (x - 1)). lra. }
  replace (-1) with (x - 1 + - x) by ring. rewrite exp_plus. apply Rmult_le_compat_r; auto. left. apply exp_pos.
Qed.
Lemma exp_m1 : exp (-1) <= 1 / 2.
Proof. replace (-1) with (- (1)) by lra. rewrite exp_Ropp. pose proof (exp_ineq1_le 1). apply Rmult_le_reg_l with (exp 1); [apply exp_pos|]. rewrite Rinv_r; lra. Qed.

(** ** Weights of the surroundings *)
Lemma env_mix a b k1 k2 r1 r2 : 0 <= a -> 0 <= b -> 0 < k1 -> 0 < k2 -> r1 <= r2 -> a * exp (- k1 * r2) + b * exp (- k2 * r2) <= a * exp (- k1 * r1) + b * exp (- k2 * r1).
Proof.
  intros A B K1 K2 H. apply Rplus_le_compat; apply Rmult_le_compat_l; auto; apply exp_le.
  - assert (k1 * r1 <= k1 * r2) by (apply Rmult_le_compat_l; lra). lra.
  - assert (k2 * r1 <= k2 * r2) by (apply Rmult_le_compat_l; lra). lra.
Qed.
Lemma weighted_between a b x y : 0 <= a -> 0 <= b -> 0 < a + b -> x <= y -> x <= (a * x + b * y) / (a + b) <= y.
Proof.
  intros A B S H. assert (a * x <= a * y) by (apply Rmult_le_compat_l; auto). assert (b * x <= b * y) by (apply Rmult_le_compat_l; auto).
  split; apply Rmult_le_reg_r with (a + b); auto; unfold Rdiv; rewrite Rmult_assoc, Rinv_l by lra; lra.
Qed.

(** ** Angles *)
Lemma sin_sqrt z : 0 <= z <= PI -> sqrt (1 - cos z * cos z) = sin z.
Proof.
  intros Z. pose proof (sin2_cos2 z) as E. unfold Rsqr in E. replace (1 - cos z * cos z) with (sin z * sin z) by lra.
  apply sqrt_square. now apply sin_ge_0.
Qed.
Lemma backscatter_dot zs as_ zv av : 0 <= zs <= PI -> 0 <= zv <= PI -> backscatter (cos zs) (cos zv) as_ av = dot (opposite (unit_vec zs as_)) (unit_vec zv av).
Proof.
  intros S V. unfold backscatter, dot, opposite, unit_vec. assert (forall z, 0 <= 1 - cos z * cos z) as P.
  { intros z. pose proof (sin2_cos2 z) as E. unfold Rsqr in E. pose proof (Rle_0_sqr (sin z)) as Q. unfold Rsqr in Q. lra. }
  rewrite sqrt_mult, (sin_sqrt zs S), (sin_sqrt zv V), cos_minus by apply P. lra.
Qed.
Lemma illumin_dot zs as_ slope aspect : illumin (cos zs) (sin zs) (cos slope) (sin slope) as_ aspect = dot (unit_vec zs as_) (unit_vec slope aspect).
Proof. unfold illumin, dot, unit_vec. rewrite cos_minus. ring. Qed.
Lemma dot_range z1 a1 z2 a2 : -1 <= dot (unit_vec z1 a1) (unit_vec z2 a2) <= 1.
Proof.
  unfold dot, unit_vec. set (u1 := sin z1 * cos a1). set (u2 := sin z1 * sin a1). set (u3 := cos z1). set (v1 := sin z2 * cos a2). set (v2 := sin z2 * sin a2). set (v3 := cos z2).
  assert (u1 * u1 + u2 * u2 + u3 * u3 = 1) as U. { unfold u1, u2, u3. pose proof (sin2_cos2 z1) as E. pose proof (sin2_cos2 a1) as F. unfold Rsqr in *. replace (sin z1 * cos a1 * (sin z1 * cos a1) + sin z1 * sin a1 * (sin z1 * sin a1)) with (sin z1 * sin z1 * (sin a1 * sin a1 + cos a1 * cos a1)) by ring. rewrite F. lra. }
  assert (v1 * v1 + v2 * v2 + v3 * v3 = 1) as V. { unfold v1, v2, v3. pose proof (sin2_cos2 z2) as E. pose proof (sin2_cos2 a2) as F. unfold Rsqr in *. replace (sin z2 * cos a2 * (sin z2 * cos a2) + sin z2 * sin a2 * (sin z2 * sin a2)) with (sin z2 * sin z2 * (sin a2 * sin a2 + cos a2 * cos a2)) by ring. rewrite F. lra. }
  clearbody u1 u2 u3 v1 v2 v3. pose proof (Rle_0_sqr (u1 - v1)). pose proof (Rle_0_sqr (u2 - v2)). pose proof (Rle_0_sqr (u3 - v3)). pose proof (Rle_0_sqr (u1 + v1)). pose proof (Rle_0_sqr (u2 + v2)). pose proof (Rle_0_sqr (u3 + v3)). unfold Rsqr in *. lra.
Qed.

(** ** Phase functions *)
Lemma molecular_normalised : normalised phase_molecular.
Proof.
  unfold normalised. replace 2 with ((fun x => 0.75 * (x + x ^ 3 / 3)) 1 - (fun x => 0.75 * (x + x ^ 3 / 3)) (-1)) by (simpl; lra).
  apply (is_RInt_derive (fun x => 0.75 * (x + x ^ 3 / 3)) phase_molecular).
  - intros x _. auto_derive; auto. unfold phase_molecular. simpl. lra.
  - intros x _. apply (ex_derive_continuous (V := R_NormedModule)). unfold phase_molecular. auto_derive. auto.
Qed.

Lemma power_15 u : 0 < u -> Rpower u 1.5 = u * sqrt u.
Proof. intros U. replace 1.5 with (1 + / 2) by lra. rewrite Rpower_plus, Rpower_1, Rpower_sqrt; auto. Qed.
Lemma hg_base g mu : -1 < g < 1 -> -1 <= mu <= 1 -> 0 < 1 + g * g - 2 * g * mu.
Proof.
  intros G M. assert (g * mu <= Rabs g) as L. { eapply Rle_trans; [apply Rle_abs|]. rewrite Rabs_mult. rewrite <- (Rmult_1_r (Rabs g)) at 2. apply Rmult_le_compat_l; [apply Rabs_pos|]. apply Rabs_le. lra. }
  assert (g * g = Rabs g * Rabs g) as ->. { rewrite <- Rabs_mult, Rabs_pos_eq; auto. pose proof (Rle_0_sqr g) as Q. unfold Rsqr in Q. lra. }
  assert (Rabs g < 1) as A by (apply Rabs_def1; lra). pose proof (Rlt_0_sqr (1 - Rabs g) ltac:(lra)) as Q. unfold Rsqr in Q. lra.
Qed.
Definition hg_u g mu := 1 + g * g - 2 * g * mu.
Lemma henyey_int g : -1 < g < 1 -> g <> 0 -> is_RInt (fun mu => (1 - g * g) / (hg_u g mu * sqrt (hg_u g mu))) (-1) 1 2.
Proof.
  intros G N. set (A := fun mu => (1 - g * g) / g * / sqrt (1 + g * g - 2 * g * mu)).
  assert (A 1 - A (-1) = 2) as <-.
  { unfold A. replace (1 + g * g - 2 * g * 1) with ((1 - g) * (1 - g)) by ring. replace (1 + g * g - 2 * g * -1) with ((1 + g) * (1 + g)) by ring. rewrite !sqrt_square by lra. field. lra. }
  apply (is_RInt_derive A).
  - intros mu. rewrite Rmin_left, Rmax_right by lra. intros M. pose proof (hg_base g mu G M) as U. unfold A. auto_derive.
    + split; [exact U|]. split; auto. apply Rgt_not_eq. now apply sqrt_lt_R0.
    + unfold hg_u. set (u := 1 + g * g - 2 * g * mu) in *. replace (1 + g * g + - (2 * g * mu)) with u by (unfold u; ring). pose proof (sqrt_lt_R0 u U) as S. replace (u * sqrt u) with (sqrt u * sqrt u * sqrt u) by (now rewrite sqrt_sqrt by lra). simpl. field. lra.
  - intros mu. rewrite Rmin_left, Rmax_right by lra. intros M. pose proof (hg_base g mu G M) as U. apply (ex_derive_continuous (V := R_NormedModule)). unfold hg_u. auto_derive. split; [exact U|]. split; auto. pose proof (sqrt_lt_R0 _ U) as S. apply Rmult_integral_contrapositive_currified; apply Rgt_not_eq; auto.
Qed.
Lemma aerosol_sum mu : -1 <= mu <= 1 -> phase_aerosol mu hg =
  hg_alpha * ((1 - hg_g1 * hg_g1) / (hg_u hg_g1 mu * sqrt (hg_u hg_g1 mu))) + (1 - hg_alpha) * ((1 - (- hg_g2) * (- hg_g2)) / (hg_u (- hg_g2) mu * sqrt (hg_u (- hg_g2) mu))).
Proof.
  intros M. pose proof (hg_base hg_g1 mu ltac:(unfold hg_g1; lra) M) as U1. pose proof (hg_base (- hg_g2) mu ltac:(unfold hg_g2; lra) M) as U2.
  unfold phase_aerosol, hg, hg_u. cbn [hg0 hg1 hg2 hg3 hg4 hg5].
  replace (1.0 + hg_g1 * hg_g1 - 2.0 * hg_g1 * mu) with (1 + hg_g1 * hg_g1 - 2 * hg_g1 * mu) by lra. replace (1.0 + hg_g2 * hg_g2 + 2.0 * hg_g2 * mu) with (1 + - hg_g2 * - hg_g2 - 2 * - hg_g2 * mu) by lra.
  rewrite !power_15 by auto. unfold Rdiv. replace 1.0 with 1 by lra. ring.
Qed.
Lemma aerosol_normalised : normalised (fun mu => phase_aerosol mu hg).
Proof.
  unfold normalised. replace 2 with (plus (scal hg_alpha 2) (scal (1 - hg_alpha) 2)) by (unfold plus, scal; simpl; unfold mult; simpl; ring).
  eapply is_RInt_ext; [|apply (is_RInt_plus (V := R_NormedModule) (fun mu => scal hg_alpha ((1 - hg_g1 * hg_g1) / (hg_u hg_g1 mu * sqrt (hg_u hg_g1 mu)))) (fun mu => scal (1 - hg_alpha) ((1 - (- hg_g2) * (- hg_g2)) / (hg_u (- hg_g2) mu * sqrt (hg_u (- hg_g2) mu)))))].
  - intros mu. rewrite Rmin_left, Rmax_right by lra. intros M. rewrite aerosol_sum by lra. reflexivity.
  - apply (is_RInt_scal (V := R_NormedModule)). apply henyey_int; unfold hg_g1; lra.
  - apply (is_RInt_scal (V := R_NormedModule)). apply henyey_int; unfold hg_g2; lra.
Qed.
Lemma aerosol_pos mu : -1 <= mu <= 1 -> 0 < phase_aerosol mu hg.
Proof.
  intros M. rewrite aerosol_sum by auto. pose proof (hg_base hg_g1 mu ltac:(unfold hg_g1; lra) M) as U1. pose proof (hg_base (- hg_g2) mu ltac:(unfold hg_g2; lra) M) as U2.
  apply Rplus_lt_0_compat; (apply Rmult_lt_0_compat; [unfold hg_alpha; lra|]; apply Rdiv_lt_0_compat; [unfold hg_g1, hg_g2; lra|]; apply Rmult_lt_0_compat; auto using sqrt_lt_R0).
Qed.

(** ** Gases *)
Definition wsum (t : R -> R) (bs : list (R * R)) : R := fold_right (fun b s => fst b * t (snd b) + s) 0 bs.
Lemma band_fold (t : R -> R) bs : forall a s, fold_left (fun acc ra => let '(r, x) := ra in (fst acc + r * t x, snd acc + r)) bs (a, s) = (a + wsum t bs, s + wsum (fun _ => 1) bs).
Proof.
  induction bs as [|(r, x) bs IH]; intros a s; cbn [fold_left wsum fold_right fst snd]; [f_equal; ring|]. rewrite IH. fold (wsum t bs) (wsum (fun _ => 1) bs). f_equal; ring.
Qed.
Lemma wsum_le t u bs : (forall b, In b bs -> 0 <= fst b /\ 0 <= snd b) -> (forall x, 0 <= x -> t x <= u x) -> wsum t bs <= wsum u bs.
Proof.
  intros B H. induction bs as [|b bs IH]; cbn [wsum fold_right]; [lra|]. fold (wsum t bs) (wsum u bs). apply Rplus_le_compat.
  - destruct (B b (or_introl eq_refl)). apply Rmult_le_compat_l; auto.
  - apply IH. intros; apply B; now right.
Qed.
Lemma wsum_pos t bs : band bs -> (forall x, 0 <= x -> 0 < t x) -> 0 < wsum t bs.
Proof.
  intros (B & (b & I & P)) H. induction bs as [|c bs IH]; [destruct I|]. cbn [wsum fold_right]. fold (wsum t bs).
  assert (0 <= wsum t bs) as N.
  { clear IH I. assert (wsum (fun _ => 0) bs <= wsum t bs) as L. { apply wsum_le; [intros; apply B; now right|]. intros x X. specialize (H x X). lra. }
    assert (wsum (fun _ => 0) bs = 0) as E; [|lra]. clear. induction bs as [|a bs IH]; cbn [wsum fold_right]; [reflexivity|]. fold (wsum (fun _ => 0) bs). rewrite IH. ring. }
  destruct (B c (or_introl eq_refl)) as (C1 & C2). destruct I as [->|I].
  - pose proof (Rmult_lt_0_compat _ _ P (H _ C2)). lra.
  - assert (0 <= fst c * t (snd c)). { apply Rmult_le_pos; auto. left. auto. } specialize (IH (fun b' I' => B b' (or_intror I')) I). lra.
Qed.
Lemma ratio_le t u bs : band bs -> (forall x, 0 <= x -> t x <= u x) -> wsum t bs / wsum (fun _ => 1) bs <= wsum u bs / wsum (fun _ => 1) bs.
Proof. intros B H. apply div_le_div; [apply wsum_le; auto; apply B|]. apply wsum_pos; auto. intros; lra. Qed.
Lemma ratio_range t bs : band bs -> (forall x, 0 <= x -> 0 < t x <= 1) -> 0 < wsum t bs / wsum (fun _ => 1) bs <= 1.
Proof.
  intros B H. assert (0 < wsum (fun _ => 1) bs) as P by (apply wsum_pos; auto; intros; lra). split.
  - apply Rdiv_lt_0_compat; auto. apply wsum_pos; auto. intros; now apply H.
  - eapply Rle_trans; [apply (ratio_le t (fun _ => 1)); auto; intros; now apply H|]. right. field. lra.
Qed.
Lemma wvp_eq w m bs : wvp_transmitt w m bs = wsum (fun a => exp (-1.2110662 * (a * (w / m)) / Rpower (1 + 24.1229127 * (a * (w / m))) 0.3669996)) bs / wsum (fun _ => 1) bs.
Proof. unfold wvp_transmitt. rewrite (band_fold (fun a => exp (-1.2110662 * (a * (w / m)) / Rpower (1 + 24.1229127 * (a * (w / m))) 0.3669996))). now rewrite !Rplus_0_l. Qed.
Lemma ozone_eq o m bs : ozone_transmitt o m bs = wsum (fun a => exp (a * (- o / m))) bs / wsum (fun _ => 1) bs.
Proof. unfold ozone_transmitt. rewrite (band_fold (fun a => exp (a * (- o / m)))). now rewrite !Rplus_0_l. Qed.
Lemma Rpower_pos u p : 0 < Rpower u p.
Proof. apply exp_pos. Qed.
(** x / (1 + c x)^p grows with x. *)
Lemma growth_mono c p x y : 0 < c -> 0 < p < 1 -> 0 <= x -> x <= y -> x / Rpower (1 + c * x) p <= y / Rpower (1 + c * y) p.
Proof.
  intros C P X Y. set (u := 1 + c * x). set (v := 1 + c * y). assert (1 <= u) as U. { unfold u. assert (0 <= c * x) by (apply Rmult_le_pos; lra). lra. } assert (u <= v) as V. { unfold u, v. assert (c * x <= c * y) by (apply Rmult_le_compat_l; lra). lra. }
  assert (Rpower v p <= Rpower u p * (v / u)) as K.
  { replace (Rpower v p) with (Rpower u p * Rpower (v / u) p). 2: { rewrite Rpower_mult_distr; [f_equal; field; lra|lra|]. apply Rdiv_lt_0_compat; lra. }
    apply Rmult_le_compat_l; [left; apply Rpower_pos|]. rewrite <- (Rpower_1 (v / u)) at 2 by (apply Rdiv_lt_0_compat; lra). apply Rle_Rpower; [|lra]. apply Rmult_le_reg_r with u; [lra|]. unfold Rdiv. rewrite Rmult_assoc, Rinv_l by lra. lra. }
  pose proof (Rpower_pos u p) as PU. pose proof (Rpower_pos v p) as PV.
  apply Rmult_le_reg_r with (Rpower u p * Rpower v p); [now apply Rmult_lt_0_compat|].
  replace (x / Rpower u p * (Rpower u p * Rpower v p)) with (x * Rpower v p) by (field; lra). replace (y / Rpower v p * (Rpower u p * Rpower v p)) with (y * Rpower u p) by (field; lra).
  eapply Rle_trans; [apply Rmult_le_compat_l; [exact X|exact K]|]. replace (x * (Rpower u p * (v / u))) with (x * v / u * Rpower u p) by (field; lra). apply Rmult_le_compat_r; [lra|].
  apply Rmult_le_reg_r with u; [lra|]. unfold Rdiv. rewrite Rmult_assoc, Rinv_l by lra. unfold u, v. lra.
Qed.

(** ** Fresnel *)
Lemma fresnel_angles i : 0 < i < PI / 2 -> let i' := asin (sin i / 1.3333) in 0 < i' < i.
Proof.
  intros I. cbv zeta. pose proof PI_RGT_0. assert (0 < sin i) as S by (apply sin_gt_0; lra). pose proof (SIN_bound i) as (_ & SB).
  assert (0 < sin i / 1.3333 < sin i) as R. { split; [apply Rdiv_lt_0_compat; lra|]. apply Rmult_lt_reg_r with 1.3333; [lra|]. unfold Rdiv. rewrite Rmult_assoc, Rinv_l by lra. lra. }
  set (k := sin i / 1.3333) in *. pose proof (asin_bound k) as AB. assert (sin (asin k) = k) as E by (apply sin_asin; lra).
  split.
  - destruct (Rlt_le_dec 0 (asin k)) as [L|L]; auto. assert (sin (asin k) <= sin 0) as Q by (apply sin_incr_1; lra). rewrite sin_0 in Q. lra.
  - destruct (Rlt_le_dec (asin k) i) as [L|L]; auto. assert (sin i <= sin (asin k)) as Q by (apply sin_incr_1; lra). lra.
Qed.
Lemma square_le_1 x : -1 <= x <= 1 -> 0 <= x * x <= 1.
Proof. intros H. pose proof (Rle_0_sqr x) as Q. unfold Rsqr in Q. split; auto. rewrite <- (Rmult_1_r 1). destruct (Rle_lt_dec 0 x); [apply Rmult_le_compat; lra|]. replace (x * x) with ((- x) * (- x)) by ring. apply Rmult_le_compat; lra. Qed.
Lemma quot_range a b : 0 < b -> - b <= a <= b -> -1 <= a / b <= 1.
Proof. intros B A. split; apply Rmult_le_reg_r with b; auto; unfold Rdiv; rewrite Rmult_assoc, Rinv_l by lra; lra. Qed.
Lemma fresnel_range i : 0 < i < PI / 2 -> cos (i + asin (sin i / 1.3333)) <> 0 -> 0 <= fresnel_reflection i <= 1.
Proof.
  intros I N. pose proof (fresnel_angles i I) as B. cbv zeta in B. unfold fresnel_reflection. set (j := asin (sin i / 1.3333)) in *. clearbody j.
  assert (0 < sin (i + j)) as SP by (apply sin_gt_0; lra). assert (0 < sin (i - j)) as SM by (apply sin_gt_0; lra).
  assert (0 < cos i) as CI by (apply cos_gt_0; lra). assert (0 < cos j) as CJ by (apply cos_gt_0; lra). assert (0 < sin i) as SI by (apply sin_gt_0; lra). assert (0 < sin j) as SJ by (apply sin_gt_0; lra).
  assert (0 < cos (i - j)) as CM by (apply cos_gt_0; lra).
  assert (sin (i - j) <= sin (i + j)) as L1. { rewrite sin_plus, sin_minus. pose proof (Rmult_lt_0_compat _ _ CI SJ). lra. }
  assert (- cos (i - j) <= cos (i + j) <= cos (i - j)) as L2. { rewrite cos_plus, cos_minus. pose proof (Rmult_lt_0_compat _ _ CI CJ). pose proof (Rmult_lt_0_compat _ _ SI SJ). lra. }
  assert (- sin (i + j) <= sin (i - j) <= sin (i + j)) as L0 by lra. pose proof (square_le_1 _ (quot_range _ _ SP L0)) as Q1.
  assert (tan (i - j) / tan (i + j) = sin (i - j) / sin (i + j) * (cos (i + j) / cos (i - j))) as E. { unfold tan. field. lra. }
  assert (-1 <= tan (i - j) / tan (i + j) <= 1) as Q2.
  { rewrite E. pose proof (quot_range _ _ CM L2) as K. assert (0 <= sin (i - j) / sin (i + j) <= 1) as J. { split; [apply div_ge0; lra|]. apply quot_range; lra. }
    set (a := sin (i - j) / sin (i + j)) in *. set (b := cos (i + j) / cos (i - j)) in *. clearbody a b. assert (a * (b + 1) >= 0) by (apply Rle_ge, Rmult_le_pos; lra). assert (a * (1 - b) >= 0) by (apply Rle_ge, Rmult_le_pos; lra). lra. }
  apply square_le_1 in Q2. lra.
Qed.

(** ** Ozone *)
Lemma ozone_range lon lat doy : 0.235 <= ozone_amount lon lat doy <= 0.445.
Proof.
  unfold ozone_amount. set (n := if Rlt_dec 0 lat then true else false). clearbody n.
  match goal with |- context [20 * sin ?x] => pose proof (SIN_bound x) as S2; generalize dependent (sin x); intros s2 end.
  match goal with |- context [(if n then 40 else 30) * sin ?x] => pose proof (SIN_bound x) as S1; generalize dependent (sin x); intros s1 end.
  match goal with |- context [_ * sin ?x * sin _] => pose proof (square_le_1 _ (SIN_bound x)) as S3; generalize dependent (sin x); intros s3 end.
  intros S3 S1 S2.
  assert (forall a, 0 <= a <= 210 -> 0 <= a * s3 * s3 <= 210) as K. { intros a A. rewrite Rmult_assoc. split; [apply Rmult_le_pos; lra|]. rewrite <- (Rmult_1_r 210). apply Rmult_le_compat; lra. }
  destruct n; match goal with |- context [?a * s3 * s3] => specialize (K a ltac:(lra)) end; lra.
Qed.
