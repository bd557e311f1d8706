(** Radiative transfer and atmospheric correction: the theorems. *)
From Coq Require Import Reals Lra Lia.
From Flocq Require Import Core.
From Verif Require Import Base BaseFacts Loops LoopsFacts QaiModel QaiSpec QaiProofs RoundModel RadModel RadSpec RadProofs RadInterp RadSurface RadBackground RadStored.
#[local] Open Scope R_scope.

(** ** C76: the terms of the radiative transfer *)
Theorem C76_transmittances : forall aod mod_ ms mv, 0 <= aod -> 0 <= mod_ -> above ms -> above mv ->
  let '(T, t) := scatt_transmitt aod mod_ (optical_depth aod mod_) ms mv in
  (0 < t_sd t /\ 0 <= t_ss t /\ t_sd t + t_ss t = T_s t /\ T_s t <= 1) /\ (0 < t_vd t /\ 0 <= t_vs t /\ t_vd t + t_vs t = T_v t /\ T_v t <= 1) /\ T = T_s t * T_v t /\ 0 < T <= 1.
Proof.
  intros aod mod_ ms mv A M S V. unfold scatt_transmitt, optical_depth. cbn [t_sd t_ss t_vd t_vs T_s T_v].
  pose proof (total_ge_direct aod mod_ A M ms S). pose proof (total_ge_direct aod mod_ A M mv V). pose proof (total_le_1 aod mod_ A M ms S). pose proof (total_le_1 aod mod_ A M mv V).
  pose proof (exp_pos (-1.0 * (aod + mod_) / ms)). pose proof (exp_pos (-1.0 * (aod + mod_) / mv)).
  set (a := exp (-1.0 * (0.52 * mod_ + 0.167 * aod) / ms)) in *. set (b := exp (-1.0 * (0.52 * mod_ + 0.167 * aod) / mv)) in *.
  assert (a * b <= 1 * 1) by (apply Rmult_le_compat; lra). assert (0 < a * b) by (apply Rmult_lt_0_compat; lra). repeat split; lra.
Qed.
Theorem C76_more_aerosol_less_light : forall aod1 aod2 mod_ ms mv, 0 <= aod1 <= aod2 -> 0 <= mod_ -> above ms -> above mv ->
  let '(T1, t1) := scatt_transmitt aod1 mod_ (optical_depth aod1 mod_) ms mv in
  let '(T2, t2) := scatt_transmitt aod2 mod_ (optical_depth aod2 mod_) ms mv in
  T2 <= T1 /\ t_sd t2 <= t_sd t1 /\ t_vd t2 <= t_vd t1.
Proof.
  intros a1 a2 m ms mv A M (S & _) (V & _). unfold scatt_transmitt, optical_depth. cbn [t_sd t_vd].
  split; [|split; apply exp_le, div_le_div; lra].
  apply Rmult_le_compat; try (left; apply exp_pos); apply exp_le, div_le_div; lra.
Qed.
Theorem C76_spherical_albedo : forall aod mod_, 0 <= aod -> 0 <= mod_ -> 0 <= sphere_albedo aod mod_ (optical_depth aod mod_) <= 0.46.
Proof.
  intros a m A M. unfold sphere_albedo, optical_depth. replace (-1.0 * (a + m)) with (- (a + m)) by lra. pose proof (tend_max (a + m) ltac:(lra)) as T. pose proof exp_m1. pose proof (exp_pos (- (a + m))) as P. split.
  - apply Rmult_le_pos; lra.
  - assert (exp (- (a + m)) * (0.92 * m + 0.333 * a) <= exp (- (a + m)) * (0.92 * (a + m))) by (apply Rmult_le_compat_l; lra). lra.
Qed.
Theorem C76_surroundings : forall aod mod_ r1 r2, 0 <= aod -> 0 <= mod_ -> 0 < aod + mod_ -> 0 <= r1 <= r2 ->
  let F r := env_weight aod mod_ (env_weight_aerosol r) (env_weight_molecular r) in
  0 <= F r1 <= F r2 /\ F r2 < 1 /\ F 0 = 0.
Proof.
  intros aod mod_ r1 r2 A M S (R0 & R) F. unfold F. split; [split|split].
  - apply env_weight_range; auto; [apply env_aerosol_range|apply env_molecular_range]; auto.
  - apply env_weight_mono; auto using env_aerosol_mono, env_molecular_mono.
  - apply env_weight_range; auto; [apply env_aerosol_range|apply env_molecular_range]; lra.
  - unfold env_weight, env_weight_aerosol, env_weight_molecular. rewrite !Rmult_0_r, exp_0. replace (0.8333 * aod * (1.0 - (0.375 * 1 + 0.625 * 1)) + 0.5 * mod_ * (1.0 - (0.930 * 1 + 0.070 * 1))) with 0 by lra. unfold Rdiv. ring.
Qed.
Theorem C76_scattering_angle : forall zs as_ zv av, 0 <= zs <= PI -> 0 <= zv <= PI ->
  backscatter (cos zs) (cos zv) as_ av = dot (opposite (unit_vec zs as_)) (unit_vec zv av) /\ -1 <= backscatter (cos zs) (cos zv) as_ av <= 1.
Proof.
  intros zs as_ zv av S V. rewrite backscatter_dot by auto. split; [reflexivity|]. pose proof (dot_range zs as_ zv av) as D. unfold dot, opposite, unit_vec in *. lra.
Qed.
Theorem C76_illumination : forall zs as_ slope aspect,
  illumin (cos zs) (sin zs) (cos slope) (sin slope) as_ aspect = dot (unit_vec zs as_) (unit_vec slope aspect) /\
  illumin (cos zs) (sin zs) (cos 0) (sin 0) as_ aspect = cos zs.
Proof. intros. split; [apply illumin_dot|]. unfold illumin. rewrite cos_0, sin_0. ring. Qed.
Theorem C76_phase_functions : normalised phase_molecular /\ normalised (fun c => phase_aerosol c hg) /\ forall c, -1 <= c <= 1 -> 0 < phase_molecular c /\ 0 < phase_aerosol c hg.
Proof.
  split; [exact molecular_normalised|]. split; [exact aerosol_normalised|]. intros c C. split; [|now apply aerosol_pos].
  unfold phase_molecular. pose proof (Rle_0_sqr c) as Q. unfold Rsqr in Q. lra.
Qed.
Theorem C76_single_scattering : forall sob aod mod_ od pa pr tsd tvd ms mv, 0 <= aod -> 0 <= mod_ -> above ms -> above mv -> 0 <= pa -> 0 <= pr -> 0 <= path_ref false sob aod mod_ od pa pr tsd tvd ms mv.
Proof.
  intros sob aod mod_ od pa pr tsd tvd ms mv A M (S & _) (V & _) PA PR. unfold path_ref. assert (0 < 4.0 * mv * ms) by (apply Rmult_lt_0_compat; lra).
  assert (0 <= aod * pa / (4.0 * mv * ms)) by (apply div_ge0; auto; now apply Rmult_le_pos). assert (0 <= mod_ * pr / (4.0 * mv * ms)) by (apply div_ge0; auto; now apply Rmult_le_pos). lra.
Qed.
Theorem C76_water_vapour : forall bs w w' m m', band bs -> 0 <= w <= w' -> 0 < m' <= m ->
  0 < wvp_transmitt w m bs <= 1 /\ wvp_transmitt w' m' bs <= wvp_transmitt w m bs /\ wvp_transmitt 0 m bs = 1.
Proof.
  intros bs w w' m m' B W M. rewrite !wvp_eq. set (g := fun u a => exp (-1.2110662 * (a * u) / Rpower (1 + 24.1229127 * (a * u)) 0.3669996)).
  assert (forall u a, 0 <= u -> 0 <= a -> 0 < g u a <= 1) as RG.
  { intros u a U A. unfold g. split; [apply exp_pos|]. apply exp_le_1. assert (0 <= 1.2110662 * (a * u) / Rpower (1 + 24.1229127 * (a * u)) 0.3669996). { apply div_ge0; [|apply Rpower_pos]. apply Rmult_le_pos; [lra|]. now apply Rmult_le_pos. } unfold Rdiv in *. lra. }
  assert (forall u v a, 0 <= u <= v -> 0 <= a -> g v a <= g u a) as MO.
  { intros u v a U A. unfold g. apply exp_le. assert (a * u <= a * v) as L by (apply Rmult_le_compat_l; lra). pose proof (growth_mono 24.1229127 0.3669996 (a * u) (a * v) ltac:(lra) ltac:(lra) ltac:(apply Rmult_le_pos; lra) L). unfold Rdiv in *. lra. }
  assert (0 <= w / m) as U0 by (apply div_ge0; lra). assert (w / m <= w' / m') as U1.
  { apply Rmult_le_compat; try lra; [left; apply Rinv_0_lt_compat; lra|]. apply Rinv_le_contravar; lra. }
  split; [|split].
  - apply (ratio_range (g (w / m))); auto.
  - apply (ratio_le (g (w' / m')) (g (w / m))); auto.
  - assert (forall a, g (0 / m) a = 1) as E. { intros a. unfold g. replace (a * (0 / m)) with 0 by (unfold Rdiv; ring). rewrite Rmult_0_r. unfold Rdiv. rewrite Rmult_0_l. apply exp_0. }
    assert (wsum (g (0 / m)) bs = wsum (fun _ => 1) bs) as K. { clear B. induction bs as [|b bs IH]; cbn [wsum fold_right]; [reflexivity|]. fold (wsum (g (0 / m)) bs) (wsum (fun _ => 1) bs). rewrite E, IH. reflexivity. }
    fold (g (0 / m)). change (wsum (fun a => exp (-1.2110662 * (a * (0 / m)) / Rpower (1 + 24.1229127 * (a * (0 / m))) 0.3669996)) bs) with (wsum (g (0 / m)) bs). rewrite K. field. pose proof (wsum_pos (fun _ => 1) bs B ltac:(intros; lra)). lra.
Qed.
Theorem C76_ozone : forall bs o o' m m', band bs -> 0 <= o <= o' -> 0 < m' <= m ->
  0 < ozone_transmitt o m bs <= 1 /\ ozone_transmitt o' m' bs <= ozone_transmitt o m bs /\ ozone_transmitt 0 m bs = 1.
Proof.
  intros bs o o' m m' B O M. rewrite !ozone_eq. set (g := fun u a => exp (a * (- u))).
  assert (forall o m, 0 < m -> forall a, exp (a * (- o / m)) = g (o / m) a) as EQ. { intros. unfold g. f_equal. unfold Rdiv. ring. }
  assert (forall o m, 0 < m -> wsum (fun a => exp (a * (- o / m))) bs = wsum (g (o / m)) bs) as EW.
  { intros o0 m0 P. clear B. induction bs as [|b bs IH]; cbn [wsum fold_right]; [reflexivity|]. fold (wsum (fun a => exp (a * (- o0 / m0))) bs) (wsum (g (o0 / m0)) bs). rewrite IH, EQ; auto. }
  rewrite !EW by lra.
  assert (forall u a, 0 <= u -> 0 <= a -> 0 < g u a <= 1) as RG. { intros u a U A. unfold g. split; [apply exp_pos|]. apply exp_le_1. assert (0 <= a * u) by now apply Rmult_le_pos. lra. }
  assert (forall u v a, 0 <= u <= v -> 0 <= a -> g v a <= g u a) as MO. { intros u v a U A. unfold g. apply exp_le. assert (a * u <= a * v) by (apply Rmult_le_compat_l; lra). lra. }
  assert (0 <= o / m) as U0 by (apply div_ge0; lra). assert (o / m <= o' / m') as U1.
  { apply Rmult_le_compat; try lra; [left; apply Rinv_0_lt_compat; lra|]. apply Rinv_le_contravar; lra. }
  split; [|split].
  - apply (ratio_range (g (o / m))); auto.
  - apply (ratio_le (g (o' / m')) (g (o / m))); auto.
  - assert (wsum (g (0 / m)) bs = wsum (fun _ => 1) bs) as ->. { clear B EW. induction bs as [|b bs IH]; cbn [wsum fold_right]; [reflexivity|]. fold (wsum (g (0 / m)) bs) (wsum (fun _ => 1) bs). rewrite IH. unfold g. replace (snd b * - (0 / m)) with 0 by (unfold Rdiv; ring). now rewrite exp_0. }
    field. pose proof (wsum_pos (fun _ => 1) bs B ltac:(intros; lra)). lra.
Qed.
Theorem C76_ozone_amount : forall lon lat doy, 0.235 <= ozone_amount lon lat doy <= 0.445.
Proof. exact ozone_range. Qed.
Theorem C76_fresnel : forall i, 0 < i < PI / 2 -> cos (i + asin (sin i / 1.3333)) <> 0 -> 0 <= fresnel_reflection i <= 1.
Proof. exact fresnel_range. Qed.
Theorem C76_elevation : forall z1 z2 Hp od, 0 < Hp -> 0 <= z1 <= z2 ->
  (0 < aod_elev_factor z2 Hp <= aod_elev_factor z1 Hp /\ aod_elev_factor 0 Hp = 1) /\
  (0 < mod_elev_factor z2 <= mod_elev_factor z1 /\ mod_elev_factor 0 = 1) /\
  elev_scale (elev_scale od (aod_elev_factor z1 Hp) (aod_elev_factor z2 Hp)) (aod_elev_factor z2 Hp) (aod_elev_factor z1 Hp) = od /\
  (0 <= od -> 0 <= elev_scale od (aod_elev_factor z1 Hp) (aod_elev_factor z2 Hp) <= od) /\
  elev_scale od (aod_elev_factor 0 Hp) (aod_elev_factor z2 Hp) = od * exp (- z2 / Hp).
Proof.
  intros z1 z2 Hp od H Z.
  assert (0 < aod_elev_factor z2 Hp <= aod_elev_factor z1 Hp /\ aod_elev_factor 0 Hp = 1) as F.
  { unfold aod_elev_factor. split; [split; [apply exp_pos|apply exp_le, div_le_div; lra]|].
    replace (- 0 / Hp) with 0 by (unfold Rdiv; ring). apply exp_0. }
  assert ((0 <= od -> 0 <= elev_scale od (aod_elev_factor z1 Hp) (aod_elev_factor z2 Hp) <= od) /\
    elev_scale od (aod_elev_factor 0 Hp) (aod_elev_factor z2 Hp) = od * exp (- z2 / Hp)) as G.
  { destruct F as ((F1 & F2) & F3). split.
    - intros O. unfold elev_scale. split.
      + apply Rmult_le_pos; [|lra]. unfold Rdiv; apply Rmult_le_pos; [lra|]; left; apply Rinv_0_lt_compat; lra.
      + apply Rmult_le_reg_r with (aod_elev_factor z1 Hp); [lra|].
        replace (od / aod_elev_factor z1 Hp * aod_elev_factor z2 Hp * aod_elev_factor z1 Hp)
          with (od * aod_elev_factor z2 Hp) by (field; lra).
        apply Rmult_le_compat_l; lra.
    - unfold elev_scale. rewrite F3. unfold aod_elev_factor. field. }
  split; [exact F|]. clear F. rewrite <- and_assoc. split; [|exact G]. clear G.
  unfold aod_elev_factor, mod_elev_factor, elev_scale.
  pose proof (exp_pos (- z2 / Hp)). pose proof (exp_pos (- z1 / Hp)). split; [split; [split|]|]; auto using exp_pos.
  - apply exp_le. assert (z1 * z1 <= z2 * z2) by (apply Rmult_le_compat; lra). lra.
  - replace (- 0.1188 * 0 - 0.0016 * 0 * 0) with 0 by lra. apply exp_0.
  - field. lra.
Qed.
Example C76_case : above (cos 1) /\ band [(0.5, 0.1); (1, 0)] /\ 0 < 1 < PI / 2.
Proof.
  pose proof PI_RGT_0. pose proof PI2_1 as P. assert (1 < PI / 2) as Q by lra. split; [|split; [split|lra]].
  - split; [apply cos_gt_0; lra|apply COS_bound].
  - intros b [<-|[<-|[]]]; cbn; lra.
  - exists (0.5, 0.1). cbn. split; auto. lra.
Qed.
Print Assumptions C76_transmittances. Print Assumptions C76_phase_functions. Print Assumptions C76_water_vapour. Print Assumptions C76_fresnel.

(** ** C77: surface reflectance *)
Definition no_topo (st : settings) : Prop := do_topo st = false.
Theorem C77_inverts_uniform_scene : forall at_ ref, passing at_ -> a_brdf at_ = 1 -> a_s at_ * ref < 1 -> homogeneous_reflectance at_ 1 (seen at_ ref) = Some ref.
Proof.
  intros at_ ref P B S. rewrite homogeneous_inverts; [f_equal; rewrite B; ring|..]; destruct P; lra.
Qed.
Theorem C77_inverts_target : forall at_ ref bck, passing at_ -> a_brdf at_ = 1 -> bck * a_s at_ < 1 -> target_reflectance at_ 1 (seen_target at_ ref bck) bck = Some ref.
Proof.
  intros at_ ref bck P B S. rewrite target_inverts; [f_equal; rewrite B; ring|..]; destruct P; lra.
Qed.
Theorem C77_brighter_is_brighter : forall at_ r1 r2, passing at_ -> a_s at_ * r2 < 1 -> r1 < r2 -> seen at_ r1 < seen at_ r2.
Proof. exact seen_increasing. Qed.
(** A pixel: the reflectance of the only uniform surface that looks like this, stored. *)
Theorem C77_pixel : forall st p, do_atmo st = true -> do_env st = false -> do_topo st = false -> in_short (p_qai p) -> flag_value Off (p_qai p) = 0%Z ->
  passing (p_atm p) -> a_brdf (p_atm p) = 1 -> a_rho (p_atm p) <= IZR (p_toa p) / 10000 ->
  exists ref v q', surface_pixel st p = Ret (v, q') /\ in_short v /\ in_short q' /\
    a_s (p_atm p) * ref < 1 /\ seen (p_atm p) ref = IZR (p_toa p) / 10000 /\
    (forall r, a_s (p_atm p) * r < 1 -> seen (p_atm p) r = IZR (p_toa p) / 10000 -> r = ref) /\
    stored_as (erase_cloud st) ref (p_qai p) v q'.
Proof.
  intros st p DA DE DT W OFF P B RHO. destruct (homogeneous_sound (p_atm p) _ P RHO) as (ref & E & R0 & S & SEEN). exists ref.
  destruct (store_spec (erase_cloud st) ref (p_qai p) W) as (v & q' & ES & V & Q & ST). exists v, q'. split.
  - unfold surface_pixel. rewrite get_flag_value, OFF by auto. cbn [Z.eqb negb]. cbv zeta. rewrite DA, DE, DT, E, B, Rmult_1_l. exact ES.
  - split; auto. split; auto. split; auto. split; auto. split; auto. intros r Sr Er. eapply seen_injective; eauto. congruence.
Qed.
Theorem C77_pixel_in_background : forall st p, do_atmo st = true -> do_env st = true -> do_topo st = false -> in_short (p_qai p) -> flag_value Off (p_qai p) = 0%Z ->
  passing (p_atm p) -> a_brdf (p_atm p) = 1 -> IZR (p_bck p) / 10000 * a_s (p_atm p) < 1 ->
  exists ref v q', surface_pixel st p = Ret (v, q') /\ in_short v /\ in_short q' /\
    seen_target (p_atm p) ref (IZR (p_bck p) / 10000) = IZR (p_toa p) / 10000 /\ stored_as (erase_cloud st) ref (p_qai p) v q'.
Proof.
  intros st p DA DE DT W OFF P B S. destruct P as [PT PTs Ptvd Ptvs PS PR PG]. set (at_ := p_atm p) in *. set (bck := IZR (p_bck p) / 10000) in *. set (toa := IZR (p_toa p) / 10000).
  set (ref := (toa / a_tg at_ * (1 - bck * a_s at_) - a_rho at_ * (1 - bck * a_s at_) - a_Ts at_ * a_tvs at_ * bck) / (a_Ts at_ * a_tvd at_)). exists ref.
  assert (0 < a_Ts at_ * a_tvd at_) as TT by (apply Rmult_lt_0_compat; lra).
  destruct (store_spec (erase_cloud st) ref (p_qai p) W) as (v & q' & ES & V & Q & ST). exists v, q'. split.
  - unfold surface_pixel. rewrite get_flag_value, OFF by auto. cbn [Z.eqb negb]. cbv zeta. fold at_ bck toa. rewrite DA, DE, DT. unfold target_reflectance. destruct (Req_EM_T (a_tg at_) 0) as [X|_]; [lra|]. destruct (Req_EM_T _ 0) as [X|_]; [lra|]. cbv zeta. rewrite B.
    replace (1 * 1 * _ / _) with ref; [exact ES|]. unfold ref, Rdiv. ring.
  - split; auto. split; auto. split; auto. unfold seen_target, ref. field. lra.
Qed.
Theorem C77_off_pixel : forall st p, in_short (p_qai p) -> flag_value Off (p_qai p) = 1%Z -> surface_pixel st p = Ret ((-9999)%Z, p_qai p).
Proof. intros st p W OFF. unfold surface_pixel. rewrite get_flag_value, OFF by auto. reflexivity. Qed.
Definition air : atmosphere := mkAtm 0.8 1 0.1 0.5 0.3 0.5 0 0.1 0.5 1.
Lemma air_passing : passing air.
Proof. constructor; cbn; lra. Qed.
(** The two branches do not agree on a uniform scene. *)
Theorem C77_branches_agree_refuted : exists at_ toa ref, passing at_ /\ a_T at_ = a_Ts at_ * (a_tvd at_ + a_tvs at_) /\
  homogeneous_reflectance at_ 1 toa = Some ref /\ target_reflectance at_ 1 toa ref <> Some ref.
Proof.
  exists air, (seen air 0.5), 0.5. split; [exact air_passing|]. split; [cbn; lra|]. split.
  - apply C77_inverts_uniform_scene; [exact air_passing|reflexivity|cbn; lra].
  - unfold target_reflectance, seen, air. cbn. destruct (Req_EM_T 0.5 0); [lra|]. destruct (Req_EM_T (1 * 0.5) 0); [lra|]. intros [= E]. lra.
Qed.
Theorem C77_nodata_means_off_refuted : exists r q v q', in_short q /\ store_reflectance false (Some r) q = Ret (v, q') /\ v = (-9999)%Z /\ flag_value Off q' = 0%Z.
Proof.
  destruct (store_ok false (-0.99995) 0) as (v & q' & E & _ & _ & _ & _ & OFF & _ & VAL); [unfold in_short; lia|]. exists (-0.99995), 0%Z, v, q'. split; [unfold in_short; lia|]. split; [exact E|].
  cbn [andb negb orb] in *. destruct (R_lt (-0.99995) (-1)) eqn:L; [apply R_lt_spec in L; lra|]. split; [|exact OFF]. destruct (R_lt 32767 (-0.99995 * 10000)) eqn:H; [apply R_lt_spec in H; lra|]. rewrite VAL.
  rewrite Ztrunc_ceil by lra. apply Zceil_imp. split; cbn; lra.
Qed.
Example C77_case : let p := mkPix 3000 0 4000 0 0 0 0.5 1 air in in_short (p_qai p) /\ flag_value Off (p_qai p) = 0%Z /\ passing (p_atm p) /\ a_brdf (p_atm p) = 1 /\ a_rho (p_atm p) <= IZR (p_toa p) / 10000.
Proof. cbv zeta. split; [unfold in_short; cbn; lia|]. split; [reflexivity|]. split; [exact air_passing|]. split; [reflexivity|]. cbn. lra. Qed.
Print Assumptions C77_pixel. Print Assumptions C77_pixel_in_background. Print Assumptions C77_branches_agree_refuted.

(** ** C78: values between the cells of a coarse grid *)
Theorem C78_between_valid_cells_partial : forall x y nf ne valid grid lo hi, 0 <= x < IZR nf -> 0 <= y < IZR ne -> zlen grid = (nf * ne)%Z ->
  (exists r c, around Rlt x y nf ne r c /\ valid (r * nf + c)%Z = true) ->
  0.5 <= x < IZR nf - 0.5 \/ (forall r c, around Rle x y nf ne r c -> valid (r * nf + c)%Z = true) ->
  (forall r c v, around Rle x y nf ne r c -> valid (r * nf + c)%Z = true -> get_at grid (r * nf + c)%Z = Some v -> lo <= v <= hi) ->
  exists v, interpolate_coarse (interpolation_weights x y nf ne valid) grid = Ret v /\ lo <= v <= hi.
Proof. intros x y nf ne valid grid lo hi X Y. now apply interp_hull. Qed.
Theorem C78_no_valid_cell : forall x y nf ne valid grid, 0 <= x < IZR nf -> 0 <= y < IZR ne -> zlen grid = (nf * ne)%Z -> 0.5 <= x < IZR nf - 0.5 ->
  (forall r c, around Rle x y nf ne r c -> valid (r * nf + c)%Z = false) -> interpolate_coarse (interpolation_weights x y nf ne valid) grid = Ret 0.
Proof. intros x y nf ne valid grid X Y. now apply interp_none. Qed.
Theorem C78_linear_fields : forall x y nf ne valid grid a b e, 0 <= x < IZR nf -> 0 <= y < IZR ne -> zlen grid = (nf * ne)%Z -> 0.5 <= x < IZR nf - 0.5 -> 0.5 <= y < IZR ne - 0.5 ->
  (forall r c, around Rle x y nf ne r c -> valid (r * nf + c)%Z = true /\ get_at grid (r * nf + c)%Z = Some (a + b * (IZR c + 0.5) + e * (IZR r + 0.5))) ->
  interpolate_coarse (interpolation_weights x y nf ne valid) grid = Ret (a + b * x + e * y).
Proof. intros x y nf ne valid grid a b e X Y. now apply interp_linear. Qed.
(** At the left border a cell without data gets half of the weight. *)
Theorem C78_border_refuted : exists x y nf ne valid grid v, 0 <= x < IZR nf /\ 0 <= y < IZR ne /\ zlen grid = (nf * ne)%Z /\
  (exists r c, around Rlt x y nf ne r c /\ valid (r * nf + c)%Z = true) /\
  (forall r c u, around Rle x y nf ne r c -> valid (r * nf + c)%Z = true -> get_at grid (r * nf + c)%Z = Some u -> u = 1) /\
  interpolate_coarse (interpolation_weights x y nf ne valid) grid = Ret v /\ v = -4999.
Proof.
  exists 0, 1, 2%Z, 2%Z, (fun g => (g =? 0)%Z), [1; 5; -9999; 6], (-4999). split; [lra|]. split; [lra|]. split; [reflexivity|]. split; [|split; [|split]].
  - exists 0%Z, 0%Z. split; [|reflexivity]. unfold around. split; [lia|]. split; [lia|]. split; apply Rabs_def1; lra.
  - intros r c u _ V E. apply Z.eqb_eq in V. rewrite V in E. cbn in E. congruence.
  - unfold interpolation_weights, axis_cells. rewrite (Zfloor_IZR 0), (Zfloor_IZR 1). destruct (Rlt_dec (0 - 0) 0.5) as [_|N]; [|lra]. destruct (Rlt_dec (1 - 1) 0.5) as [_|N]; [|lra].
    cbn [Z.ltb Z.compare Z.sub Z.add Z.opp Z.pos_sub Z.geb Z.mul Pos.mul Z.eqb pair_weights Pos.compare Pos.compare_cont Pos.add Pos.eqb andb]. cbn. change (Pos.to_nat 2) with 2%nat. cbn. f_equal. lra.
  - reflexivity.
Qed.
Example C78_case : 0.5 <= 1 < IZR 2 - 0.5 /\ exists r c, around Rlt 1 1 2 2 r c /\ (fun _ : Z => true) (r * 2 + c)%Z = true.
Proof. split; [lra|]. exists 0%Z, 0%Z. split; [|reflexivity]. unfold around. split; [lia|]. split; [lia|]. split; apply Rabs_def1; lra. Qed.
Print Assumptions C78_between_valid_cells_partial. Print Assumptions C78_linear_fields. Print Assumptions C78_border_refuted.

(** ** C79: without atmospheric correction *)
Theorem C79_off_by_at_most_one_partial : forall t, in_short t -> (Z.abs (stored_toa t - t) <= 1)%Z /\ stored_toa 0 = 0%Z.
Proof. intros t T. split; [now apply stored_close|exact stored_zero]. Qed.
Theorem C79_unchanged_refuted : exists t, in_short t /\ stored_toa t <> t.
Proof. exists 1%Z. split; [unfold in_short; lia|]. rewrite stored_one. discriminate. Qed.
Example C79_case : stored_toa 1 = 0%Z.
Proof. exact stored_one. Qed.
Print Assumptions C79_off_by_at_most_one_partial. Print Assumptions C79_unchanged_refuted.

(** ** C80: background reflectance *)
Theorem C80_within_clear_pixels_partial : forall aod mod_ res nx ny off cld F ref (lo hi : Z), 0 <= aod -> 0 <= mod_ -> 0 < aod + mod_ -> 0 < res <= 250 -> (0 < nx)%Z -> (0 < ny)%Z ->
  zlen ref = (nx * ny)%Z -> Forall in_short ref -> (forall p, 0 <= F p <= 1) ->
  (forall p v, (0 <= p < nx * ny)%Z -> off p || cld p = false -> get_at ref p = Some v -> (lo <= v <= hi)%Z) ->
  exists bck, background aod mod_ res nx ny off cld F ref = Ret bck /\ zlen bck = (nx * ny)%Z /\ Forall in_short bck /\
    forall p v, (0 <= p < nx * ny)%Z -> get_at bck p = Some v -> (off p = true -> v = 0%Z) /\ (off p || cld p = false -> (lo <= v <= hi)%Z).
Proof. exact background_ok. Qed.
(** A uniform scene keeps its value. *)
Theorem C80_uniform_scene : forall aod mod_ res nx ny off cld F (k : Z), 0 <= aod -> 0 <= mod_ -> 0 < aod + mod_ -> 0 < res <= 250 -> (0 < nx)%Z -> (0 < ny)%Z -> in_short k -> (forall p, 0 <= F p <= 1) ->
  exists bck, background aod mod_ res nx ny off cld F (repeat k (Z.to_nat (nx * ny))) = Ret bck /\ forall p, (0 <= p < nx * ny)%Z -> off p || cld p = false -> get_at bck p = Some k.
Proof.
  intros aod mod_ res nx ny off cld F k A M S RS X Y K HF. assert (0 <= nx * ny)%Z by (apply Z.mul_nonneg_nonneg; lia).
  destruct (background_ok aod mod_ res nx ny off cld F (repeat k (Z.to_nat (nx * ny))) k k) as (bck & E & L & _ & HB); auto.
  - now apply ChunkProofs.zlen_repeat.
  - apply Forall_forall. intros x I. apply repeat_spec in I. rewrite I. exact K.
  - intros p v P C G. rewrite ChunkProofs.get_repeat in G by lia. injection G as <-. lia.
  - exists bck. split; auto. intros p P C. destruct (get_at_some bck p) as (v & Ev); [lia|]. rewrite Ev. f_equal. destruct (HB p v P Ev) as (_ & Q). specialize (Q C). lia.
Qed.
(** Clouds in a column without a clear pixel take a background of 0. *)
Theorem C80_clouds_refuted : exists aod mod_ res nx ny off cld F ref bck v, 0 <= aod /\ 0 <= mod_ /\ 0 < aod + mod_ /\ 0 < res <= 250 /\ zlen ref = (nx * ny)%Z /\
  (forall p, (0 <= p < nx * ny)%Z -> get_at ref p = Some 5000%Z /\ off p = false) /\ (exists p, (0 <= p < nx * ny)%Z /\ cld p = false) /\
  background aod mod_ res nx ny off cld F ref = Ret bck /\ get_at bck 1 = Some v /\ v = 0%Z.
Proof.
  set (cld := fun p : Z => (p =? 1)%Z). assert (forall alpha, exists a, ring_average alpha 2 1 (fun _ => false) cld [5000; 5000]%Z = Ret [a; 0]) as K. { intros alpha. eexists. cbn -[IZR Rmult Rplus Rminus Rdiv]. reflexivity. }
  destruct (K (ring_alpha 30 0.25)) as (a & Ea). destruct (K (ring_alpha 30 1.00)) as (b & Eb). destruct (K (ring_alpha 30 4.50)) as (c & Ec).
  exists 0.1, 0.2, 30, 2%Z, 1%Z, (fun _ => false), cld, (fun _ => 0), [5000; 5000]%Z.
  destruct (background_ok 0.1 0.2 30 2 1 (fun _ => false) cld (fun _ => 0) [5000; 5000]%Z 5000 5000) as (bck & E & L & _ & _); try lra; try lia; try reflexivity.
  { repeat constructor; cbn; lia. } { intros p. lra. } { intros p v P _ G. assert (p = 0 \/ p = 1)%Z as [-> | ->] by lia; cbn in G; injection G as <-; lia. }
  exists bck, 0%Z. split; [lra|]. split; [lra|]. split; [lra|]. split; [lra|]. split; [reflexivity|]. split. { intros p P. split; auto. assert (p = 0 \/ p = 1)%Z as [-> | ->] by lia; reflexivity. }
  split. { exists 0%Z. split; [lia|reflexivity]. } split; [exact E|]. split; [|reflexivity].
  assert (forall r, background_pixel 0.1 0.2 0 r 0 0 0 = 0%Z) as Z0. { intros r. unfold background_pixel. cbv zeta. rewrite !Rmult_0_r, !Rplus_0_r. unfold Rdiv. rewrite Rmult_0_l, Rmult_0_r, Rplus_0_r, Rmult_0_l. apply Ztrunc_IZR. }
  revert E. unfold background. rewrite Ea. cbn [bind]. rewrite Eb. cbn [bind]. rewrite Ec. cbn [bind]. change (zupto (2 * 1)) with [0; 1]%Z. cbn [omap]. change (get_at [5000; 5000]%Z 0) with (Some 5000%Z). change (get_at [5000; 5000]%Z 1) with (Some 5000%Z).
  change (get_at [a; 0] 0) with (Some a). change (get_at [b; 0] 0) with (Some b). change (get_at [c; 0] 0) with (Some c). change (get_at [a; 0] 1) with (Some 0). change (get_at [b; 0] 1) with (Some 0). change (get_at [c; 0] 1) with (Some 0). cbn [of_option bind]. cbv zeta. rewrite Z0. change (in_shortb 0) with true. cbv iota.
  destruct (in_shortb _); cbn [bind]; [|discriminate]. intros [= <-]. reflexivity.
Qed.
Example C80_case : 0 <= 0.1 /\ 0 <= 0.2 /\ 0 < 0.1 + 0.2 /\ 0 < 30 <= 250 /\ Forall in_short [5000; 4000]%Z.
Proof. repeat split; try lra. repeat constructor; cbn; lia. Qed.
Print Assumptions C80_within_clear_pixels_partial. Print Assumptions C80_uniform_scene.

(** ** C81: topographic correction *)
Definition lit (E0_ : R) (at_ : atmosphere) (szen : R) : Prop := 0 < E0_ /\ 0 < a_tss at_ /\ 0 < a_tsd at_ /\ 0 <= szen < PI / 2.
Theorem C81_flat_terrain : forall E0_ at_ szen cf, lit E0_ at_ szen -> 0 <= cf -> topographic_factor E0_ at_ szen (cos szen) 1 cf = 1.
Proof.
  intros E0_ at_ szen cf (A & B & C & Z) F. assert (0 < cos szen) as MS by (apply cos_gt_0; lra). destruct (topo_value E0_ at_ szen (cos szen) 1 cf) as (-> & _); try lra.
  pose proof (h0_pos szen ltac:(lra)) as H. assert (0 <= cf / ((PI + 2 * szen) / (2.0 * PI))) as K by (apply div_ge0; auto). replace (1 * cf / ((PI + 2 * szen) / (2.0 * PI))) with (cf / ((PI + 2 * szen) / (2.0 * PI))) by (unfold Rdiv; ring). set (k := cf / _) in *. field. lra.
Qed.
Theorem C81_positive_and_decreasing : forall E0_ at_ szen i1 i2 sky cf, lit E0_ at_ szen -> 0 < i1 <= i2 -> 0 <= sky -> 0 <= cf ->
  0 < topographic_factor E0_ at_ szen i2 sky cf <= topographic_factor E0_ at_ szen i1 sky cf.
Proof. intros E0_ at_ szen i1 i2 sky cf (A & B & C & Z) I S F. split; [apply topo_value; lra|now apply topo_monotone]. Qed.
Theorem C81_no_direct_light : forall E0_ at_ szen ill sky cf, ill <= 0 -> topographic_factor E0_ at_ szen ill sky cf = 1.
Proof. intros. unfold topographic_factor. destruct (Rlt_dec 0 ill); [lra|reflexivity]. Qed.
(** The C factor is used as it is in every band ... *)
Theorem C81_factor_partial : forall E0_ at_ szen ill sky cf f, lit E0_ at_ szen -> 0 < ill -> 0 <= sky -> 0 <= cf -> f <> 0 ->
  topographic_factor E0_ at_ szen ill sky cf = carried_factor (cos szen) ill sky cf f f ((PI + 2 * szen) / (2 * PI)).
Proof.
  intros E0_ at_ szen ill sky cf f (A & B & C & Z) I S F N. destruct (topo_value E0_ at_ szen ill sky cf) as (-> & _); try lra. unfold carried_factor. replace 2.0 with 2 by lra.
  replace (cf / f * f) with cf by (field; auto). replace (sky * cf / f * f) with (sky * cf) by (field; auto). reflexivity.
Qed.
(** ... not carried from SWIR2 to the band. *)
Theorem C81_carried_refuted : exists E0_ at_ szen ill sky cf f_sw2, lit E0_ at_ szen /\ 0 < ill /\ 0 <= sky /\ 0 <= cf /\ 0 < f_sw2 /\
  topographic_factor E0_ at_ szen ill sky cf <> carried_factor (cos szen) ill sky cf (a_tss at_ / a_tsd at_) f_sw2 ((PI + 2 * szen) / (2 * PI)).
Proof.
  exists 1, air, 0, 0.5, 1, 1, 0.1. assert (lit 1 air 0) as L. { pose proof PI_RGT_0. split; [lra|]. split; [cbn; lra|]. split; [cbn; lra|]. lra. } split; auto. split; [lra|]. split; [lra|]. split; [lra|]. split; [lra|].
  destruct L as (A & B & C & Z). destruct (topo_value 1 air 0 0.5 1 1) as (-> & _); try lra. unfold carried_factor. rewrite cos_0. pose proof PI_RGT_0.
  replace 2.0 with 2 by lra. assert ((PI + 2 * 0) / (2 * PI) = / 2) as -> by (field; lra). cbn. lra.
Qed.
Example C81_case : lit 1 air 0.5.
Proof. pose proof PI2_1. split; [lra|]. split; [cbn; lra|]. split; [cbn; lra|]. lra. Qed.
Print Assumptions C81_flat_terrain. Print Assumptions C81_carried_refuted.
