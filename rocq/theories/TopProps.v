(** Topography: claims C136 to C139. *)
From Coq Require Import Reals Lra Lia ZifyBool Sorting.Sorted.
From Flocq Require Import Core.
From Verif Require Import Base Loops RoundModel RoundFacts RadModel RadSpec RadProofs TopModel TopSpec TopProofs TopGeo TopNum.
#[local] Open Scope R_scope.

(** ** C136: slope, aspect and illumination *)
(** A plane that rises by [e] per metre towards the east and by [s] towards the south: the slope is that of
    the plane, the aspect is the compass direction in which it falls (east part sine, north part cosine). *)
Theorem C136_plane : forall z0 res e s q, 0 < res -> x_off q = false -> exists slope aspect,
  0 <= slope < PI / 2 /\ tan slope = sqrt (e * e + s * s) /\ 0 <= aspect <= 2 * PI /\
  sqrt (e * e + s * s) * sin aspect = - e /\ sqrt (e * e + s * s) * cos aspect = s /\
  inner (plane z0 res e s) res q = Ret (mkExpo false (x_steep q || Rlt_bool (2 * PI / 180) slope) (Ztrunc (slope * 10000)) (Ztrunc (aspect * 10000))).
Proof.
  intros z0 res e s q R O. destruct (plane_dev z0 res e s R) as (C & X & Y). destruct (inner_ok (plane z0 res e s) res q C O) as (sl & a & S1 & S2 & A1 & A2 & A3 & _ & E). rewrite X, Y in *. exists sl, a. unfold steepness in *. auto 10.
Qed.
(** Any pixel with elevations all around: nothing undefined, slope below 90 degrees, aspect up to 360 degrees;
    the illumination and the sky view of the stored angles are defined and in range. *)
Theorem C136_defined : forall w res q zen azi, x_off q = false -> (forall a b, (a <= 2)%nat -> (b <= 2)%nat -> w a b <> None) -> exists t ill cls sky,
  inner w res q = Ret t /\ x_off t = false /\ 0 <= IZR (x_slp t) / 10000 < PI / 2 /\ 0 <= IZR (x_asp t) / 10000 <= 2 * PI /\
  illuminate zen azi (x_slp t) (x_asp t) = Ret (ill, cls, sky) /\ (-10000 <= ill <= 10000)%Z /\ (5000 <= sky <= 10000)%Z /\
  ((cls = 3 <-> ill < 0) /\ (cls = 2 <-> 0 <= ill <= 1736) /\ (cls = 1 <-> 1737 <= ill <= 5735) /\ (cls = 0 <-> 5736 <= ill))%Z.
Proof.
  intros w res q zen azi O W. assert (C : complete w = true). { unfold complete. cbn [forallb]. repeat match goal with |- context [w ?a ?b] => let H := fresh in assert (H : w a b <> None) by (apply W; lia); destruct (w a b); [clear H|congruence] end. reflexivity. }
  destruct (inner_ok w res q C O) as (sl & a & S1 & S2 & A1 & A2 & A3 & _ & E). rewrite E. pose proof (trunc_err (sl * 10000) ltac:(lra)) as T1. pose proof (trunc_err (a * 10000) ltac:(lra)) as T2.
  assert (P1 : (0 <= Ztrunc (sl * 10000))%Z) by (rewrite Ztrunc_floor by lra; apply Zfloor_lub; lra). assert (P2 : (0 <= Ztrunc (a * 10000))%Z) by (rewrite Ztrunc_floor by lra; apply Zfloor_lub; lra).
  destruct (illuminate_ok zen azi (Ztrunc (sl * 10000)) (Ztrunc (a * 10000)) P1 ltac:(lra)) as (ill & cls & sky & I & _ & R & CL & SK).
  eexists. exists ill, cls, sky. split; [reflexivity|]. cbn [x_off x_slp x_asp]. apply IZR_le in P1, P2. split; auto. split; [lra|]. split; [lra|]. auto.
Qed.
(** On a plane, the stored illumination is the cosine of the angle between the sun and the normal of the plane. *)
Theorem C136_illumination : forall z0 res e s q zen azi, 0 < res -> x_off q = false -> exists t ill cls sky,
  inner (plane z0 res e s) res q = Ret t /\ illuminate zen azi (x_slp t) (x_asp t) = Ret (ill, cls, sky) /\
  Rabs (IZR ill / 10000 - dot (unit_vec zen azi) (normal e s)) <= 4 / 10000.
Proof.
  intros z0 res e s q zen azi R O. destruct (plane_dev z0 res e s R) as (C & X & Y). destruct (inner_ok (plane z0 res e s) res q C O) as (sl & a & S1 & S2 & A1 & A2 & A3 & _ & E). rewrite X, Y in *.
  pose proof (trunc_err (sl * 10000) ltac:(lra)) as T1. pose proof (trunc_err (a * 10000) ltac:(lra)) as T2.
  assert (P1 : (0 <= Ztrunc (sl * 10000))%Z) by (rewrite Ztrunc_floor by lra; apply Zfloor_lub; lra).
  destruct (illuminate_ok zen azi (Ztrunc (sl * 10000)) (Ztrunc (a * 10000)) P1 ltac:(lra)) as (ill & cls & sky & I & V & _).
  eexists. exists ill, cls, sky. split; [exact E|]. cbn [x_slp x_asp]. split; auto. rewrite <- (normal_ok e s sl a S1 S2 A2 A3), <- illumin_dot.
  set (s' := IZR (Ztrunc (sl * 10000)) / 10000) in *. set (a' := IZR (Ztrunc (a * 10000)) / 10000) in *. pose proof (illumin_lip zen azi s' a' sl a) as L.
  assert (Rabs (s' - sl) <= 1 / 10000) by (apply Rabs_le; unfold s'; lra). assert (Rabs (a' - a) <= 1 / 10000) by (apply Rabs_le; unfold a'; lra).
  set (u := illumin (cos zen) (sin zen) (cos s') (sin s') azi a') in *. pose proof (trunc_abs (u * 10000)) as TU. rewrite <- V in TU. apply Rabs_def2 in TU. apply Rabs_le_inv in L. apply Rabs_le. lra.
Qed.
(** A slope of 45 degrees that falls to the north, sun in the north at 45 degrees: fully lit. *)
Example C136_example : exists t ill cls sky, inner (plane 100 10 0 1) 10 (mkExpo false false 0 0) = Ret t /\ illuminate (PI / 4) 0 (x_slp t) (x_asp t) = Ret (ill, cls, sky) /\ (9995 <= ill)%Z.
Proof.
  destruct (C136_illumination 100 10 0 1 (mkExpo false false 0 0) (PI / 4) 0 ltac:(lra) eq_refl) as (t & ill & cls & sky & H1 & H2 & H3). exists t, ill, cls, sky. split; auto. split; auto. apply le_IZR.
  assert (dot (unit_vec (PI / 4) 0) (normal 0 1) = 1) as D.
  { unfold dot, unit_vec, normal. rewrite cos_0, sin_0, cos_PI4, sin_PI4. replace (1 + 0 * 0 + 1 * 1) with 2 by ring. pose proof Rlt_sqrt2_0 as P. pose proof (sqrt_sqrt 2 ltac:(lra)) as Q. cbn -[sqrt]. field_simplify; [|lra]. replace (sqrt 2 ^ 2) with 2 by (simpl; lra). lra. }
  rewrite D in H3. apply Rabs_le_inv in H3. lra.
Qed.

(** ** C137: nodata, sea and borders *)
(** Elevations are kept; nodata is filled, with 0, only where it is connected to the sea; a run of nodata
    along a column and then along a row from a pixel of elevation 0 is filled. *)
Theorem C137_ocean_partial : forall ny nx g i j, within ny nx i j ->
  (forall v, g i j = Some v -> ocean ny nx g i j = Some v) /\
  (g i j = None -> ocean ny nx g i j = None \/ (ocean ny nx g i j = Some 0 /\ sea_water ny nx g i j)) /\
  (forall i0 j0, within ny nx i0 j0 -> g i0 j0 = Some 0 -> (forall k, (i0 < k <= i \/ i <= k < i0)%nat -> g k j0 = None) -> (forall k, (j0 < k <= j \/ j <= k < j0)%nat -> g i k = None) -> ocean ny nx g i j = Some 0).
Proof.
  intros ny nx g i j W. pose proof (good_ocean ny nx g i j W) as G. unfold good in G. split; [|split].
  - intros v V. destruct G as [G|(G & _)]; congruence.
  - intros N. destruct G as [G|(_ & G1 & G2)]; [left; congruence|right; auto].
  - intros. eapply ocean_run; eauto.
Qed.
(** Sea that goes along a row first and then along a column stays nodata. *)
Definition bay : grid (option R) := fun i j => if Nat.eqb j 0 then (if Nat.eqb i 0 then Some 0 else Some 7) else None.
Theorem C137_ocean_refuted : exists ny nx g i j, within ny nx i j /\ sea_water ny nx g i j /\ g i j = None /\ ocean ny nx g i j = None.
Proof.
  exists 2%nat, 2%nat, bay, 1%nat, 1%nat. split; [split; lia|]. split.
  - apply (sw_next _ _ _ 0 1); [|right; split; auto|split; lia|reflexivity]. apply (sw_next _ _ _ 0 0); [apply sw_zero; [split; lia|reflexivity]|left; split; auto|split; lia|reflexivity].
  - split; auto. unfold ocean, left, right, up, down, turn, flip, bay. cbn. repeat rewrite Req_bool_false by lra. reflexivity.
Qed.
(** Smoothing: nodata stays nodata, data stays data, and each value lies between the values of the window. *)
Theorem C137_smooth : forall ny nx res g i j, within ny nx i j ->
  (smooth ny nx res g i j = None <-> g i j = None) /\
  (30 <= res -> smooth ny nx res g i j = g i j) /\
  (forall lo hi v, 0 < res -> (forall a b w, within ny nx a b -> Rabs (INR a - INR i) <= 30 / res -> Rabs (INR b - INR j) <= 30 / res -> g a b = Some w -> lo <= w <= hi) -> smooth ny nx res g i j = Some v -> lo <= v <= hi).
Proof.
  intros ny nx res g i j (I & J). unfold smooth. destruct (Rle_bool_spec 30 res) as [R|R].
  - split; [reflexivity|]. split; [auto|]. intros lo hi v P H V. apply (H i j); [split; auto| | |auto]; rewrite Rminus_eq_0, Rabs_R0; apply Rmult_le_pos; [lra|left; apply Rinv_0_lt_compat; auto|lra|left; apply Rinv_0_lt_compat; auto].
  - set (k := Z.to_nat (Ztrunc (30 / res))). destruct (g i j) as [c|] eqn:G; [|split; [reflexivity|]; split; [lra|discriminate]].
    assert (V : In c (values g (window ny nx k i j))). { apply values_In. exists (i, j). split; auto. apply window_In. lia. }
    pose proof (mean_range (values g (window ny nx k i j))) as M. destruct (values g (window ny nx k i j)) as [|x l] eqn:E; [contradiction|]. split; [split; discriminate|]. split; [lra|].
    intros lo hi v P H Q. injection Q as <-. apply M; [discriminate|]. apply Forall_forall. intros w W. rewrite <- E in W. apply values_In in W. destruct W as ((a, b) & Q & W). apply window_In in Q. cbn [fst snd] in W.
    assert (K : INR k <= 30 / res). { unfold k. rewrite INR_IZR_INZ. assert (0 <= 30 / res) by (apply Rmult_le_pos; [lra|left; apply Rinv_0_lt_compat; auto]). rewrite Ztrunc_floor by auto. rewrite Z2Nat.id by (apply Zfloor_lub; auto). apply Zfloor_lb. }
    assert (D : forall u t, (u <= t + k)%nat -> (t <= u + k)%nat -> Rabs (INR u - INR t) <= 30 / res). { intros u t U T. apply le_INR in U, T. rewrite plus_INR in U, T. apply Rabs_le. lra. }
    apply (H a b); [split; lia|apply D; lia|apply D; lia|auto].
Qed.
(** After the borders are treated, a pixel of an image of 3 x 3 or more is off exactly if it or one of the three
    pixels it takes over from is off, or an elevation around the nearest interior pixel is missing; otherwise it
    has the slope and aspect of the nearest interior pixel. *)
Theorem C137_borders : forall ny nx g res q x i j, (3 <= ny)%nat -> (3 <= nx)%nat -> inside ny nx g res q x -> within ny nx i j -> let y := borders ny nx x in let ci := clamp ny i in let cj := clamp nx j in
  (x_off (y i j) = true <-> x_off (q i j) = true \/ x_off (q i cj) = true \/ x_off (q ci j) = true \/ x_off (q ci cj) = true \/ exists a b, (a <= 2)%nat /\ (b <= 2)%nat /\ g (ci + a - 1)%nat (cj + b - 1)%nat = None) /\
  (x_off (y i j) = false -> exists t, inner (window9 g ci cj) res (q ci cj) = Ret t /\ x_slp (y i j) = x_slp t /\ x_asp (y i j) = x_asp t).
Proof.
  intros ny nx g res q x i j NY NX S (I & J) y ci cj. destruct (borders_ok ny nx x i j NY NX (conj I J)) as (B1 & B2 & _). fold y in B1, B2. fold ci cj in B1, B2.
  assert (IC : interior ny nx ci cj = true) by (unfold interior, ci, cj, clamp; lia). pose proof (S ci cj) as SC. rewrite IC in SC.
  assert (OC : x_off (x ci cj) = true <-> x_off (q ci cj) = true \/ complete (window9 g ci cj) = false).
  { destruct (x_off (q ci cj)) eqn:Q. { unfold inner in SC. rewrite Q in SC. injection SC as <-. rewrite Q. tauto. }
    destruct (complete (window9 g ci cj)) eqn:C. { destruct (inner_ok _ res (q ci cj) C Q) as (sl & a & _ & _ & _ & _ & _ & _ & E). rewrite E in SC. injection SC as <-. cbn [x_off]. intuition congruence. }
    unfold inner in SC. rewrite Q, C in SC. injection SC as <-. cbn. tauto. }
  assert (CN : complete (window9 g ci cj) = false <-> exists a b, (a <= 2)%nat /\ (b <= 2)%nat /\ g (ci + a - 1)%nat (cj + b - 1)%nat = None).
  { split.
    - intros C. unfold complete, window9 in C. cbn [forallb] in C. 
      repeat match type of C with context [g ?a ?b] => let H := fresh in destruct (g a b) eqn:H; [clear H|first [exists 0%nat, 0%nat; split; [lia|split; [lia|exact H]]|exists 0%nat, 1%nat; split; [lia|split; [lia|exact H]]|exists 0%nat, 2%nat; split; [lia|split; [lia|exact H]]|exists 1%nat, 0%nat; split; [lia|split; [lia|exact H]]|exists 1%nat, 1%nat; split; [lia|split; [lia|exact H]]|exists 1%nat, 2%nat; split; [lia|split; [lia|exact H]]|exists 2%nat, 0%nat; split; [lia|split; [lia|exact H]]|exists 2%nat, 1%nat; split; [lia|split; [lia|exact H]]|exists 2%nat, 2%nat; split; [lia|split; [lia|exact H]]]] end. discriminate.
    - intros (a & b & A & B & N). destruct (complete (window9 g ci cj)) eqn:C; auto. exfalso. unfold complete, window9 in C. rewrite forallb_forall in C. assert (In a [0; 1; 2]%nat) as IA by (cbn; lia). specialize (C a IA). rewrite forallb_forall in C. assert (In b [0; 1; 2]%nat) as IB by (cbn; lia). specialize (C b IB). rewrite N in C. discriminate. }
  assert (OO : forall u v, (u = i \/ u = ci) -> (v = j \/ v = cj) -> x_off (x u v) = true -> x_off (q u v) = true \/ complete (window9 g ci cj) = false).
  { intros u v U V X. pose proof (S u v) as SU. destruct (interior ny nx u v) eqn:E; [|rewrite <- SU; auto]. assert (u = ci /\ v = cj) as (-> & ->); [|apply OC; auto].
    unfold interior, ci, cj, clamp in *. split; [destruct U; lia|destruct V; lia]. }
  assert (QQ : forall u v, x_off (q u v) = true -> x_off (x u v) = true). { intros u v Q. pose proof (S u v) as SU. destruct (interior ny nx u v); [|congruence]. unfold inner in SU. rewrite Q in SU. injection SU as <-. auto. }
  rewrite <- CN. split.
  - rewrite B1. split.
    + intros [X|[X|[X|X]]]; apply OO in X; auto; destruct X; auto 6.
    + intros [X|[X|[X|[X|X]]]]; [apply QQ in X; auto|apply QQ in X; auto|apply QQ in X; auto|apply QQ in X; auto|]. right. right. right. apply OC. auto.
  - intros X. destruct (B2 X) as (E1 & E2). exists (x ci cj). auto.
Qed.
(** The slope flag of the quality information is not taken over at the borders. *)
Definition ramp : grid (option R) := fun i j => Some (INR j).
Theorem C137_flag_refuted : exists ny nx g res q x i j, (3 <= ny)%nat /\ (3 <= nx)%nat /\ inside ny nx g res q x /\ within ny nx i j /\
  let y := borders ny nx x in x_off (y i j) = false /\ 2 * PI / 180 < (IZR (x_slp (y i j))) / 10000 /\ x_steep (y i j) = false.
Proof.
  set (q0 := mkExpo false false 0 0). destruct (C136_plane 0 1 1 0 q0 ltac:(lra) eq_refl) as (sl & a & S1 & S2 & A1 & A2 & A3 & E).
  assert (W : inner (window9 ramp 1 1) 1 q0 = inner (plane 0 1 1 0) 1 q0).
  { unfold inner, q0. cbn [x_off]. assert (devx (valid (window9 ramp 1 1)) 1 = devx (valid (plane 0 1 1 0)) 1) as -> by (unfold devx, valid, window9, ramp, plane; cbn; f_equal; ring). assert (devy (valid (window9 ramp 1 1)) 1 = devy (valid (plane 0 1 1 0)) 1) as -> by (unfold devy, valid, window9, ramp, plane; cbn; f_equal; ring). reflexivity. }
  assert (SL : sl = PI / 4). { apply tan_is_inj; [lra|pose proof PI_RGT_0; lra|]. rewrite S2, tan_PI4. replace (1 * 1 + 0 * 0) with 1 by ring. apply sqrt_1. }
  exists 3%nat, 3%nat, ramp, 1, (fun _ _ => q0), (fun i j => if interior 3 3 i j then mkExpo false true (Ztrunc (sl * 10000)) (Ztrunc (a * 10000)) else q0), 0%nat, 1%nat.
  split; [lia|]. split; [lia|]. split; [|split; [split; lia|]].
  - intros i j. destruct (interior 3 3 i j) eqn:I; auto. assert (i = 1 /\ j = 1)%nat as (-> & ->) by (unfold interior in I; lia). rewrite W, E. cbn [x_steep q0 orb]. rewrite Rlt_bool_true by (pose proof PI_RGT_0; lra). reflexivity.
  - cbn. split; auto. split; auto. pose proof (trunc_err (sl * 10000)) as T. pose proof pi_up. pose proof PI2_3_2. rewrite SL in *. lra.
Qed.

(** ** C138: classes of elevation *)
(** The class of each pixel fits into a byte and is a row of the tables (0 to 254); it grows with the elevation;
    pixels of one class differ by no more than one part in 255 of the range (1 m and 5 cm of tolerance). *)
Theorem C138_classes : forall l lo hi, Forall (fun x => -32768 <= x <= 32767) l -> Forall (fun x => lo <= x <= hi) l ->
  (forall x, In x l -> (0 <= elevation_class l x <= 254)%Z) /\
  (forall x y, In x l -> In y l -> x <= y -> (elevation_class l x <= elevation_class l y)%Z) /\
  (forall x y, In x l -> In y l -> elevation_class l x = elevation_class l y -> Rabs (x - y) <= (hi - lo + 1) / 255 + 0.05).
Proof.
  intros l lo hi F B. split; [|split].
  - intros x I. apply class_range; auto.
  - intros x y I _ H. apply class_mono; auto. destruct l; [contradiction|discriminate].
  - intros x y X Y E. apply (class_near l); auto.
Qed.
(** Images with an elevation below -500 m or above 9000 m are refused; images within are not (1 cm and 1 m of tolerance). *)
Theorem C138_refused : forall l x, Forall (fun x => -32768 <= x <= 32767) l -> In x l ->
  (x <= -500.01 \/ 9000 <= x -> dem_ok l = false) /\ (Forall (fun x => -500 <= x <= 8998.99) l -> dem_ok l = true).
Proof.
  intros l x F I. destruct (extremes l x F I) as (E1 & E2). pose proof (top_close (highest l) ltac:(lra)) as T. apply Rabs_le_inv in T. fold (dem_max l) in T. unfold dem_ok. pose proof F as F'. rewrite Forall_forall in F. pose proof (km_err x (F x I)) as K. apply Rabs_le_inv in K. split.
  - intros [H|H]; [rewrite (Rlt_bool_true (lowest l)) by lra; reflexivity|]. rewrite (Rlt_bool_true 9) by lra. rewrite orb_true_r. reflexivity.
  - intros B. rewrite Forall_forall in B.
    assert (L : -0.5 <= lowest l). { unfold lowest in *. destruct (lowest_ok (map km l) 32767 ltac:(lra)) as ([L|L] & _); [lra|]. apply in_map_iff in L. destruct L as (u & <- & U). specialize (B u U). assert (-0.5 = km (-500)) as ->; [|apply km_le; lra]. unfold km. replace (-500 / 1000) with (IZR (-1) * bpow radix2 (-1)) by (simpl; lra). replace (-0.5) with (IZR (-1) * bpow radix2 (-1)) by (simpl; lra). symmetry. rewrite rnd64_dyadic, rnd32_dyadic by lia. reflexivity. }
    assert (H : highest l <= 8.998993). { unfold highest in *. destruct (highest_ok (map km l) (-32768)) as ([H|H] & _); [lra|]. apply in_map_iff in H. destruct H as (u & <- & U). specialize (B u U). pose proof (km_err u (F u U)) as KU. apply Rabs_le_inv in KU. lra. }
    rewrite !Rlt_bool_false by lra. reflexivity.
Qed.
Definition peaks : list R := [12; 800; 4807]%R.
Example C138_example : Forall (fun x => -32768 <= x <= 32767) peaks /\ dem_ok peaks = true /\ (elevation_class peaks 12 <= elevation_class peaks 4807)%Z.
Proof.
  assert (F : Forall (fun x => -32768 <= x <= 32767) peaks) by (repeat constructor; lra). split; auto. split.
  - apply (C138_refused _ 12 F (or_introl eq_refl)). repeat constructor; lra.
  - apply (C138_classes _ 0 9000 F); [repeat constructor; lra|left; auto|right; right; left; auto|lra].
Qed.

(** ** C139: correction factor *)
(** The sample: rows and columns at distinct offsets up to 3 km on both sides, the pixel itself among them; they fit into the memory. *)
Theorem C139_sample : forall res, 0 < res -> exists l, sample_kernel res = Some l /\ NoDup l /\ In 0%Z l /\ (forall z, In z l -> In (- z)%Z l) /\
  Forall (fun z => Rabs (IZR z) * res <= 3000) l /\ (zlen l <= Ztrunc (6000 / res + 1))%Z.
Proof.
  intros res R. destruct (kernel_ok res R) as (l & E & N & Z & S & F & L). exists l. split; auto. split; auto. split; auto. split; auto. split; auto. eapply Forall_impl; [|apply F]. cbv beta. intros z (A & B).
  assert (P : 0 <= 3000 / res) by (apply Rmult_le_pos; [lra|left; apply Rinv_0_lt_compat; auto]). rewrite Ztrunc_floor in A, B by auto. pose proof (Zfloor_lb (3000 / res)) as FL. apply IZR_le in A, B. rewrite opp_IZR in A.
  assert (Rabs (IZR z) <= 3000 / res) by (apply Rabs_le; lra). apply Rle_trans with (3000 / res * res); [apply Rmult_le_compat_r; lra|right; field; lra].
Qed.
(** The factor of a pixel is never below the theoretical one and never above what can be stored; without an estimate it is the theoretical one. *)
Theorem C139_factor : forall c rho est, 0 <= c ->
  Rmin c 6.5535 <= raw_factor c rho est <= 6.5535 /\ raw_factor c rho None = Rmin c 6.5535.
Proof.
  intros c rho est C. split; [|apply raw_none; auto]. unfold Rmin. destruct (Rle_dec c 6.5535) as [L|L]; [apply raw_range; auto|]. unfold raw_factor. cbv zeta. set (cor := match est with None => _ | _ => _ end).
  destruct (Rlt_bool_spec cor 0), (Rlt_bool_spec cor c); cbn [orb]; match goal with |- context [Rlt_bool ?a ?b] => destruct (Rlt_bool_spec a b) end; lra.
Qed.
(** The stored factor lies between the smallest and the largest factor of the illuminated pixels around, in ten thousandths. *)
Theorem C139_stored : forall ny nx (cor : grid (option R)) i j lo hi, within ny nx i j -> 0 <= lo -> hi <= 6.5535 ->
  (forall a b v, within ny nx a b -> (i <= S a /\ a <= S i /\ j <= S b /\ b <= S j)%nat -> cor a b = Some v -> lo <= v <= hi) ->
  (cor i j = None -> stored_factor ny nx cor i j = Ret None) /\
  (cor i j <> None -> exists v, stored_factor ny nx cor i j = Ret (Some v) /\ (0 <= v <= 65535)%Z /\ lo * 10000 - 1 < IZR v <= hi * 10000).
Proof.
  intros ny nx cor i j lo hi (I & J) L H B. split; [intros N; unfold stored_factor; rewrite N; reflexivity|]. intros N. destruct (cor i j) as [c|] eqn:C; [|congruence]. apply (stored_ok ny nx cor i j c); auto.
  intros a b v W V. apply window_In in W. apply (B a b); auto; [split; lia|lia].
Qed.
Example C139_example : exists v, stored_factor 2 2 (fun i j => if Nat.eqb i 0 then Some (raw_factor 0.5 0 None) else None) 0 1 = Ret (Some v) /\ (4999 < v <= 5000)%Z.
Proof.
  assert (E : raw_factor 0.5 0 None = 0.5). { destruct (C139_factor 0.5 0 None ltac:(lra)) as (_ & ->). apply Rmin_left. lra. } rewrite E.
  destruct (C139_stored 2 2 (fun i j => if Nat.eqb i 0 then Some 0.5 else None) 0 1 0.5 0.5) as (_ & P); [split; lia|lra|lra| |].
  - intros a b v _ _. destruct (Nat.eqb a 0); intros Q; [injection Q as <-; lra|discriminate].
  - destruct P as (v & V & _ & A); [discriminate|]. exists v. split; auto. destruct A as (A1 & A2). split; [apply lt_IZR; lra|apply le_IZR; lra].
Qed.

Print Assumptions C136_plane.
Print Assumptions C136_defined.
Print Assumptions C136_illumination.
Print Assumptions C137_ocean_partial.
Print Assumptions C137_ocean_refuted.
Print Assumptions C137_smooth.
Print Assumptions C137_borders.
Print Assumptions C137_flag_refuted.
Print Assumptions C138_classes.
Print Assumptions C138_refused.
Print Assumptions C139_sample.
Print Assumptions C139_factor.
Print Assumptions C139_stored.
