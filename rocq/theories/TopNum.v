(** Lemmas about elevation classes, means and the sampling of the correction factor. *)
From Coq Require Import Reals Lra Lia ZifyBool Sorting.Sorted FinFun.
From Flocq Require Import Core.
From Verif Require Import Base Loops RoundModel RoundFacts L1Cal PsfProofs RadModel TopModel TopSpec TopGeo.
#[local] Open Scope R_scope.

(** ** Elevation classes *)
Lemma km_le x y : x <= y -> km x <= km y.
Proof. intros H. unfold km. apply rnd32_le, rnd64_le. lra. Qed.
Lemma km_range x : -32768 <= x <= 32767 -> -33 <= km x <= 33.
Proof.
  intros H. unfold km. apply (rnd32_between (-33) 33); [lia|lia|]. split; [rewrite <- (rnd64_int (-33)) by lia|rewrite <- (rnd64_int 33) by lia]; apply rnd64_le; lra.
Qed.
Lemma lowest_ok : forall l a, a <= 32767 -> let r := fold_left (fun m x => if Rlt_bool x m then x else m) l a in (r = a \/ In r l) /\ r <= a /\ forall x, In x l -> r <= x.
Proof.
  induction l as [|y l IH]; intros a A r; [split; [left; auto|]; split; [apply Rle_refl|contradiction]|]. unfold r. cbn [fold_left].
  destruct (Rlt_bool_spec y a) as [L|L].
  - destruct (IH y ltac:(lra)) as (I1 & I2 & I3). split; [right; destruct I1 as [->|I1]; [left|right]; auto|]. split; [lra|]. intros x [<-|X]; auto.
  - destruct (IH a A) as (I1 & I2 & I3). split; [destruct I1 as [->|I1]; [left|right; right]; auto|]. split; auto. intros x [<-|X]; [lra|auto].
Qed.
Lemma highest_ok : forall l a, let r := fold_left (fun m x => if Rlt_bool m x then x else m) l a in (r = a \/ In r l) /\ a <= r /\ forall x, In x l -> x <= r.
Proof.
  induction l as [|y l IH]; intros a r; [split; [left; auto|]; split; [apply Rle_refl|contradiction]|]. unfold r. cbn [fold_left].
  destruct (Rlt_bool_spec a y) as [L|L].
  - destruct (IH y) as (I1 & I2 & I3). split; [right; destruct I1 as [->|I1]; [left|right]; auto|]. split; [lra|]. intros x [<-|X]; auto.
  - destruct (IH a) as (I1 & I2 & I3). split; [destruct I1 as [->|I1]; [left|right; right]; auto|]. split; auto. intros x [<-|X]; [lra|auto].
Qed.
Lemma extremes l x : Forall (fun x => -32768 <= x <= 32767) l -> In x l -> -33 <= lowest l <= km x /\ km x <= highest l <= 33.
Proof.
  intros F I. unfold lowest, highest. destruct (lowest_ok (map km l) 32767 ltac:(lra)) as (A1 & A2 & A3). destruct (highest_ok (map km l) (-32768)) as (B1 & B2 & B3).
  pose proof (in_map km _ _ I) as M. assert (K : forall y, In y (map km l) -> -33 <= y <= 33). { intros y Y. apply in_map_iff in Y. destruct Y as (z & <- & Z). rewrite Forall_forall in F. apply km_range. auto. }
  pose proof (K _ M) as KX. split; split; auto.
  - destruct A1 as [->|A1]; [lra|]. apply K; auto.
  - destruct B1 as [->|B1]; [lra|]. apply K; auto.
Qed.
Lemma tiny : 0 < bpow radix2 (-150) <= / 1000000000000.
Proof. split; [apply bpow_gt_0|]. apply Rle_trans with (bpow radix2 (-40)); [apply bpow_le; lia|]. change (bpow radix2 (-40)) with (/ 1099511627776). lra. Qed.
Lemma rel32 x : / 1000000 <= x -> Rabs (rnd32 x - x) <= / 16777216 * x.
Proof.
  intros H. rewrite <- (Rabs_pos_eq x) at 3 by lra. apply rnd32_rel. rewrite Rabs_pos_eq by lra. apply Rle_trans with (bpow radix2 (-20)); [apply bpow_le; lia|]. change (bpow radix2 (-20)) with (/ 1048576). lra.
Qed.
Lemma top_close M : -33 <= M <= 33 -> Rabs (rnd32 (rnd64 (M + rnd64 (1 / 1000))) - (M + 1 / 1000)) <= 0.000003.
Proof.
  intros H. pose proof (rnd64_err (1 / 1000) 1 ltac:(lra) ltac:(rewrite Rabs_pos_eq; lra)) as A. apply Rabs_le_inv in A. set (a := rnd64 (1 / 1000)) in *.
  pose proof (rnd64_err (M + a) 34 ltac:(lra) ltac:(apply Rabs_le; lra)) as B. apply Rabs_le_inv in B. set (b := rnd64 (M + a)) in *.
  pose proof (rnd32_err b 35 ltac:(lra) ltac:(apply Rabs_le; lra)) as C. apply Rabs_le_inv in C. apply Rabs_le. lra.
Qed.
Lemma step_bounds l x : Forall (fun x => -32768 <= x <= 32767) l -> In x l ->
  let A := highest l - lowest l in 0 <= A <= 66 /\ 0 < dem_step l /\ 255 * dem_step l >= (A + 0.00099) * (1 - / 16777216) * (1 - / 16777216).
Proof.
  intros F I A. destruct (extremes l x F I) as (E1 & E2). split; [unfold A; lra|]. unfold dem_step, dem_max. pose proof (top_close (highest l) ltac:(lra)) as T. apply Rabs_le_inv in T.
  set (mm := rnd32 (rnd64 (highest l + rnd64 (1 / 1000)))) in *. assert (B : A + 0.00099 <= mm - lowest l) by (unfold A; lra). set (b := mm - lowest l) in *. assert (0 <= A) by (unfold A; lra). clearbody A.
  pose proof (rel32 b ltac:(lra)) as R1. apply Rabs_le_inv in R1. set (r := rnd32 b) in *. assert (0.00098 <= r) by lra. pose proof (rel32 (r / 255) ltac:(lra)) as R2. apply Rabs_le_inv in R2. set (s := rnd32 (r / 255)) in *. split; [lra|].
  assert (b * (1 - / 16777216) <= r) by lra. assert (r * (1 - / 16777216) <= 255 * s) by lra. nra.
Qed.
Lemma class_range l x : Forall (fun x => -32768 <= x <= 32767) l -> In x l -> (0 <= elevation_class l x <= 254)%Z.
Proof.
  intros F I. destruct (extremes l x F I) as (E1 & E2). destruct (step_bounds l x F I) as (A1 & S0 & S1). unfold elevation_class. set (st := dem_step l) in *. set (D := km x - lowest l). set (A := highest l - lowest l) in *.
  assert (D0 : 0 <= D <= A) by (unfold D, A; lra). pose proof (rnd32_near_0 D) as R. rewrite (Rabs_pos_eq D) in R by lra. apply Rabs_le_inv in R. pose proof tiny as TY. assert (P : 0 <= rnd32 D) by (apply rnd32_nonneg; lra). set (d := rnd32 D) in *.
  assert (Q : 0 <= d / st <= 254.999).
  { split; [apply Rmult_le_pos; [auto|left; apply Rinv_0_lt_compat; auto]|]. apply Rmult_le_reg_r with st; auto. unfold Rdiv. rewrite Rmult_assoc, Rinv_l, Rmult_1_r by lra.
    assert (d <= A * (1 + / 16777216) + / 1000000000000) as DD by nra. clear R P E1 E2. clearbody A d st D. nra. }
  pose proof (rnd32_near_0 (d / st)) as RR. rewrite (Rabs_pos_eq (d / st)) in RR by lra. apply Rabs_le_inv in RR. assert (PP : 0 <= rnd32 (d / st)) by (apply rnd32_nonneg; lra).
  split; [apply Zfloor_lub; auto|]. assert (Zfloor (rnd32 (d / st)) < 255)%Z; [|lia]. apply lt_IZR. pose proof (Zfloor_lb (rnd32 (d / st))). lra.
Qed.
Lemma class_mono l x y : Forall (fun x => -32768 <= x <= 32767) l -> l <> [] -> x <= y -> (elevation_class l x <= elevation_class l y)%Z.
Proof.
  intros F N H. destruct l as [|z l]; [congruence|]. destruct (step_bounds (z :: l) z F (or_introl eq_refl)) as (_ & S0 & _). unfold elevation_class. apply Zfloor_le, rnd32_le. apply Rmult_le_compat_r; [left; apply Rinv_0_lt_compat; auto|]. apply rnd32_le. apply km_le in H. lra.
Qed.

(** ** Means *)
Lemma mean_range l lo hi : l <> [] -> Forall (fun v => lo <= v <= hi) l -> lo <= rsum l / INR (length l) <= hi.
Proof.
  intros N F. assert (0 < INR (length l)) as P by (apply lt_0_INR; destruct l; [congruence|cbn; lia]).
  assert (lo * INR (length l) <= rsum l <= hi * INR (length l)) as B. { clear N P. induction F as [|v l V F IH]; cbn [rsum length]; [cbn; lra|]. rewrite S_INR. lra. }
  split; apply Rmult_le_reg_r with (INR (length l)); auto; unfold Rdiv; rewrite Rmult_assoc, Rinv_l by lra; lra.
Qed.
Lemma window_In ny nx k i j a b : In (a, b) (window ny nx k i j) <-> (a < ny /\ b < nx /\ i <= a + k /\ a <= i + k /\ j <= b + k /\ b <= j + k)%nat.
Proof.
  unfold window. rewrite filter_In, in_flat_map. cbn [fst snd]. split.
  - intros ((c & C & D) & B). apply in_map_iff in D. destruct D as (e & E & D). injection E as <- <-. apply in_seq in C, D. lia.
  - intros H. split; [|lia]. exists a. split; [apply in_seq; lia|]. apply in_map_iff. exists b. split; auto. apply in_seq. lia.
Qed.
Lemma values_In g l v : In v (values g l) <-> exists q, In q l /\ g (fst q) (snd q) = Some v.
Proof.
  induction l as [|q l IH]; cbn [values In]; [split; [contradiction|intros (q & [] & _)]|]. destruct (g (fst q) (snd q)) as [x|] eqn:E.
  - cbn [In]. rewrite IH. split; [intros [<-|(p & P & Q)]; [exists q; auto|exists p; auto]|]. intros (p & [<-|P] & Q); [left; congruence|right; exists p; auto].
  - rewrite IH. split; [intros (p & P & Q); exists p; auto|]. intros (p & [<-|P] & Q); [congruence|exists p; auto].
Qed.

(** ** Offsets of the sample *)
#[local] Open Scope Z_scope.
Lemma next_less k : 1 <= k -> 0 <= Ztrunc (IZR k / sqrt 2) < k.
Proof.
  intros H. apply IZR_le in H. pose proof Rlt_sqrt2_0 as S. assert (S1 : (1 < sqrt 2)%R). { rewrite <- sqrt_1. apply sqrt_lt_1; lra. }
  assert (P : (0 <= IZR k / sqrt 2)%R) by (apply Rmult_le_pos; [lra|left; apply Rinv_0_lt_compat; auto]).
  assert (L : (IZR k / sqrt 2 < IZR k)%R). { apply Rmult_lt_reg_r with (sqrt 2); auto. unfold Rdiv. rewrite Rmult_assoc, Rinv_l by lra. nra. }
  rewrite Ztrunc_floor by auto. split; [apply Zfloor_lub; auto|]. apply lt_IZR. pose proof (Zfloor_lb (IZR k / sqrt 2)). lra.
Qed.
Lemma sorted_length : forall p k, 0 <= k -> Forall (fun z => 0 < z <= k) p -> StronglySorted Z.gt p -> zlen p <= k.
Proof.
  induction p as [|h p IH]; intros k K F S; [unfold zlen; cbn; lia|]. inversion F as [|? ? F1 F2]; subst. inversion S as [|? ? S1 S2]; subst.
  assert (zlen p <= h - 1). { apply IH; auto; [lia|]. apply Forall_forall. intros z Z. rewrite Forall_forall in F2, S2. specialize (F2 z Z). specialize (S2 z Z). lia. }
  unfold zlen in *. cbn [length]. lia.
Qed.
Lemma offsets_ok lim : (0 < lim)%R -> forall fuel k, 0 <= k < Z.of_nat fuel -> exists l p, offsets fuel k lim = Some l /\ Forall (fun z => 0 < z <= k) p /\ StronglySorted Z.gt p /\ 
  (if last l 0 =? 0 then l else l ++ [0]) = p ++ [0].
Proof.
  intros L. induction fuel as [|fuel IH]; intros k K; [lia|]. cbn [offsets]. destruct (Rlt_bool_spec lim (IZR k)) as [B|B].
  - assert (0 < k) as K0 by (apply lt_IZR; lra). pose proof (next_less k ltac:(lia)) as N. destruct (IH (Ztrunc (IZR k / sqrt 2)) ltac:(lia)) as (l & p & E & F & S & Q). rewrite E. exists (k :: l), (k :: p). split; auto.
    split; [constructor; [lia|eapply Forall_impl; [|apply F]; cbn; intros; lia]|]. split; [constructor; auto; eapply Forall_impl; [|apply F]; cbn; intros; lia|].
    destruct l as [|z l]; [destruct fuel; cbn [offsets] in E; [discriminate|]; destruct (Rlt_bool _ _) in E; [destruct (offsets _ _ _); discriminate|discriminate]|].
    change (last (k :: z :: l) 0) with (last (z :: l) 0). destruct (last (z :: l) 0 =? 0); cbn [app] in Q |- *; rewrite Q; reflexivity.
  - destruct (Z.eq_dec k 0) as [->|N]; [exists [0], []|exists [k], [k]]; (split; [auto|]); (split; [repeat constructor; lia|]); (split; [repeat constructor|]); cbn [last]; auto.
    destruct (Z.eqb_spec k 0); [contradiction|reflexivity].
Qed.
Lemma sorted_nodup p : StronglySorted Z.gt p -> NoDup p.
Proof. induction 1 as [|h p S IH F]; constructor; auto. intros I. rewrite Forall_forall in F. specialize (F h I). lia. Qed.
Lemma nodup_app (p q : list Z) : NoDup p -> NoDup q -> (forall z, In z p -> ~ In z q) -> NoDup (p ++ q).
Proof. intros P Q D. induction P as [|h p N P IH]; cbn [app]; auto. constructor; [rewrite in_app_iff; intros [H|H]; [auto|apply (D h (or_introl eq_refl) H)]|]. apply IH. intros z Z. apply D. right. auto. Qed.
Lemma kernel_ok res : (0 < res)%R -> let n := Ztrunc (3000 / res) in exists l, sample_kernel res = Some l /\ NoDup l /\ In 0 l /\ (forall z, In z l -> In (- z) l) /\ Forall (fun z => - n <= z <= n) l /\ zlen l <= Ztrunc (6000 / res + 1).
Proof.
  intros R n. assert (P : (0 <= 3000 / res)%R) by (apply Rmult_le_pos; [lra|left; apply Rinv_0_lt_compat; auto]). assert (N : 0 <= n) by (unfold n; rewrite Ztrunc_floor by auto; apply Zfloor_lub; auto).
  assert (LP : (0 < 100 / res)%R) by (apply Rmult_lt_0_compat; [lra|apply Rinv_0_lt_compat; auto]).
  unfold sample_kernel. fold n. destruct (offsets_ok (100 / res) LP (S (Z.to_nat n)) n ltac:(lia)) as (l0 & p & -> & F & S & Q). cbv zeta. rewrite Q, removelast_last. exists ((p ++ [0]) ++ map Z.opp (rev p)). split; auto.
  assert (I : forall z, In z ((p ++ [0]) ++ map Z.opp (rev p)) <-> In z p \/ z = 0 \/ In (- z) p).
  { intros z. rewrite !in_app_iff, in_map_iff. cbn [In]. split.
    - intros [[H|[H|[]]]|(y & <- & H)]; auto. right. right. rewrite Z.opp_involutive. apply in_rev. auto.
    - intros [H|[->|H]]; auto. right. exists (- z). split; [lia|]. apply -> in_rev. auto. }
  rewrite Forall_forall in F. split; [|split; [|split; [|split]]].
  - pose proof (sorted_nodup p S) as ND. rewrite <- app_assoc. apply nodup_app; [auto| |].
    + cbn [app]. constructor.
      * intros J. apply in_map_iff in J. destruct J as (y & Y & J). apply in_rev in J. apply F in J. lia.
      * apply Injective_map_NoDup; [intros ? ? H; lia|]. apply NoDup_rev. auto.
    + intros z Z J. cbn [app In] in J. pose proof (F z Z). destruct J as [J|J]; [lia|]. apply in_map_iff in J. destruct J as (y & Y & J). apply in_rev in J. apply F in J. lia.
  - apply I. auto.
  - intros z Z. apply I in Z. apply I. rewrite Z.opp_involutive. destruct Z as [Z|[->|Z]]; auto.
  - apply Forall_forall. intros z Z. apply I in Z. destruct Z as [Z|[->|Z]]; [apply F in Z; lia|lia|apply F in Z; lia].
  - rewrite <- Forall_forall in F. pose proof (sorted_length p n N F S) as LN. unfold zlen in *. rewrite !app_length, map_length, rev_length. cbn [length].
    assert (2 * n + 1 <= Ztrunc (6000 / res + 1)); [|lia]. assert (E : (6000 / res = 2 * (3000 / res))%R) by (field; lra). rewrite Ztrunc_floor by lra. apply Zfloor_lub. rewrite plus_IZR, mult_IZR. unfold n. rewrite Ztrunc_floor by auto. pose proof (Zfloor_lb (3000 / res)). lra.
Qed.

(** ** The correction factor *)
#[local] Open Scope R_scope.
Lemma raw_range c rho est : 0 <= c -> c <= 6.5535 -> c <= raw_factor c rho est <= 6.5535.
Proof.
  intros C C2. unfold raw_factor. cbv zeta. set (cor := match est with None => _ | _ => _ end). destruct (Rlt_bool_spec cor 0), (Rlt_bool_spec cor c); cbn [orb];
  match goal with |- context [Rlt_bool ?a ?b] => destruct (Rlt_bool_spec a b) end; lra.
Qed.
Lemma raw_cap c rho est : 0 <= c -> 0 <= raw_factor c rho est <= 6.5535.
Proof.
  intros C. unfold raw_factor. cbv zeta. set (cor := match est with None => _ | _ => _ end). destruct (Rlt_bool_spec cor 0), (Rlt_bool_spec cor c); cbn [orb];
  match goal with |- context [Rlt_bool ?a ?b] => destruct (Rlt_bool_spec a b) end; lra.
Qed.
Lemma raw_none c rho : 0 <= c -> raw_factor c rho None = Rmin c 6.5535.
Proof.
  intros C. unfold raw_factor. cbv zeta. unfold Rmin. destruct (Rlt_bool_spec 0 0), (Rlt_bool_spec 0 c); cbn [orb]; match goal with |- context [Rlt_bool ?a ?b] => destruct (Rlt_bool_spec a b) end; destruct (Rle_dec c 6.5535); lra.
Qed.
Lemma stored_ok ny nx cor i j c lo hi : (i < ny)%nat -> (j < nx)%nat -> cor i j = Some c -> 0 <= lo -> 
  (forall a b v, In (a, b) (window ny nx 1 i j) -> cor a b = Some v -> lo <= v <= hi) -> hi <= 6.5535 ->
  exists v, stored_factor ny nx cor i j = Ret (Some v) /\ (0 <= v <= 65535)%Z /\ lo * 10000 - 1 < IZR v <= hi * 10000.
Proof.
  intros I J C L B H. unfold stored_factor. rewrite C. cbv zeta. assert (V : In c (values cor (window ny nx 1 i j))). { apply values_In. exists (i, j). split; auto. apply window_In. lia. }
  assert (F : Forall (fun v => lo <= v <= hi) (values cor (window ny nx 1 i j))). { apply Forall_forall. intros v W. apply values_In in W. destruct W as ([a b] & Q & E). apply (B a b); auto. }
  set (l := values cor (window ny nx 1 i j)) in *. clearbody l. pose proof (mean_range l lo hi) as M. destruct l as [|x l]; [contradiction|]. specialize (M ltac:(discriminate) F). set (m := rsum (x :: l) / INR (length (x :: l))) in *. clearbody m.
  destruct (Rlt_bool_spec 65535 (m * 10000)) as [X|X]; [lra|]. rewrite ushort_ok by lra. cbn [bind]. eexists. split; [reflexivity|]. rewrite Ztrunc_floor by lra. pose proof (Zfloor_lb (m * 10000)). pose proof (Zfloor_ub (m * 10000)).
  split; [split; [apply Zfloor_lub; lra|apply le_IZR; lra]|]. lra.
Qed.
(** ** Width of the classes *)
Lemma km_err x : -32768 <= x <= 32767 -> Rabs (km x - x / 1000) <= 0.0000022.
Proof.
  intros H. unfold km. pose proof (rnd64_err (x / 1000) 33 ltac:(lra) ltac:(apply Rabs_le; lra)) as A. apply Rabs_le_inv in A. pose proof (rnd32_err (rnd64 (x / 1000)) 34 ltac:(lra) ltac:(apply Rabs_le; lra)) as B. apply Rabs_le_inv in B. apply Rabs_le. lra.
Qed.
Lemma step_upper l x : Forall (fun x => -32768 <= x <= 32767) l -> In x l -> 255 * dem_step l <= (highest l - lowest l + 0.001004) * (1 + / 4000000).
Proof.
  intros F I. destruct (extremes l x F I) as (E1 & E2). unfold dem_step, dem_max. pose proof (top_close (highest l) ltac:(lra)) as T. apply Rabs_le_inv in T.
  set (mm := rnd32 (rnd64 (highest l + rnd64 (1 / 1000)))) in *. set (A := highest l - lowest l) in *. assert (B : A + 0.00099 <= mm - lowest l <= A + 0.001004) by (unfold A; lra). set (b := mm - lowest l) in *. assert (0 <= A) by (unfold A; lra). clearbody A.
  pose proof (rel32 b ltac:(lra)) as R1. apply Rabs_le_inv in R1. set (r := rnd32 b) in *. assert (0.00098 <= r) by lra. pose proof (rel32 (r / 255) ltac:(lra)) as R2. apply Rabs_le_inv in R2. set (s := rnd32 (r / 255)) in *.
  assert (r <= b * (1 + / 16777216)) by lra. assert (255 * s <= r * (1 + / 16777216)) by lra. nra.
Qed.
Lemma class_width l x : Forall (fun x => -32768 <= x <= 32767) l -> In x l ->
  let st := dem_step l in let c := IZR (elevation_class l x) in - 0.00005 * st <= km x - lowest l - c * st <= 1.00005 * st.
Proof.
  intros F I st c. destruct (extremes l x F I) as (E1 & E2). destruct (step_bounds l x F I) as (A1 & S0 & S1). pose proof (class_range l x F I) as CR. unfold c. unfold elevation_class in *. fold st in S0, S1, CR |- *. set (D := km x - lowest l) in *. set (A := highest l - lowest l) in *.
  assert (D0 : 0 <= D <= A) by (unfold D, A; lra). pose proof (rnd32_near_0 D) as R. rewrite (Rabs_pos_eq D) in R by lra. apply Rabs_le_inv in R. pose proof tiny as TY. assert (P : 0 <= rnd32 D) by (apply rnd32_nonneg; lra). set (d := rnd32 D) in *.
  assert (Q : 0 <= d / st) by (apply Rmult_le_pos; [auto|left; apply Rinv_0_lt_compat; auto]). pose proof (rnd32_near_0 (d / st)) as RR. rewrite (Rabs_pos_eq (d / st)) in RR by lra. apply Rabs_le_inv in RR.
  set (z := Zfloor (rnd32 (d / st))) in *. pose proof (Zfloor_lb (rnd32 (d / st))) as F1. pose proof (Zfloor_ub (rnd32 (d / st))) as F2. fold z in F1, F2. destruct CR as (C0 & C1). apply IZR_le in C0, C1. set (w := rnd32 (d / st)) in *.
  assert (QE : d = d / st * st) by (field; lra). set (q := d / st) in *. assert (q <= 256) by lra. clearbody q w. clear F E1 E2 c.
  assert (B1 : Rabs (q - w) <= 0.00002) by (apply Rabs_le; lra). apply Rabs_le_inv in B1. assert (B2 : Rabs (D - d) <= 0.00002 * st). { apply Rabs_le. assert (D <= 256 * st) by nra. assert (/ 1000000000000 <= 0.000001 * st) by nra. split; nra. } apply Rabs_le_inv in B2.
  clearbody st d D A. clearbody z. split; nra.
Qed.
Lemma class_near l x y lo hi : Forall (fun x => -32768 <= x <= 32767) l -> Forall (fun x => lo <= x <= hi) l -> In x l -> In y l -> elevation_class l x = elevation_class l y -> Rabs (x - y) <= (hi - lo + 1) / 255 + 0.05.
Proof.
  intros F B X Y E. pose proof (class_width l x F X) as WX. pose proof (class_width l y F Y) as WY. cbv zeta in WX, WY. rewrite E in WX. pose proof (step_upper l x F X) as U. destruct (step_bounds l x F X) as (A1 & S0 & _).
  assert (K : Rabs (km x - km y) <= 1.0001 * dem_step l) by (apply Rabs_le; lra). apply Rabs_le_inv in K.
  assert (EX : highest l - lowest l <= (hi - lo) / 1000 + 0.0000044).
  { unfold highest, lowest in *. destruct (lowest_ok (map km l) 32767 ltac:(lra)) as (L1 & _ & _). destruct (highest_ok (map km l) (-32768)) as (H1 & _ & _). destruct (extremes l x F X) as (X1 & X2). unfold lowest, highest in X1, X2.
    set (hh := fold_left (fun m x0 => if Rlt_bool m x0 then x0 else m) (map km l) (-32768)) in *. set (ll := fold_left (fun m x0 => if Rlt_bool x0 m then x0 else m) (map km l) 32767) in *.
    destruct L1 as [L1|L1]; [lra|]. destruct H1 as [H1|H1]; [lra|]. apply in_map_iff in L1, H1. destruct L1 as (u & U1 & U2), H1 as (v & V1 & V2). rewrite Forall_forall in F, B. pose proof (km_err u (F u U2)) as KU. pose proof (km_err v (F v V2)) as KV. apply Rabs_le_inv in KU, KV. pose proof (B u U2). pose proof (B v V2). lra. }
  rewrite Forall_forall in F. pose proof (km_err x (F x X)) as KX. pose proof (km_err y (F y Y)) as KY. apply Rabs_le_inv in KX, KY. apply Rabs_le. nra.
Qed.
