From Coq Require Import Reals Lra Permutation Sorting.Sorted.
From Flocq Require Import Core.
From Verif Require Import Base BaseFacts Loops LoopsFacts StatsModel StatsSpec StatsProofs ModeModel ModeProofs
  InterpProofs AggModel AggSpec.
#[local] Open Scope Z_scope.

(** ** The accumulators *)
Definition summ (useq : bool) (vs : list Z) (a : acc) : Prop :=
  a_n a = zlen vs /\ a_q a = (if useq then vs else []) /\ a_k a = run_kurt (reals vs) /\
  (vs = [] -> a_min a = 32767 /\ a_max a = -32768) /\ (vs <> [] -> least vs (a_min a) /\ greatest vs (a_max a)).

Lemma summ0 useq : summ useq [] acc0.
Proof. unfold summ, acc0. cbn. destruct useq; repeat split; auto; congruence. Qed.

Lemma least_snoc vs v lo : least vs lo -> least (vs ++ [v]) (if v <? lo then v else lo).
Proof.
  intros [I L]. destruct (Z.ltb_spec v lo) as [E|E]; split.
  - apply in_or_app; right; left; auto.
  - intros w W. apply in_app_or in W. destruct W as [W|[<-|[]]]; [apply L in W|]; lia.
  - apply in_or_app; auto.
  - intros w W. apply in_app_or in W. destruct W as [W|[<-|[]]]; [apply L in W|]; lia.
Qed.
Lemma greatest_snoc vs v hi : greatest vs hi -> greatest (vs ++ [v]) (if v >? hi then v else hi).
Proof.
  intros [I L]. destruct (Z.gtb_spec v hi) as [E|E]; split.
  - apply in_or_app; right; left; auto.
  - intros w W. apply in_app_or in W. destruct W as [W|[<-|[]]]; [apply L in W|]; lia.
  - apply in_or_app; auto.
  - intros w W. apply in_app_or in W. destruct W as [W|[<-|[]]]; [apply L in W|]; lia.
Qed.
Lemma single_ext v : in_short v -> (if v <? 32767 then v else 32767) = v /\ (if v >? -32768 then v else -32768) = v.
Proof. unfold in_short. intros H. destruct (Z.ltb_spec v 32767), (Z.gtb_spec v (-32768)); lia. Qed.

Lemma reals_app a b : reals (a ++ b) = reals a ++ reals b.
Proof. apply map_app. Qed.
Lemma size_reals l : size (reals l) = IZR (zlen l).
Proof. unfold size, reals, zlen. rewrite map_length, INR_IZR_INZ. reflexivity. Qed.
Lemma size_Z (l : list Z) : size l = IZR (zlen l).
Proof. unfold size, zlen. rewrite INR_IZR_INZ. reflexivity. Qed.

Lemma collect1_valid nodata ni useq vs a v : summ useq vs a -> v <> nodata -> in_short v -> zlen vs < ni ->
  exists a', collect1 nodata ni useq a v = Ret a' /\ summ useq (vs ++ [v]) a'.
Proof.
  intros (N & QQ & K & E0 & E1) V SH L. unfold collect1. replace (v =? nodata) with false by lia.
  rewrite N. assert (zlen (vs ++ [v]) = zlen vs + 1) as ZL by (rewrite zlen_app; reflexivity).
  assert (kurt_recurrence (IZR v) (a_k a) (IZR (zlen vs + 1)) = run_kurt (reals (vs ++ [v]))) as EK.
  { rewrite K. unfold run_kurt. rewrite reals_app. change (reals [v]) with [IZR v]. rewrite feed_snoc. f_equal.
    rewrite Nat.add_0_l, INR_IZR_INZ. unfold reals. rewrite map_length. rewrite <- plus_IZR. reflexivity. }
  assert (forall q, q = (if useq then vs ++ [v] else []) -> exists a' : acc,
     Ret (mkAcc (if v <? a_min a then v else a_min a) (if v >? a_max a then v else a_max a) q (zlen vs + 1)
         (kurt_recurrence (IZR v) (a_k a) (IZR (zlen vs + 1)))) = Ret a' /\ summ useq (vs ++ [v]) a') as FIN.
  { intros q ->. eexists. split; [reflexivity|]. unfold summ. cbn [a_n a_q a_k a_min a_max].
    split; [auto|]. split; [auto|]. split; [exact EK|]. split; [intros C; destruct vs; discriminate C|].
    intros _. destruct vs as [|w vs'].
    - destruct (E0 eq_refl) as [-> ->]. destruct (single_ext v SH) as [-> ->].
      split; (split; [left; auto|intros w [<-|[]]; lia]).
    - destruct E1 as [EL EG]; [discriminate|]. split; [apply least_snoc|apply greatest_snoc]; auto. }
  destruct useq; rewrite QQ.
  - replace (zlen vs <? ni) with true by lia. cbn [bind]. apply FIN. reflexivity.
  - cbn [bind]. apply FIN. reflexivity.
Qed.

Lemma valid_app nodata a b : valid nodata (a ++ b) = valid nodata a ++ valid nodata b.
Proof. apply filter_app. Qed.
Lemma valid_length nodata l : zlen (valid nodata l) <= zlen l.
Proof.
  unfold valid, zlen. induction l as [|v l IH]; cbn [filter length]; [lia|].
  destruct (negb _); cbn [length]; lia.
Qed.

Lemma collect_spec nodata useq l : Forall in_short l ->
  exists a, collect nodata useq (zlen l) l = Ret a /\ summ useq (valid nodata l) a.
Proof.
  intros F. unfold collect.
  destruct (ofold_inv (collect1 nodata (zlen l) useq) (fun done a => summ useq (valid nodata done) a) l [] acc0) as (a & E & S).
  - apply summ0.
  - intros pre v post st E S. cbn [app] in *. destruct (Z.eq_dec v nodata) as [->|NV].
    + exists st. split; [unfold collect1; now rewrite Z.eqb_refl|]. rewrite valid_app. unfold valid at 2. cbn [filter].
      rewrite Z.eqb_refl. cbn [negb]. now rewrite app_nil_r.
    + rewrite valid_app. unfold valid at 2. cbn [filter]. replace (v =? nodata) with false by lia. cbn [negb].
      apply collect1_valid; auto.
      * rewrite Forall_forall in F. apply F. rewrite E. apply in_or_app; right; left; auto.
      * pose proof (valid_length nodata pre). rewrite E, zlen_app, zlen_cons. pose proof (zlen_nonneg post). lia.
  - exists a. auto.
Qed.

Lemma valid_in_app nodata p a b : valid_in nodata p (a ++ b) = valid_in nodata p a ++ valid_in nodata p b.
Proof. unfold valid_in. now rewrite filter_app, map_app. Qed.
Lemma valid_in_length nodata p s : zlen (valid_in nodata p s) <= zlen s.
Proof.
  unfold valid_in, zlen. rewrite map_length. induction s as [|v s IH]; cbn [filter length]; [lia|].
  destruct (_ && _); cbn [length]; lia.
Qed.
Lemma collect_fold_spec nodata useq s period : Forall (fun o => in_short (snd o)) s ->
  exists a, ofold (fun a o => if negb (fst o =? period) then Ret a
                       else collect1 nodata (zlen s) useq a (snd o)) s acc0 = Ret a /\
    summ useq (valid_in nodata period s) a.
Proof.
  intros F.
  destruct (ofold_inv (fun a o => if negb (fst o =? period) then Ret a else collect1 nodata (zlen s) useq a (snd o))
    (fun done a => summ useq (valid_in nodata period done) a) s [] acc0) as (a & E & S).
  - apply summ0.
  - intros pre [p v] post st E S. cbn [app fst snd] in *. rewrite valid_in_app.
    unfold valid_in at 2. cbn [filter fst snd]. destruct (Z.eqb_spec p period) as [->|NP]; cbn [negb andb].
    + destruct (Z.eq_dec v nodata) as [->|NV].
      * exists st. split; [unfold collect1; now rewrite Z.eqb_refl|]. rewrite Z.eqb_refl. cbn [negb map]. now rewrite app_nil_r.
      * replace (v =? nodata) with false by lia. cbn [negb map snd]. apply collect1_valid; auto.
        -- rewrite Forall_forall in F. apply (F (period, v)). rewrite E. apply in_or_app; right; left; auto.
        -- pose proof (valid_in_length nodata period pre). rewrite E, zlen_app, zlen_cons. pose proof (zlen_nonneg post). lia.
    + exists st. split; auto. cbn [map]. now rewrite app_nil_r.
  - exists a. auto.
Qed.

(** ** Quantiles *)
Lemma quantile_spec vs p lo hi : vs <> [] -> (0 <= p <= 1)%R -> Forall (fun v => lo <= v <= hi) vs ->
  exists q, quantile vs (zlen vs) p = Ret q /\ is_quantile vs p q /\ (IZR lo <= q <= IZR hi)%R.
Proof.
  intros NE P B. set (n := zlen vs). assert (1 <= n) as N.
  { unfold n, zlen. destruct vs; [congruence|]. cbn [length]. lia. }
  unfold quantile. replace (firstn (Z.to_nat n) vs) with vs by (unfold n, zlen; rewrite Nat2Z.id; now rewrite firstn_all).
  pose proof (isort_perm vs) as PE. pose proof (isort_sorted vs) as SO. set (s := isort vs) in *.
  assert (zlen s = n) as ZS by (unfold n, zlen; now rewrite (Permutation_length PE)).
  assert (forall i a, get_at s i = Some a -> (IZR lo <= IZR a <= IZR hi)%R) as BS.
  { intros i a G. apply get_at_In in G. apply Permutation_sym in PE. apply (Permutation_in _ PE) in G.
    rewrite Forall_forall in B. apply B in G. split; apply IZR_le; lia. }
  set (x := (p * IZR (n - 1))%R).
  assert (0 <= IZR (n - 1))%R as N1 by (apply IZR_le; lia).
  assert (0 <= x)%R as X0 by (apply Rmult_le_pos; lra).
  assert (x <= IZR (n - 1))%R as X1 by (unfold x; rewrite <- (Rmult_1_l (IZR (n - 1))) at 2; apply Rmult_le_compat_r; lra).
  rewrite Ztrunc_floor by auto. set (i := Zfloor x).
  assert (IZR i <= x < IZR (i + 1))%R as XI by (split; [apply Zfloor_lb|rewrite plus_IZR; apply Zfloor_ub]).
  assert (0 <= i <= n - 1) as I.
  { split; [apply Zfloor_lub; exact X0|]. unfold i. apply Zfloor_le in X1. rewrite Zfloor_IZR in X1. auto. }
  destruct (get_at_some s i) as (a & GA); [lia|].
  destruct (Z.eqb_spec i (n - 1)) as [E|E].
  - rewrite GA. cbn [of_option bind]. exists (IZR a). split; auto. split; [|eapply BS; eauto].
    exists s, i, a, a. split; auto. split; auto. split; [exact XI|]. split; auto. split.
    + fold n. replace (Z.min (i + 1) (n - 1)) with i by lia. auto.
    + ring.
  - destruct (get_at_some s (i + 1)) as (b & GB); [lia|]. rewrite GA, GB. cbn [of_option bind].
    eexists. split; [reflexivity|]. split.
    + exists s, i, a, b. split; auto. split; auto. split; [exact XI|]. split; auto. split.
      * fold n. replace (Z.min (i + 1) (n - 1)) with (i + 1) by lia. auto.
      * fold n. fold x. ring.
    + pose proof (BS _ _ GA) as A. pose proof (BS _ _ GB) as C. set (d := (x - IZR i)%R).
      assert (0 <= d <= 1)%R as D by (unfold d; rewrite plus_IZR in XI; lra).
      assert (0 <= (1 - d) * (IZR a - IZR lo) /\ 0 <= d * (IZR b - IZR lo) /\
              0 <= (1 - d) * (IZR hi - IZR a) /\ 0 <= d * (IZR hi - IZR b))%R as (K1 & K2 & K3 & K4)
        by (repeat split; apply Rmult_le_pos; lra).
      lra.
Qed.

Lemma short_of_between r lo hi : (IZR lo <= r <= IZR hi)%R -> -32768 <= lo -> hi <= 32767 ->
  short_of_real (Some r) = Ret (Ztrunc r) /\ lo <= Ztrunc r <= hi.
Proof.
  intros [A B] L H. apply Ztrunc_le in A, B. rewrite !Ztrunc_IZR in *. split; [|lia].
  unfold short_of_real. replace (in_shortb (Ztrunc r)) with true; auto. symmetry. apply in_shortb_spec. unfold in_short. lia.
Qed.

(** ** Moments *)
Lemma sum_le {A} (f g : A -> R) l : (forall x, In x l -> (f x <= g x)%R) -> (sum f l <= sum g l)%R.
Proof.
  intros H. induction l as [|x l IH]; cbn [sum]; [lra|].
  pose proof (H x (or_introl eq_refl)). pose proof (IH (fun y I => H y (or_intror I))). lra.
Qed.
Lemma sum_const {A} c (l : list A) : sum (fun _ => c) l = (size l * c)%R.
Proof. induction l as [|x l IH]; cbn [sum]; [unfold size; cbn; ring|]. rewrite IH, size_cons. ring. Qed.
Lemma mean_between l lo hi : l <> [] -> (forall x, In x l -> (lo <= x <= hi)%R) -> (lo <= mean l <= hi)%R.
Proof.
  intros NE H. pose proof (size_pos l NE) as P. unfold mean.
  assert (size l * lo <= sum (fun x => x) l)%R by (rewrite <- sum_const; apply sum_le; intros x I; apply H; auto).
  assert (sum (fun x => x) l <= size l * hi)%R by (rewrite <- sum_const; apply sum_le; intros x I; apply H; auto).
  assert (0 < / size l)%R as IP by (apply Rinv_0_lt_compat; auto).
  replace lo with (size l * lo * / size l)%R by (field; lra). replace hi with (size l * hi * / size l)%R by (field; lra).
  unfold Rdiv. split; apply Rmult_le_compat_r; lra.
Qed.
Lemma dev2_upper l m : l <> [] -> (forall x, In x l -> (- m <= x <= m)%R) -> (dev 2 l <= size l * m ^ 2)%R.
Proof.
  intros NE H. unfold dev. rewrite expand2, mean_P1 by auto. pose proof (size_pos l NE) as P.
  assert (Pk 2 l <= size l * m ^ 2)%R.
  { unfold Pk. rewrite <- sum_const. apply sum_le. intros x I. apply H in I. nra. }
  pose proof (pow2_ge_0 (mean l)). nra.
Qed.
Lemma dev2_zero_const l x y : dev 2 l = 0%R -> In x l -> In y l -> x = y.
Proof.
  intros D. assert (forall z, In z l -> z = mean l) as H; [|intros X Y; rewrite (H x X), (H y Y); auto].
  intros z. unfold dev in D. revert D. generalize (mean l) as m. intros m.
  induction l as [|w l IH]; [intros _ []|]; intros D [->|I]; cbn [sum] in D.
  - assert (0 <= sum (fun x0 => (x0 - m) ^ 2) l)%R by (apply sum_nonneg; intros; apply pow2_ge_0).
    pose proof (pow2_ge_0 (z - m)). assert ((z - m) ^ 2 = 0)%R as E by lra. cbn [pow] in E. rewrite Rmult_1_r in E.
    apply Rmult_integral in E. lra.
  - assert (0 <= sum (fun x0 => (x0 - m) ^ 2) l)%R by (apply sum_nonneg; intros; apply pow2_ge_0).
    pose proof (pow2_ge_0 (w - m)). apply IH; auto. lra.
Qed.
Lemma dev2_const l c : (forall x, In x l -> x = c) -> l <> [] -> dev 2 l = 0%R.
Proof.
  intros H NE.
  unfold dev. assert (mean l = c) as ->.
  { assert (c <= mean l <= c)%R by (apply mean_between; auto; intros x I; apply H in I; lra). lra. }
  assert (sum (fun x => (x - c) ^ 2) l <= sum (fun _ => 0) l)%R.
  { apply sum_le. intros x I. apply H in I. subst. rewrite Rminus_diag_eq by auto. cbn. lra. }
  rewrite sum_const in *. assert (0 <= sum (fun x => (x - c) ^ 2) l)%R by (apply sum_nonneg; intros; apply pow2_ge_0). lra.
Qed.
Lemma clamp_limited x : clamp x = limited x.
Proof.
  unfold clamp, limited, Rmax, Rmin. destruct (Rlt_dec x (-30000)), (Rle_dec 30000 x), (Rlt_dec 30000 _); repeat destruct (Rle_dec _ _); lra.
Qed.
Lemma limited_short x : short_of_real (Some (limited x)) = Ret (Ztrunc (limited x)).
Proof.
  apply (short_of_between _ (-30000) 30000); try lia. unfold limited, Rmax, Rmin.
  repeat destruct (Rle_dec _ _); lra.
Qed.

Lemma reals_nil vs : vs <> [] -> reals vs <> [].
Proof. destruct vs; cbn; congruence. Qed.

Section Value.
Context (useq : bool) (vs : list Z) (a : acc).
Hypothesis (SM : summ useq vs a) (NE : vs <> []) (MOD : moderate vs).

Lemma vs_reals x : In x (reals vs) -> (-16383 <= x <= 16383)%R.
Proof.
  intros I. apply in_map_iff in I. destruct I as (v & <- & I). destruct MOD as [_ F]. rewrite Forall_forall in F.
  apply F in I. split; apply IZR_le; lia.
Qed.
Lemma moments : k_mx (a_k a) = mean (reals vs) /\ k_vx (a_k a) = dev 2 (reals vs) /\
  k_sx (a_k a) = dev 3 (reals vs) /\ k_kx (a_k a) = dev 4 (reals vs).
Proof. destruct SM as (_ & _ & -> & _). apply run_kurt_spec, reals_nil, NE. Qed.

Lemma num_value : described true vs NUM (to_short (a_n a)).
Proof.
  destruct SM as (N & _). destruct MOD as [L _]. cbn [described]. rewrite N. apply to_short_id. unfold in_short.
  pose proof (zlen_nonneg vs). lia.
Qed.
Lemma min_value : described true vs MIN (a_min a).
Proof. destruct SM as (_ & _ & _ & _ & H). apply H, NE. Qed.
Lemma max_value : described true vs MAX (a_max a).
Proof. destruct SM as (_ & _ & _ & _ & H). apply H, NE. Qed.
Lemma rng_value : described true vs RNG (to_short (a_max a - a_min a)).
Proof.
  exists (a_min a), (a_max a). split; [apply min_value|]. split; [apply max_value|].
  apply to_short_id. destruct MOD as [_ F]. rewrite Forall_forall in F.
  destruct min_value as [I1 _], max_value as [I2 _]. apply F in I1, I2. unfold in_short. lia.
Qed.
Lemma avg_value : exists v, short_of_real (Some (k_mx (a_k a))) = Ret v /\ described true vs AVG v.
Proof.
  destruct moments as (-> & _). eexists. split; [|reflexivity].
  apply (short_of_between _ (-16383) 16383); try lia. apply mean_between; [apply reals_nil, NE|]. apply vs_reals.
Qed.
Lemma std_value : exists_for vs STD -> exists v, short_of_real (standdev_o (k_vx (a_k a)) (a_n a)) = Ret v /\ described true vs STD v.
Proof.
  cbn [exists_for]. intros L. destruct moments as (_ & -> & _). destruct SM as (N & _). rewrite N. unfold standdev_o.
  replace (zlen vs =? 1) with false by lia. unfold standdev, variance. eexists. split; [|cbn [described]; rewrite size_Z; reflexivity].
  apply (short_of_between _ 0 32767); try lia.
  split; [apply sqrt_pos|]. rewrite <- (sqrt_square (IZR 32767)) by lra. apply sqrt_le_1_alt.
  pose proof (dev2_upper (reals vs) 16383 (reals_nil vs NE) vs_reals) as D. rewrite size_reals in D.
  assert (2 <= IZR (zlen vs))%R as L' by (apply IZR_le; auto).
  assert (0 < / (IZR (zlen vs) - 1))%R as IP by (apply Rinv_0_lt_compat; lra).
  apply Rle_trans with (IZR (zlen vs) * 16383 ^ 2 * / (IZR (zlen vs) - 1))%R; [apply Rmult_le_compat_r; lra|].
  apply Rle_trans with (2 * 16383 ^ 2)%R; [|lra].
  replace (2 * 16383 ^ 2)%R with (2 * (IZR (zlen vs) - 1) * 16383 ^ 2 * / (IZR (zlen vs) - 1))%R by (field; lra).
  apply Rmult_le_compat_r; [lra|]. apply Rmult_le_compat_r; lra.
Qed.
Lemma dev_nonzero : (exists x y, In x vs /\ In y vs /\ x <> y) -> dev 2 (reals vs) <> 0%R.
Proof.
  intros (x & y & X & Y & N) D. apply N. apply eq_IZR. apply (dev2_zero_const _ _ _ D); apply in_map; auto.
Qed.
Lemma skw_value : exists_for vs SKW -> exists v, short_of_real (skewscaled a) = Ret v /\ described true vs SKW v.
Proof.
  intros X. unfold skewscaled. destruct moments as (_ & E2 & E3 & _). destruct SM as (N & _ & K & _).
  destruct (Req_EM_T _ _) as [Z|_]; [rewrite E2 in Z; destruct (dev_nonzero X Z)|].
  rewrite clamp_limited, limited_short. eexists. split; [reflexivity|]. cbn [described]. do 3 f_equal.
  destruct (run_skew_kurt (reals vs)) as (_ & S1 & S2). cbv zeta in *. rewrite K, <- S1, <- S2, N, <- size_reals.
  apply skewness_spec, reals_nil, NE.
Qed.
Lemma krt_value : exists_for vs KRT -> exists v, short_of_real (kurtscaled a) = Ret v /\ described true vs KRT v.
Proof.
  intros X. unfold kurtscaled. destruct moments as (_ & E2 & E3 & _). destruct SM as (N & _ & K & _).
  destruct (Req_EM_T _ _) as [Z|_]; [rewrite E2 in Z; destruct (dev_nonzero X Z)|].
  rewrite clamp_limited, limited_short. eexists. split; [reflexivity|]. cbn [described]. unfold kurt_of. do 4 f_equal.
  rewrite K, N, <- size_reals. apply kurtosis_spec, reals_nil, NE.
Qed.
Lemma q_value k : useq = true -> 1 <= k <= 99 -> exists q,
  quantile (a_q a) (a_n a) (percent k) = Ret q /\ is_quantile vs (IZR k / 100) q /\
  short_of_real (Some q) = Ret (Ztrunc q) /\ -16383 <= Ztrunc q <= 16383 /\ (-16383 <= q <= 16383)%R.
Proof.
  intros -> K. destruct SM as (-> & -> & _). destruct MOD as [_ F].
  assert (0 <= IZR k / 100 <= 1)%R as P.
  { destruct K as [K1 K2]. apply IZR_le in K1, K2. lra. }
  destruct (quantile_spec vs (percent k) (-16383) 16383 NE P F) as (q & E & IQ & B).
  exists q. split; auto. split; auto. destruct (short_of_between q (-16383) 16383 B) as [S1 S2]; try lia. auto.
Qed.

Lemma fold_value_spec m : useq = fold_useq m -> exists_for vs m ->
  exists v, fold_value m a = Ret v /\ described false vs m v.
Proof.
  intros U X. destruct m; cbn [fold_value].
  - eexists; split; [reflexivity|apply num_value].
  - eexists; split; [reflexivity|apply min_value].
  - eexists; split; [reflexivity|apply max_value].
  - eexists; split; [reflexivity|apply rng_value].
  - destruct (q_value 75 U ltac:(lia)) as (h & -> & Q3 & _ & _ & B3).
    destruct (q_value 25 U ltac:(lia)) as (l & -> & Q1 & _ & _ & B1). cbn [bind].
    destruct (short_of_between (h - l) (-32766) 32766) as [E _]; [lra|lia|lia|].
    rewrite E. eexists. split; [reflexivity|]. exists l, h.
    replace (1 / 4)%R with (25 / 100)%R by lra. replace (3 / 4)%R with (75 / 100)%R by lra. auto.
  - apply avg_value.
  - apply std_value; auto.
  - apply skw_value; auto.
  - apply krt_value; auto.
  - destruct (q_value k U X) as (q & -> & QQ & E & _). cbn [bind]. rewrite E. eexists. split; [reflexivity|]. exists q. auto.
Qed.
End Value.

Lemma fold_period_spec nodata m s period :
  let vs := valid_in nodata period s in
  Forall (fun o => in_short (snd o)) s ->
  (vs = [] -> fold_period nodata m s period = Ret nodata) /\
  (vs <> [] -> moderate vs -> exists_for vs m ->
     exists v, fold_period nodata m s period = Ret v /\ described false vs m v).
Proof.
  intros vs F. destruct (collect_fold_spec nodata (fold_useq m) s period F) as (a & E & S).
  unfold fold_period. rewrite E. cbn [bind]. pose proof S as (N & _). fold vs in S, N. split.
  - intros V. rewrite V in N. rewrite N. reflexivity.
  - intros NE MOD X. assert (0 < zlen vs).
    { unfold zlen. destruct vs; [congruence|]. cbn [length]. lia. }
    rewrite N. replace (0 <? zlen vs) with true by lia. eapply fold_value_spec; eauto.
Qed.
