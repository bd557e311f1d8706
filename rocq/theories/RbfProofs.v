From Coq Require Import Reals Lra Sorting.Sorted.
From Flocq Require Import Core.
From Verif Require Import Base BaseFacts Loops LoopsFacts InterpSpec InterpProofs RbfModel RbfSpec.
#[local] Open Scope Z_scope.

Lemma gauss_pos sigma d : 0 < sigma -> (0 < gauss sigma d)%R.
Proof.
  intros S. unfold gauss. apply Rmult_lt_0_compat; [|apply exp_pos].
  unfold Rdiv. rewrite Rmult_1_l. apply Rinv_0_lt_compat. apply Rmult_lt_0_compat.
  - apply sqrt_lt_R0. pose proof PI_RGT_0. lra.
  - apply IZR_lt. lia.
Qed.
Lemma side_step sigma n : side sigma (S n) = (side sigma n + gauss sigma (Z.of_nat n))%R.
Proof. reflexivity. Qed.
Lemma side_mono sigma n m : 0 < sigma -> (n <= m)%nat -> (side sigma n <= side sigma m)%R.
Proof.
  intros S L. induction L as [|m L IH]; [lra|]. rewrite side_step. pose proof (gauss_pos sigma (Z.of_nat m) S). lra.
Qed.
Lemma side_pos sigma n : 0 < sigma -> (0 < n)%nat -> (0 < side sigma n)%R.
Proof.
  intros S L. eapply Rlt_le_trans; [|apply (side_mono sigma 1 n); auto; lia].
  cbn [side]. pose proof (gauss_pos sigma (Z.of_nat 0) S). lra.
Qed.

Lemma nbin_hbin l : 0 < l -> nbin_of l = 2 * hbin_of l + 1 /\ hbin_of l = 4 * l.
Proof. intros L. unfold hbin_of, nbin_of. cbn zeta. destruct (_ =? _) eqn:E; lia. Qed.

Section Kern.
Context (sigma : Z) (cutoff : R) (h : Z).
Hypothesis (SP : 0 < sigma) (HP : 0 <= h) (C0 : (gauss sigma 0 <= cutoff / 2)%R).
Let ker n := map (fun bin => weight sigma (bin - h)) (zupto n).

Lemma ker_snoc n : 0 <= n -> ker (n + 1) = ker n ++ [weight sigma (n - h)].
Proof. intros N. unfold ker. rewrite zupto_snoc, map_app by lia. reflexivity. Qed.

Lemma fold_low (n : nat) : Z.of_nat n <= h ->
  fold_left (kern_step sigma cutoff h) (zupto (Z.of_nat n)) ([], 0%R, 0, 0%R) = (ker (Z.of_nat n), 0%R, 0, 0%R).
Proof.
  induction n as [|n IH]; intros L; [reflexivity|].
  replace (Z.of_nat (S n)) with (Z.of_nat n + 1) by lia. rewrite zupto_snoc, fold_left_app, IH by lia.
  cbn [fold_left kern_step]. replace (0 <=? Z.of_nat n - h) with false by lia. rewrite ker_snoc by lia. reflexivity.
Qed.

Lemma fold_high (m : nat) : exists d,
  fold_left (kern_step sigma cutoff h) (zupto (h + 1 + Z.of_nat m)) ([], 0%R, 0, 0%R) =
    (ker (h + 1 + Z.of_nat m), side sigma (S m), d, side sigma (Z.to_nat (d + 1))) /\
  reaches sigma cutoff (Z.of_nat m) d.
Proof.
  assert (side sigma 1 = gauss sigma 0) as S1 by (cbn [side Z.of_nat]; lra).
  induction m as [|m (d & IH & R1 & R2 & R3)].
  - exists 0. replace (h + 1 + Z.of_nat 0) with (h + 1) by lia.
    pose proof (fold_low (Z.to_nat h) ltac:(lia)) as FL. rewrite Z2Nat.id in FL by lia.
    rewrite zupto_snoc, fold_left_app, FL by lia. cbn [fold_left kern_step].
    rewrite Z.sub_diag. cbn [Z.leb Z.compare]. change (weight sigma 0) with (gauss sigma 0).
    destruct (Rle_dec _ _) as [_|N]; [|lra]. split.
    + rewrite ker_snoc, Z.sub_diag by lia. change (Z.to_nat (0 + 1)) with 1%nat. rewrite S1, Rplus_0_l. reflexivity.
    + split; [lia|]. change (Z.to_nat (0 + 1)) with 1%nat. rewrite S1. split; auto. intros; lia.
  - replace (h + 1 + Z.of_nat (S m)) with (h + 1 + Z.of_nat m + 1) by lia.
    rewrite zupto_snoc, fold_left_app, IH by lia. cbn [fold_left kern_step].
    replace (h + 1 + Z.of_nat m - h) with (Z.of_nat (S m)) by lia. replace (0 <=? Z.of_nat (S m)) with true by lia.
    change (weight sigma (Z.of_nat (S m))) with (gauss sigma (Z.of_nat (S m))). rewrite <- side_step.
    rewrite ker_snoc by lia. replace (h + 1 + Z.of_nat m - h) with (Z.of_nat (S m)) by lia.
    change (weight sigma (Z.of_nat (S m))) with (gauss sigma (Z.of_nat (S m))).
    destruct (Rle_dec _ _) as [Y|N].
    + assert (d = Z.of_nat m) as ->.
      { enough (Z.of_nat m <= d) by lia. apply R3; [lia|]. eapply Rle_trans; [|exact Y]. apply side_mono; auto. lia. }
      exists (Z.of_nat (S m)). split.
      * replace (Z.to_nat (Z.of_nat (S m) + 1)) with (S (S m)) by lia. rewrite (side_step sigma (S m)).
        replace (Z.to_nat (Z.of_nat m + 1)) with (S m) by lia. reflexivity.
      * split; [lia|]. replace (Z.to_nat (Z.of_nat (S m) + 1)) with (S (S m)) by lia. split; auto. intros; lia.
    + exists d. split; [reflexivity|]. split; [lia|]. split; auto.
      intros d' D' L'. destruct (Z.eq_dec d' (Z.of_nat (S m))) as [->|]; [|apply R3; auto; lia].
      exfalso. apply N. replace (Z.to_nat (Z.of_nat (S m) + 1)) with (S (S m)) in L' by lia. auto.
Qed.
End Kern.

(** A kernel whose central weight exceeds half the cutoff keeps its zeroes. *)
Lemma fold_dead sigma cutoff h n : 0 < sigma -> 0 <= h -> (cutoff / 2 < gauss sigma 0)%R ->
  exists sum, fold_left (kern_step sigma cutoff h) (zupto (Z.of_nat n)) ([], 0%R, 0, 0%R) =
    (map (fun bin => weight sigma (bin - h)) (zupto (Z.of_nat n)), sum, 0, 0%R) /\
    (0 <= sum)%R /\ (h < Z.of_nat n -> (cutoff / 2 < sum)%R).
Proof.
  intros S H W. induction n as [|n (sum & IH & P & Q)].
  - exists 0%R. split; [reflexivity|]. split; [lra|lia].
  - replace (Z.of_nat (Datatypes.S n)) with (Z.of_nat n + 1) by lia. rewrite zupto_snoc, fold_left_app, IH, map_app by lia.
    cbn [fold_left map kern_step]. pose proof (gauss_pos sigma (Z.of_nat n - h) S) as GP.
    change (weight sigma (Z.of_nat n - h)) with (gauss sigma (Z.of_nat n - h)).
    destruct (Z.leb_spec 0 (Z.of_nat n - h)) as [L|L].
    + assert (cutoff / 2 < sum + gauss sigma (Z.of_nat n - h))%R as B.
      { destruct (Z.eq_dec (Z.of_nat n) h) as [E|E]; [rewrite E, Z.sub_diag; lra|]. specialize (Q ltac:(lia)). lra. }
      destruct (Rle_dec _ _); [lra|]. eexists. split; [reflexivity|]. split; [lra|auto].
    + exists sum. split; [reflexivity|]. split; [auto|lia].
Qed.

Definition good (h : Z) (k : kern) (p : Z * Z) : Prop :=
  0 < fst p /\ 0 <= snd p <= h /\ max_ce k = snd p /\ max_w k = full p /\
  kernel k = map (fun bin => weight (fst p) (bin - h)) (zupto (2 * h + 1)).

Lemma make_kern_spec cutoff l sigma : 0 < l -> 0 < sigma -> (gauss sigma 0 <= cutoff / 2)%R ->
  exists d, reaches sigma cutoff (4 * l) d /\ good (hbin_of l) (make_kern cutoff l sigma) (sigma, d).
Proof.
  intros L S C. destruct (nbin_hbin l L) as [E1 E2].
  destruct (fold_high sigma cutoff (hbin_of l) S ltac:(lia) C (Z.to_nat (hbin_of l))) as (d & F & R).
  replace (hbin_of l + 1 + Z.of_nat (Z.to_nat (hbin_of l))) with (2 * hbin_of l + 1) in F by lia.
  rewrite Z2Nat.id in R by lia. exists d. rewrite <- E2. split; auto.
  unfold make_kern. rewrite E1, F. unfold good. cbn [fst snd max_ce max_w kernel].
  destruct R. repeat split; auto; lia.
Qed.

Lemma kernels_spec cutoff l sigmas : 0 < l ->
  Forall (fun sigma => 0 < sigma /\ (gauss sigma 0 <= cutoff / 2)%R) sigmas ->
  exists ds, Forall2 (fun sigma d => reaches sigma cutoff (4 * l) d) sigmas ds /\
    Forall2 (good (hbin_of l)) (map (make_kern cutoff l) sigmas) (combine sigmas ds).
Proof.
  intros L. induction 1 as [|sigma sigmas [S C] _ (ds & F1 & F2)]; [exists []; split; constructor|].
  destruct (make_kern_spec cutoff l sigma L S C) as (d & R & G). exists (d :: ds).
  split; [constructor|cbn [map combine]; constructor]; auto.
Qed.

(** ** Sums *)
Lemma Rsum_app a b : Rsum (a ++ b) = (Rsum a + Rsum b)%R.
Proof. unfold Rsum. induction a as [|x a IH]; cbn [app fold_right]; [lra|]. rewrite IH. lra. Qed.
Lemma used_app nodata d x a b : used nodata d x (a ++ b) = used nodata d x a ++ used nodata d x b.
Proof. apply filter_app. Qed.
Lemma used_none nodata d x l : (forall c y, In (c, y) l -> y = nodata \/ d < Z.abs (c - x)) -> used nodata d x l = [].
Proof.
  intros H. unfold used. induction l as [|[c y] l IH]; [reflexivity|]. cbn [filter fst snd].
  destruct (H c y) as [->|L]; [left; auto| |].
  - rewrite Z.eqb_refl. cbn [negb andb]. apply IH. intros; apply H; right; auto.
  - replace (Z.abs (c - x) <=? d) with false by lia. rewrite andb_false_r. apply IH. intros; apply H; right; auto.
Qed.
Lemma kernel_at h k p e : good h k p -> Z.abs e <= h -> get_at (kernel k) (e + h) = Some (gauss (fst p) e).
Proof.
  intros (_ & _ & _ & _ & ->) E. unfold get_at. replace (e + h <? 0) with false by lia.
  rewrite nth_error_map. rewrite (nth_error_nth' _ 0) by (rewrite zupto_length; lia).
  rewrite zupto_nth by lia. cbn [option_map]. replace (e + h - h) with e by lia. reflexivity.
Qed.

Lemma Forall2_len {A B} (R : A -> B -> Prop) l m : Forall2 R l m -> length l = length m.
Proof. induction 1; cbn; auto. Qed.

Section Scan.
Context (nodata : Z) (s : list (Z * Z)) (h : Z).
Hypothesis SORT : sorted_days s.

Definition wsum (p : Z * Z) (x : Z) (l : list (Z * Z)) : R :=
  Rsum (map (fun o => gauss (fst p) (fst o - x)) (used nodata (snd p) x l)).
Definition ysum (p : Z * Z) (x : Z) (l : list (Z * Z)) : R :=
  Rsum (map (fun o => IZR (snd o) * gauss (fst p) (fst o - x))%R (used nodata (snd p) x l)).

Lemma rbf_scan_spec k p x : good h k p -> forall suf pre, s = pre ++ suf -> forall tl,
  0 <= tl <= zlen pre ->
  (forall t c y, get_at s t = Some (c, y) -> t < tl -> snd p < x - c) ->
  exists tl', rbf_scan nodata h k x (zlen pre) suf (ysum p x pre) (wsum p x pre) tl =
      Ret (ysum p x s, wsum p x s, tl') /\
    0 <= tl' <= zlen s /\ (forall t c y, get_at s t = Some (c, y) -> t < tl' -> snd p < x - c).
Proof.
  intros GD. pose proof GD as (_ & RD & CE & _). induction suf as [|[c y] suf IH]; intros pre S tl TL H.
  - rewrite app_nil_r in S. subst pre. cbn [rbf_scan]. eauto.
  - assert (get_at s (zlen pre) = Some (c, y)) as G.
    { rewrite S, get_at_app_r by lia. rewrite Z.sub_diag. reflexivity. }
    assert (s = (pre ++ [(c, y)]) ++ suf) as S' by (rewrite <- app_assoc; exact S).
    assert (zlen (pre ++ [(c, y)]) = zlen pre + 1) as ZL by (rewrite zlen_app; reflexivity).
    assert (zlen pre + 1 <= zlen s) as LP by (rewrite S, zlen_app, zlen_cons; pose proof (zlen_nonneg suf); lia).
    assert ((y = nodata \/ snd p < Z.abs (c - x)) ->
      ysum p x (pre ++ [(c, y)]) = ysum p x pre /\ wsum p x (pre ++ [(c, y)]) = wsum p x pre) as SKIP.
    { intros Q. unfold ysum, wsum. rewrite used_app, (used_none nodata (snd p) x [(c, y)]), app_nil_r; auto.
      intros c' y' [E|[]]. inversion E; subst. auto. }
    cbn [rbf_scan]. rewrite <- ZL, CE. destruct (Z.ltb_spec (snd p) (x - c)) as [E|NE].
    + destruct SKIP as [<- <-]; [lia|]. apply (IH _ S'); [pose proof (zlen_nonneg pre); lia|].
      intros t c' y' G' LT. pose proof (SORT _ _ _ _ _ _ G' G ltac:(lia)). lia.
    + destruct (Z.ltb_spec (snd p) (c - x)) as [E|NE2].
      * assert (used nodata (snd p) x s = used nodata (snd p) x pre) as EW.
        { rewrite S, used_app, (used_none _ _ x ((c, y) :: suf)), app_nil_r; auto.
          intros c' y' I. right. apply In_get_at in I. destruct I as (i & I1 & I2).
          assert (get_at s (zlen pre + i) = Some (c', y')) as G'.
          { rewrite S, get_at_app_r by lia. rewrite <- I2. f_equal. lia. }
          pose proof (SORT _ _ _ _ _ _ G G' ltac:(lia)). lia. }
        exists tl. unfold ysum, wsum. rewrite EW. repeat split; auto; lia.
      * destruct (Z.eqb_spec y nodata) as [YN|YN].
        -- destruct SKIP as [<- <-]; [auto|]. apply (IH _ S'); auto. lia.
        -- rewrite (kernel_at h k p) by (auto; lia). cbn [of_option bind].
           assert (used nodata (snd p) x (pre ++ [(c, y)]) = used nodata (snd p) x pre ++ [(c, y)]) as EW.
           { rewrite used_app. f_equal. unfold used. cbn [filter fst snd].
             replace (y =? nodata) with false by lia. replace (Z.abs (c - x) <=? snd p) with true by lia. reflexivity. }
           replace (ysum p x pre + IZR y * gauss (fst p) (c - x))%R with (ysum p x (pre ++ [(c, y)])).
           2:{ unfold ysum. rewrite EW, map_app, Rsum_app. unfold Rsum at 2. cbn [map fold_right fst snd]. lra. }
           replace (wsum p x pre + gauss (fst p) (c - x))%R with (wsum p x (pre ++ [(c, y)])).
           2:{ unfold wsum. rewrite EW, map_app, Rsum_app. unfold Rsum at 2. cbn [map fold_right fst snd]. lra. }
           apply (IH _ S'); auto. lia.
Qed.

Definition left_ok (x : Z) (p : Z * Z) (tl : Z) : Prop := 0 <= tl <= zlen s /\
  forall t c y, get_at s t = Some (c, y) -> t < tl -> snd p < x - c.

Lemma rbf_scans_spec x : forall ks ps, Forall2 (good h) ks ps -> forall tls, Forall2 (left_ok x) ps tls ->
  exists tls', rbf_scans nodata h x s ks tls =
     Ret (map (fun q => (ysum (fst q) x s, wsum (fst q) x s, snd q)) (combine ps tls')) /\
    Forall2 (left_ok x) ps tls'.
Proof.
  induction 1 as [|k p ks ps G _ IH]; intros tls F; inversion F as [|? tl ? tls0 [TL H] F']; subst.
  - exists []. split; [reflexivity|constructor].
  - destruct (IH _ F') as (tls' & E & F2). cbn [rbf_scans].
    assert (zlen (firstn (Z.to_nat tl) s) = tl) as ZT by (rewrite firstn_skipn_at; unfold zlen in *; lia).
    assert (used nodata (snd p) x (firstn (Z.to_nat tl) s) = []) as E0.
    { apply used_none. intros c y I. apply In_get_at in I. destruct I as (i & I1 & I2).
      enough (snd p < x - c) by lia. apply (H i c y); [|lia].
      rewrite <- (firstn_skipn (Z.to_nat tl) s). rewrite get_at_app_l; auto. lia. }
    destruct (rbf_scan_spec k p x G (skipn (Z.to_nat tl) s) (firstn (Z.to_nat tl) s) (eq_sym (firstn_skipn _ _)) tl
      ltac:(lia) H) as (tl' & ES & LO).
    rewrite ZT in ES. unfold ysum, wsum in ES. rewrite E0 in ES. unfold Rsum in ES at 1 2. cbn [map fold_right] in ES.
    rewrite ES. cbn [bind]. rewrite E. cbn [bind]. exists (tl' :: tls'). split; [reflexivity|].
    constructor; auto.
Qed.

Lemma wsum_pos p x : 0 < fst p ->
  (used nodata (snd p) x s = [] /\ wsum p x s = 0%R /\ ysum p x s = 0%R) \/
  (used nodata (snd p) x s <> [] /\ (0 < wsum p x s)%R).
Proof.
  intros P. unfold wsum, ysum. destruct (used nodata (snd p) x s) as [|o l]; [left; auto|right].
  split; [discriminate|]. cbn [map]. change (Rsum (?a :: ?b)) with (a + Rsum b)%R.
  pose proof (gauss_pos (fst p) (fst o - x) P).
  enough (0 <= Rsum (map (fun o => gauss (fst p) (fst o - x)) l))%R by lra.
  clear - P. induction l as [|o l IH]; unfold Rsum in *; cbn [map fold_right]; [lra|].
  pose proof (gauss_pos (fst p) (fst o - x) P). lra.
Qed.
Lemma full_pos h0 k p : good h0 k p -> (0 < full p)%R.
Proof. intros (P & D & _). unfold full. pose proof (side_pos (fst p) (Z.to_nat (snd p + 1)) P ltac:(lia)). lra. Qed.

Lemma rbf_sums_spec x : forall ks ps, Forall2 (good h) ks ps -> forall tls, length tls = length ps -> forall kd d,
  rbf_sums ks (map (fun q => (ysum (fst q) x s, wsum (fst q) x s, snd q)) (combine ps tls)) kd d =
  Ret ((kd + numer nodata x s ps)%R, (d + denom nodata x s ps)%R).
Proof.
  induction 1 as [|k p ks ps G _ IH]; intros [|tl tls] L kd d; try discriminate L.
  - unfold numer, denom, Rsum. cbn. f_equal. f_equal; lra.
  - cbn [combine map rbf_sums fst snd]. cbn [length] in L. injection L as L.
    pose proof (full_pos h k p G) as FP. pose proof G as (P & _ & _ & MW & _). rewrite MW.
    unfold numer, denom. cbn [map]. change (Rsum (?a :: ?b)) with (a + Rsum b)%R.
    fold (wsum p x s). fold (ysum p x s).
    fold (numer nodata x s ps). fold (denom nodata x s ps).
    destruct (wsum_pos p x P) as [(_ & W & Y)|(_ & W)].
    + rewrite W, Y. destruct (Rlt_dec 0 0); [lra|]. rewrite IH by auto. f_equal. unfold Rdiv. rewrite !Rmult_0_l. f_equal; lra.
    + destruct (Rlt_dec _ _); [|lra]. destruct (Req_EM_T _ _); [lra|]. rewrite IH by auto. f_equal. f_equal; lra.
Qed.

(** The ensemble is a convex combination. *)
Lemma mean_bounds p x lo hi : 0 < fst p -> (forall o, In o (used nodata (snd p) x s) -> lo <= snd o <= hi) ->
  (IZR lo * wsum p x s <= ysum p x s <= IZR hi * wsum p x s)%R.
Proof.
  intros P. unfold wsum, ysum. induction (used nodata (snd p) x s) as [|o l IH]; intros B; unfold Rsum in *; cbn [map fold_right]; [lra|].
  pose proof (gauss_pos (fst p) (fst o - x) P) as GP.
  destruct (B o (or_introl eq_refl)) as [B1 B2]. apply IZR_le in B1, B2.
  specialize (IH (fun o' I => B o' (or_intror I))).
  pose proof (Rmult_le_compat_r _ _ _ (Rlt_le _ _ GP) B1). pose proof (Rmult_le_compat_r _ _ _ (Rlt_le _ _ GP) B2). lra.
Qed.
Lemma ensemble_bounds x lo hi : forall ks ps, Forall2 (good h) ks ps ->
  (forall o, any_used nodata x s ps o -> lo <= snd o <= hi) ->
  (IZR lo * denom nodata x s ps <= numer nodata x s ps <= IZR hi * denom nodata x s ps)%R.
Proof.
  induction 1 as [|k p ks ps G _ IH]; intros B; unfold numer, denom in *; cbn [map]; [unfold Rsum; cbn; lra|].
  change (Rsum (?a :: ?b)) with (a + Rsum b)%R. fold (wsum p x s). fold (ysum p x s).
  pose proof (full_pos h k p G) as FP. pose proof G as (P & _).
  destruct (mean_bounds p x lo hi P) as [M1 M2]; [intros o I; apply B; exists p; split; [left; auto|auto]|].
  assert (forall o, any_used nodata x s ps o -> lo <= snd o <= hi) as B'.
  { intros o (q & I & U). apply B. exists q. split; [right; auto|auto]. }
  specialize (IH B').
  assert (0 < / full p)%R as IP by (apply Rinv_0_lt_compat; auto).
  pose proof (Rmult_le_compat_r _ _ _ (Rlt_le _ _ IP) M1). pose proof (Rmult_le_compat_r _ _ _ (Rlt_le _ _ IP) M2).
  unfold Rdiv in *. lra.
Qed.
Lemma denom_pos x : forall ks ps, Forall2 (good h) ks ps ->
  ((forall o, ~ any_used nodata x s ps o) /\ denom nodata x s ps = 0%R) \/
  ((exists o, any_used nodata x s ps o) /\ (0 < denom nodata x s ps)%R).
Proof.
  induction 1 as [|k p ks ps G _ IH].
  - left. split; [intros o (q & [] & _)|reflexivity].
  - unfold denom in *. cbn [map]. change (Rsum (?a :: ?b)) with (a + Rsum b)%R. fold (wsum p x s).
    pose proof (full_pos h k p G) as FP. pose proof G as (P & _).
    assert (0 < / full p)%R as IP by (apply Rinv_0_lt_compat; auto). unfold Rdiv in *.
    destruct (wsum_pos p x P) as [(E & W & _)|(N & W)].
    + rewrite W. destruct IH as [[NU D]|[(o & q & I & U) D]].
      * left. split; [|lra]. intros o (q & [->|I] & U); [rewrite E in U; destruct U|]. apply (NU o). exists q; auto.
      * right. split; [|lra]. exists o, q. split; [right|]; auto.
    + right. split.
      * destruct (used nodata (snd p) x s) as [|o l] eqn:E; [congruence|]. exists o, p. split; [left; auto|]. rewrite E. left; auto.
      * pose proof (Rmult_lt_0_compat _ _ W IP). destruct IH as [[_ D]|[_ D]]; lra.
Qed.

Lemma convex_trunc lo hi n d : (0 < d)%R -> (IZR lo * d <= n <= IZR hi * d)%R -> lo <= Ztrunc (n / d) <= hi.
Proof.
  intros D [B1 B2]. assert (0 < / d)%R as IP by (apply Rinv_0_lt_compat; auto).
  assert (IZR lo <= n / d <= IZR hi)%R as [Q1 Q2].
  { replace (IZR lo) with (IZR lo * d * / d)%R by (field; lra). replace (IZR hi) with (IZR hi * d * / d)%R by (field; lra).
    unfold Rdiv. split; apply Rmult_le_compat_r; lra. }
  apply Ztrunc_le in Q1, Q2. rewrite !Ztrunc_IZR in *. lia.
Qed.
Lemma used_In d x o : In o (used nodata d x s) -> In o s /\ snd o <> nodata /\ Z.abs (fst o - x) <= d.
Proof. intros I. apply filter_In in I. destruct I as [I E]. split; auto. lia. Qed.
Lemma result_bounds ks ps x v lo hi : Forall2 (good h) ks ps -> rbf_result nodata s ps x v ->
  (exists o, any_used nodata x s ps o) ->
  (forall o, any_used nodata x s ps o -> lo <= snd o <= hi) -> lo <= v <= hi.
Proof.
  intros G [[N _]|[_ ->]] (o & U) B; [exfalso; exact (N o U)|].
  destruct (denom_pos x ks ps G) as [[N _]|[_ D]]; [exfalso; exact (N o U)|].
  apply convex_trunc; auto. apply (ensemble_bounds x lo hi ks ps G B).
Qed.

Lemma rbf_loop_spec ks ps : Forall2 (good h) ks ps -> days_ok s -> forall grid tls,
  StronglySorted Z.le grid -> length tls = length ps ->
  Forall (fun x => Forall2 (left_ok x) ps tls) grid ->
  exists out, rbf_loop nodata h ks s tls grid = Ret out /\ Forall2 (rbf_result nodata s ps) grid out.
Proof.
  intros G DAYS. induction grid as [|x grid IH]; intros tls ST L F; cbn [rbf_loop]; [eauto|].
  inversion ST as [|? ? ST' LT]; subst. inversion F as [|? ? Fx F']; subst.
  destruct (rbf_scans_spec x ks ps G tls Fx) as (tls' & E & FL). rewrite E. cbn [bind].
  pose proof (Forall2_len _ _ _ FL) as L'.
  rewrite (rbf_sums_spec x ks ps G tls' (eq_sym L')). cbn [bind fst snd]. rewrite !Rplus_0_l.
  assert (map snd (map (fun q => (ysum (fst q) x s, wsum (fst q) x s, snd q)) (combine ps tls')) = tls') as EM.
  { rewrite map_map. cbn [snd]. clear - L'. revert tls' L'. induction ps as [|p ps IH]; intros [|t tls] L; cbn in *; try lia; auto.
    f_equal. apply IH. lia. }
  rewrite EM. destruct (IH tls') as (out & EL & FO); auto.
  { rewrite Forall_forall in *. intros x' I. specialize (LT x' I). clear - FL LT.
    induction FL as [|p t ps ts [A B] _ IHF]; constructor; auto. split; auto. intros t' c y G T. specialize (B _ _ _ G T). lia. }
  rewrite EL. unfold rbf_value.
  assert (forall v, rbf_result nodata s ps x v -> exists out0, (y <- Ret v;; ys <- Ret out;; Ret (y :: ys)) = Ret out0 /\ Forall2 (rbf_result nodata s ps) (x :: grid) out0) as FIN.
  { intros v R. cbn [bind]. eauto. }
  destruct (denom_pos x ks ps G) as [[N D]|[U D]].
  - rewrite D. destruct (Rlt_dec 0 0); [lra|]. apply FIN. left. auto.
  - destruct (Rlt_dec _ _); [|lra].
    assert (rbf_result nodata s ps x (Ztrunc (numer nodata x s ps / denom nodata x s ps))) as R by (right; auto).
    assert (in_short (Ztrunc (numer nodata x s ps / denom nodata x s ps))) as IS.
    { apply (result_bounds ks ps x _ (-32768) 32767 G R U). intros o (q & _ & I). apply used_In in I.
      destruct I as [I _]. apply In_get_at in I. destruct I as (t & _ & Q). destruct o as [c y]. apply DAYS in Q.
      unfold in_short in Q. cbn. tauto. }
    apply in_shortb_spec in IS. cbn zeta. rewrite IS. apply FIN. auto.
Qed.
End Scan.
