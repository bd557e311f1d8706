(** C27: radial basis function interpolation. *)
From Coq Require Import Reals Lra Sorting.Sorted.
From Flocq Require Import Core.
From Verif Require Import Base BaseFacts InterpSpec InterpProofs InterpProps RbfModel RbfSpec RbfProofs.
#[local] Open Scope Z_scope.

(** In exact arithmetic: no access outside the kernels, each kernel uses exactly
    the clear observations within its reach, nodata without any.  Missing:
    rounding of float and double; kernels whose central weight already exceeds
    half the cutoff (refuted below). *)
Theorem C27_rbf_partial : forall nodata cutoff sigmas l s grid,
  sorted_days s -> days_ok s -> StronglySorted Z.le grid ->
  get_at sigmas (zlen sigmas - 1) = Some l ->
  Forall (fun sigma => 0 < sigma /\ (gauss sigma 0 <= cutoff / 2)%R) sigmas ->
  exists ds out, Forall2 (fun sigma d => reaches sigma cutoff (4 * l) d) sigmas ds /\
    rbf_pixel nodata cutoff sigmas false s grid = Ret out /\
    Forall2 (rbf_result nodata s (combine sigmas ds)) grid out.
Proof.
  intros nodata cutoff sigmas l s grid S D G E F.
  assert (0 < l) as L by (apply get_at_In in E; rewrite Forall_forall in F; apply F; auto).
  destruct (kernels_spec cutoff l sigmas L F) as (ds & R & GD).
  destruct (rbf_loop_spec nodata s (hbin_of l) S _ _ GD D grid (map (fun _ => 0) (map (make_kern cutoff l) sigmas))) as (out & O & FO); auto.
  - rewrite map_length. exact (Forall2_len _ _ _ GD).
  - apply Forall_forall. intros x _. clear - GD. induction GD; cbn [map]; constructor; auto.
    split; [split; [lia|apply zlen_nonneg]|]. intros t c y0 G T. apply get_at_inv in G. lia.
  - exists ds, out. split; auto. split; auto. unfold rbf_pixel, rbf_kernel. rewrite E. exact O.
Qed.

Lemma rbf_bounded : forall nodata cutoff h sigmas ds s x v lo hi,
  Forall (fun sigma => 0 < sigma) sigmas ->
  Forall2 (fun sigma d => reaches sigma cutoff h d) sigmas ds ->
  rbf_result nodata s (combine sigmas ds) x v ->
  (exists o, any_used nodata x s (combine sigmas ds) o) ->
  (forall o, any_used nodata x s (combine sigmas ds) o -> lo <= snd o <= hi) -> lo <= v <= hi.
Proof.
  intros nodata cutoff h sigmas ds s x v lo hi P F R U B.
  assert (exists ks, Forall2 (good h) ks (combine sigmas ds)) as (ks & G).
  { clear - P F. induction F as [|sigma d sigmas ds (D & _) _ IH]; [exists []; constructor|]. inversion P; subst.
    destruct IH as (ks & G); auto.
    exists (mkKern (map (fun bin => weight sigma (bin - h)) (Loops.zupto (2 * h + 1))) d (full (sigma, d)) :: ks).
    cbn [combine]. constructor; auto. unfold good. cbn. auto 10. }
  eapply result_bounds; eauto.
Qed.

Lemma combine_reach sigmas ds cutoff h sg d : Forall2 (fun sigma d => reaches sigma cutoff h d) sigmas ds ->
  In (sg, d) (combine sigmas ds) -> d <= h.
Proof.
  intros F. induction F as [|a b sigmas ds (H & _) _ IH]; cbn [combine]; intros I; [destruct I|].
  destruct I as [I|I]; [congruence || (inversion I; subst; lia)|auto].
Qed.

Lemma rbf_used : forall nodata s ks x o, any_used nodata x s ks o ->
  In o s /\ snd o <> nodata /\ exists k, In k ks /\ Z.abs (fst o - x) <= snd k.
Proof.
  intros nodata s ks x o (k & I & U). apply used_In in U. destruct U as (U1 & U2 & U3). eauto 10.
Qed.

(** Every value is nodata or lies between the smallest and the largest clear
    observation within four times the last kernel width. *)
Theorem C27_bounded : forall nodata cutoff sigmas l s grid out k x v lo hi,
  sorted_days s -> days_ok s -> StronglySorted Z.le grid ->
  get_at sigmas (zlen sigmas - 1) = Some l ->
  Forall (fun sigma => 0 < sigma /\ (gauss sigma 0 <= cutoff / 2)%R) sigmas ->
  rbf_pixel nodata cutoff sigmas false s grid = Ret out -> get_at grid k = Some x -> get_at out k = Some v ->
  (forall o, In o s -> snd o <> nodata -> Z.abs (fst o - x) <= 4 * l -> lo <= snd o <= hi) ->
  v = nodata \/ lo <= v <= hi.
Proof.
  intros nodata cutoff sigmas l s grid out k x v lo hi S D G E F R Kx Kv B.
  destruct (C27_rbf_partial nodata cutoff sigmas l s grid S D G E F) as (ds & out' & RE & R' & FR).
  assert (out' = out) by congruence. subst out'.
  pose proof (Forall2_get _ _ _ _ _ FR k x v Kx Kv) as Q.
  destruct Q as [(_ & V)|(U & V)]; [left; auto|right].
  eapply (rbf_bounded nodata cutoff (4 * l) sigmas ds s x v lo hi); auto.
  - apply Forall_forall. intros sg I. rewrite Forall_forall in F. apply F; auto.
  - right; auto.
  - intros o A. apply rbf_used in A. destruct A as (I & N & (sg, d) & K & L). cbn [snd] in L. apply B; auto.
    pose proof (combine_reach _ _ _ _ _ _ RE K). lia.
Qed.

(** A clear observation on the day itself is always used: then the value is no
    nodata for lack of observations, and a series constant around a day is kept. *)
Theorem C27_constant : forall nodata cutoff sigmas l s grid out k x v c,
  sorted_days s -> days_ok s -> StronglySorted Z.le grid ->
  get_at sigmas (zlen sigmas - 1) = Some l ->
  Forall (fun sigma => 0 < sigma /\ (gauss sigma 0 <= cutoff / 2)%R) sigmas ->
  rbf_pixel nodata cutoff sigmas false s grid = Ret out -> get_at grid k = Some x -> get_at out k = Some v ->
  In (x, c) s -> c <> nodata ->
  (forall o, In o s -> snd o <> nodata -> Z.abs (fst o - x) <= 4 * l -> snd o = c) -> v = c.
Proof.
  intros nodata cutoff sigmas l s grid out k x v c S D G E F R Kx Kv I N B.
  destruct (C27_rbf_partial nodata cutoff sigmas l s grid S D G E F) as (ds & out' & RE & R' & FR).
  assert (out' = out) by congruence. subst out'.
  pose proof (Forall2_get _ _ _ _ _ FR k x v Kx Kv) as Q.
  assert (exists o, any_used nodata x s (combine sigmas ds) o) as U.
  { destruct RE as [|sg d sigmas ds (RD & _) _]; [discriminate|]. exists (x, c), (sg, d). cbn [combine].
    split; [left; auto|]. apply filter_In. split; auto. cbn [fst snd]. lia. }
  enough (c <= v <= c) by lia.
  eapply (rbf_bounded nodata cutoff (4 * l) sigmas ds s x v c c); eauto.
  - apply Forall_forall. intros sg J. rewrite Forall_forall in F. apply F; auto.
  - intros o A. apply rbf_used in A. destruct A as (J & M & (sg, d) & K & L). cbn [snd] in L.
    pose proof (combine_reach _ _ _ _ _ _ RE K).
    assert (snd o = c) by (apply B; auto; lia). lia.
Qed.

Lemma sqrt_2pi : (2.4 < sqrt (2 * PI) < 2.9)%R.
Proof.
  pose proof PI2_3_2 as L. pose proof PI_4 as U. assert (3 < PI)%R as P by lra.
  split.
  - rewrite <- (sqrt_square 2.4) by lra. apply sqrt_lt_1; lra.
  - rewrite <- (sqrt_square 2.9) by lra. apply sqrt_lt_1; lra.
Qed.
Lemma gauss_0 sigma : 0 < sigma -> gauss sigma 0 = (1 / (sqrt (2 * PI) * IZR sigma))%R.
Proof.
  intros S. unfold gauss. replace (- (1 / 2) * 0 * 0 / (IZR sigma * IZR sigma))%R with 0%R by (unfold Rdiv; ring).
  rewrite exp_0. ring.
Qed.

(** The kernel hypothesis holds for every sigma when the cutoff is at least 0.84. *)
Theorem C27_cutoff : forall sigma cutoff, 0 < sigma -> (0.84 <= cutoff)%R -> (gauss sigma 0 <= cutoff / 2)%R.
Proof.
  intros sigma cutoff S C. rewrite gauss_0 by auto. pose proof sqrt_2pi as [Q _].
  assert (1 <= IZR sigma)%R as S1 by (apply IZR_le; lia).
  assert (2.4 <= sqrt (2 * PI) * IZR sigma)%R as M by (replace 2.4%R with (2.4 * 1)%R by ring; apply Rmult_le_compat; lra).
  assert (/ (sqrt (2 * PI) * IZR sigma) <= / 2.4)%R by (apply Rinv_le_contravar; lra).
  unfold Rdiv in *. lra.
Qed.

(** A cutoff below twice the central weight makes the normalisation zero: any
    observation on a grid day is divided by it. *)
Theorem C27_small_cutoff_refuted : forall nodata cutoff sigma x y, 0 < sigma ->
  (cutoff / 2 < gauss sigma 0)%R -> y <> nodata ->
  rbf_pixel nodata cutoff [sigma] false [(x, y)] [x] = UB.
Proof.
  intros nodata cutoff sigma x y S W N.
  pose proof (gauss_pos sigma 0 S) as WP. destruct (nbin_hbin sigma S) as [E1 E2].
  unfold rbf_pixel, rbf_kernel. change (get_at [sigma] (zlen [sigma] - 1)) with (Some sigma). cbn [of_option bind map fst snd].
  unfold make_kern. destruct (fold_dead sigma cutoff (hbin_of sigma) (Z.to_nat (nbin_of sigma)) S ltac:(lia) W) as (sum & E & _).
  rewrite Z2Nat.id in E by lia. rewrite E. cbn [rbf_loop rbf_scans].
  change (skipn (Z.to_nat 0) [(x, y)]) with [(x, y)]. cbn [rbf_scan max_ce kernel].
  replace (x - x) with 0 by lia. cbn [Z.ltb Z.compare]. replace (y =? nodata) with false by lia.
  rewrite E1. set (k := mkKern (map (fun bin => weight sigma (bin - hbin_of sigma)) (Loops.zupto (2 * hbin_of sigma + 1))) 0 (full (sigma, 0))).
  assert (good (hbin_of sigma) k (sigma, 0)) as G by (unfold good, k; cbn [fst snd max_ce max_w kernel]; repeat split; auto; lia).
  pose proof (kernel_at (hbin_of sigma) k (sigma, 0) 0 G ltac:(lia)) as KA. cbn [kernel k] in KA. rewrite KA.
  cbn [of_option bind rbf_sums max_w fst].
  destruct (Rlt_dec _ _) as [_|NL]; [|lra]. rewrite Rmult_0_l. destruct (Req_EM_T 0 0); [reflexivity|lra].
Qed.
Example C27_small_cutoff_example : (0.5 / 2 < gauss 1 0)%R.
Proof.
  rewrite gauss_0 by lia. pose proof sqrt_2pi as [A Q]. rewrite Rmult_1_r. unfold Rdiv. rewrite Rmult_1_l.
  replace (0.5 * / 2)%R with (/ 4)%R by lra. apply Rinv_lt_contravar; [|lra]. nra.
Qed.

(** Default kernels (8, 16, 32 days, cutoff 0.95) over a short series. *)
Example C27_example : let s := [(100, 50); (101, -9999); (110, 70)] in
  sorted_days s /\ days_ok s /\
  exists ds out, Forall2 (fun sigma d => reaches sigma 0.95 (4 * 32) d) [8; 16; 32] ds /\
    rbf_pixel (-9999) 0.95 [8; 16; 32] false s [100; 105] = Ret out /\
    Forall2 (rbf_result (-9999) s (combine [8; 16; 32] ds)) [100; 105] out /\
    exists v w, out = [v; w] /\ 50 <= v <= 70.
Proof.
  intros s.
  assert (forall t c y, get_at s t = Some (c, y) ->
    (t = 0 /\ c = 100 /\ y = 50) \/ (t = 1 /\ c = 101 /\ y = -9999) \/ (t = 2 /\ c = 110 /\ y = 70)) as H.
  { intros t c y G. pose proof (get_at_inv _ _ _ G) as R. change (zlen s) with 3 in R.
    assert (t = 0 \/ t = 1 \/ t = 2) as [-> |[-> | ->]] by lia; cbn in G; inversion G; lia. }
  assert (sorted_days s) as S by (intros t t' c y c' y' G G' L; apply H in G; apply H in G'; lia).
  assert (days_ok s) as D by (intros t c y G; apply H in G; unfold in_short; lia).
  split; auto. split; auto.
  destruct (C27_rbf_partial (-9999) 0.95 [8; 16; 32] 32 s [100; 105] S D) as (ds & out & F & E & R).
  - repeat constructor; lia.
  - reflexivity.
  - apply Forall_forall. intros x I. assert (0 < x) by (cbn in I; lia). split; auto. apply C27_cutoff; auto; lra.
  - exists ds, out. do 3 (split; [auto|]).
    inversion R as [|? v ? ? R1 R2]; subst. inversion R2 as [|? w ? ? _ R3]; subst. inversion R3; subst.
    exists v, w. split; auto.
    eapply (rbf_bounded (-9999) 0.95 (4 * 32) [8; 16; 32] ds s 100 v); eauto.
    + apply Forall_forall. intros x I. cbn in I; lia.
    + inversion F as [|? d ? ds' (RD & _) _]; subst. exists (100, 50), (8, d). cbn [combine].
      split; [left; auto|]. apply filter_In. split; [left; auto|]. cbn [fst snd]. lia.
    + intros o U. apply rbf_used in U. destruct U as (I & N & _). cbn [snd] in *.
      destruct I as [<-|[<-|[<-|[]]]]; cbn [snd] in *; lia.
Qed.

Print Assumptions C27_rbf_partial.
Print Assumptions C27_bounded.
Print Assumptions C27_constant.
Print Assumptions C27_cutoff.
Print Assumptions C27_small_cutoff_refuted.
