(** Proofs about PsfModel.v: averaging of the smoothed image, the whole reduction. *)
From Coq Require Import Reals Lra Lia ZifyBool.
From Flocq Require Import Core.
From Verif Require Import Base BaseFacts Loops LoopsFacts ChunkProofs BapComposite RoundModel RoundFacts L1Model L1Cal PsfModel PsfSpec PsfProofs PsfKernel.
#[local] Open Scope R_scope.

Lemma float_small n : (Z.abs n < 2 ^ 24)%Z -> float_of n = IZR n.
Proof. apply rnd32_int. Qed.
Lemma ratio_whole k NX : (1 <= k)%Z -> (1 <= NX)%Z -> (k * NX < 2 ^ 24)%Z -> ratio (k * NX) NX = IZR k.
Proof.
  intros K N B. assert (k * 1 <= k * NX)%Z as B1 by (apply Z.mul_le_mono_nonneg_l; lia). assert (1 * NX <= k * NX)%Z as B2 by (apply Z.mul_le_mono_nonneg_r; lia).
  unfold ratio. rewrite !float_small by lia. unfold fdiv. rewrite mult_IZR.
  assert (0 < IZR NX) by (apply IZR_lt; lia). replace (IZR k * IZR NX / IZR NX) with (IZR k) by (field; lra). apply rnd32_int. lia.
Qed.
Lemma width_whole k : (1 <= k)%Z -> kernel_width (IZR k) = (2 * k + 1)%Z.
Proof. intros K. unfold kernel_width. rewrite <- mult_IZR, Ztrunc_IZR, Z_mod_mult. rewrite Z.eqb_refl. lia. Qed.

(** ** The shares *)
Lemma edge_ok k i a : (1 <= k <= 1000)%Z -> (0 <= i)%Z -> (i * k <= a <= i * k + k)%Z -> (a <= 4000000)%Z ->
  0 <= edge (IZR k) i a <= 1 /\ Rabs (edge (IZR k) i a - (IZR a / IZR k - IZR i)) <= / 16777216 * (IZR a / IZR k) + / 10000000 /\ ((a = i * k)%Z -> edge (IZR k) i a = 0).
Proof.
  intros K I A AM. unfold edge, fsub, fdiv. rewrite !float_small by nia.
  assert (1 <= IZR k <= 1000) as K1 by (split; apply IZR_le; lia).
  assert (IZR i <= IZR a / IZR k <= IZR (i + 1)) as Q.
  { destruct A as [A1 A2]. apply IZR_le in A1, A2. rewrite plus_IZR in *. rewrite mult_IZR in *. split; apply Rmult_le_reg_r with (IZR k); try lra; unfold Rdiv; rewrite Rmult_assoc, Rinv_l; lra. }
  pose proof (rnd32_between i (i + 1) (IZR a / IZR k) ltac:(nia) ltac:(nia) Q) as B. rewrite plus_IZR in *.
  set (q := IZR a / IZR k) in *. set (x := rnd32 q) in *. split; [|split].
  - pose proof (rnd32_between 0 1 (x - IZR i) ltac:(reflexivity) ltac:(reflexivity)) as C. lra.
  - pose proof (rnd32_near_0 q) as E1. fold x in E1. pose proof (rnd32_near_0 (x - IZR i)) as E2.
    assert (bpow radix2 (-150) <= / 1000000000000) as E. { eapply Rle_trans; [apply (bpow_le radix2 (-150) (-40)); lia|]. change (bpow radix2 (-40)) with (/ 1099511627776). lra. }
    assert (0 <= IZR i) as I0 by (apply IZR_le; lia). rewrite (Rabs_pos_eq q) in E1 by lra.
    assert (Rabs (x - IZR i) <= 1) as E3 by (apply Rabs_le; lra).
    replace (rnd32 (x - IZR i) - (q - IZR i)) with ((rnd32 (x - IZR i) - (x - IZR i)) + (x - q)) by ring.
    eapply Rle_trans; [apply Rabs_triang|]. lra.
  - intros ->. assert (q = IZR i) as Hq. { unfold q. rewrite mult_IZR. field. lra. } unfold x. rewrite Hq, (rnd32_int i) by nia. rewrite Rminus_eq_0. apply rnd32_0.
Qed.
Lemma share_ok k i a : (1 <= k <= 1000)%Z -> (0 <= i)%Z -> (i * k <= a < i * k + k)%Z -> (a + 1 <= 4000000)%Z ->
  / (3 * IZR k) <= share (IZR k) i a <= 1.
Proof.
  intros K I A AM. destruct (edge_ok k i a K I ltac:(lia) ltac:(lia)) as (B0 & E0 & _). destruct (edge_ok k i (a + 1) K I ltac:(lia) ltac:(lia)) as (B1 & E1 & _).
  unfold share, cap1, cap0. rewrite Rlt_bool_false by lra. rewrite Rlt_bool_false by lra.
  set (x0 := edge (IZR k) i a) in *. set (x1 := edge (IZR k) i (a + 1)) in *.
  assert (1 <= IZR k <= 1000) as K1 by (split; apply IZR_le; lia). assert (0 <= IZR a + 1 <= 4000000) as AR. { split; rewrite <- (plus_IZR a 1); apply IZR_le; nia. }
  rewrite plus_IZR in E1. assert (0 <= IZR a) as A0 by (apply IZR_le; nia).
  set (d := / IZR k). assert (/ 1000 <= d <= 1) as D. { unfold d. split; [apply Rinv_le_contravar; lra|]. rewrite <- Rinv_1. apply Rinv_le_contravar; lra. }
  assert (IZR a / IZR k = IZR a * d) as Q0 by reflexivity. assert ((IZR a + 1) / IZR k = IZR a * d + d) as Q1 by (unfold d; field; lra).
  rewrite Q0 in E0. rewrite Q1 in E1.
  assert (IZR a * d + d <= 4000000 * d) as Q2. { replace (IZR a * d + d) with ((IZR a + 1) * d) by ring. apply Rmult_le_compat_r; lra. }
  apply Rabs_le_inv in E0, E1. assert (d / 2 <= x1 - x0 <= 1) as X by lra.
  unfold fsub. split.
  - pose proof (rnd32_rel (x1 - x0)) as R. rewrite Rabs_pos_eq in R by lra.
    assert (bpow radix2 (-120) <= x1 - x0) as P. { eapply Rle_trans; [apply (bpow_le radix2 (-120) (-20)); lia|]. change (bpow radix2 (-20)) with (/ 1048576). lra. }
    specialize (R P). apply Rabs_le_inv in R. replace (/ (3 * IZR k)) with (d / 3) by (unfold d; field; lra). lra.
  - rewrite <- rnd32_1. apply rnd32_le. lra.
Qed.
Lemma weight_ok k i a j b : (1 <= k <= 1000)%Z -> (0 <= i)%Z -> (0 <= j)%Z -> of_cell k i j a b -> (a + 1 <= 4000000)%Z -> (b + 1 <= 4000000)%Z ->
  / 10000000 <= fmul (share (IZR k) i a) (share (IZR k) j b) <= 1.
Proof.
  intros K I J [A B] AM BM. pose proof (share_ok k i a K I A AM) as S1. pose proof (share_ok k j b K J B BM) as S2.
  assert (1 <= IZR k <= 1000) as K1 by (split; apply IZR_le; lia). assert (/ 3000 <= / (3 * IZR k)) as L by (apply Rinv_le_contravar; lra).
  set (x := share (IZR k) i a) in *. set (y := share (IZR k) j b) in *. assert (/ 3000 * / 3000 <= x * y <= 1 * 1) as P. { split; apply Rmult_le_compat; lra. }
  unfold fmul. split.
  - pose proof (rnd32_rel (x * y)) as R. rewrite Rabs_pos_eq in R by lra.
    assert (bpow radix2 (-120) <= x * y) as B1. { eapply Rle_trans; [apply (bpow_le radix2 (-120) (-40)); lia|]. change (bpow radix2 (-40)) with (/ 1099511627776). lra. }
    specialize (R B1). apply Rabs_le_inv in R. lra.
  - rewrite <- rnd32_1. apply rnd32_le. lra.
Qed.

(** ** The average *)
Definition up32 : R := / 8388608.
Lemma term32_error x w : Rabs x <= 4 -> / 10000000 <= w <= 1 -> Rabs (fmul x w - x * w) <= up32 * (4 * w).
Proof.
  intros X W. unfold fmul. pose proof (rnd32_near_0 (x * w)) as E. rewrite Rabs_mult, (Rabs_pos_eq w) in E by lra.
  assert (Rabs x * w <= 4 * w) by (apply Rmult_le_compat_r; lra).
  assert (bpow radix2 (-150) <= / 1000000000000000) as B. { eapply Rle_trans; [apply (bpow_le radix2 (-150) (-50)); lia|]. change (bpow radix2 (-50)) with (/ 1125899906842624). lra. }
  unfold up32. lra.
Qed.

Section Aggregate.
Context (g : list R) (nx ny nodata k i j : Z) (a b : R).
Context (K : (1 <= k <= 1000)%Z) (I : (0 <= i)%Z) (J : (0 <= j)%Z) (IN : (i * k + k <= ny)%Z) (JN : (j * k + k <= nx)%Z) (NX : (nx <= 4000000)%Z) (NY : (ny <= 4000000)%Z).
Context (G : forall x y, of_cell k i j x y -> exists v, get_at g (x * nx + y) = Some v /\ (v = float_of nodata \/ (v <> float_of nodata /\ Rabs v <= 4 /\ a <= v <= b))).

Lemma aggregate_ok ws : forall m S N s W, 0 <= m -> (forall w, In w ws -> (0 <= fst w < k)%Z /\ (0 <= snd w < k)%Z) ->
  4 * (m + INR (length ws)) * u64 <= / 2 -> near_sum up32 4 a b m S N s W ->
  exists S' N' s' W', aggregate g nx ny nodata (IZR k) i j ws S N = Ret (S', N') /\ near_sum up32 4 a b (m + INR (length ws)) S' N' s' W' /\ W <= W' /\
    ((exists w v, In w ws /\ get_at g ((i * k + fst w) * nx + (j * k + snd w)) = Some v /\ v <> float_of nodata) -> W < W') /\
    ((forall w, In w ws -> get_at g ((i * k + fst w) * nx + (j * k + snd w)) = Some (float_of nodata)) -> S' = S /\ N' = N).
Proof.
  assert (0 < u64) as U by (unfold u64; lra).
  induction ws as [|[ii jj] ws IH]; intros m S N s W M R B NS.
  - simpl. exists S, N, s, W. rewrite Rplus_0_r. split; auto. split; auto. split; [lra|]. split; auto. intros (w & v & [] & _).
  - cbn [aggregate]. assert (Zfloor (fmul (float_of i) (IZR k)) = i * k)%Z as FI. { unfold fmul. rewrite float_small, <- mult_IZR, rnd32_int, Zfloor_IZR by nia. auto. }
    assert (Zfloor (fmul (float_of j) (IZR k)) = j * k)%Z as FJ. { unfold fmul. rewrite float_small, <- mult_IZR, rnd32_int, Zfloor_IZR by nia. auto. }
    rewrite FI, FJ. clear FI FJ. destruct (R (ii, jj) (or_introl eq_refl)) as [RI RJ]. cbn [fst snd] in RI, RJ.
    assert (forall w, In w ws -> (0 <= fst w < k)%Z /\ (0 <= snd w < k)%Z) as R' by (intros; apply R; right; auto).
    cbn [length] in *. rewrite S_INR in *. assert (0 <= INR (length ws)) as L0 by apply pos_INR.
    assert (4 * (m + 1 + INR (length ws)) * u64 <= / 2) as B' by (eapply Rle_trans; [|exact B]; right; ring).
    assert (4 * (m + 1) * u64 <= / 2) as B'' by nra.
    set (ni := (i * k + ii)%Z). set (nj := (j * k + jj)%Z). replace ((ny <=? ni) || (nx <=? nj))%Z with false by (unfold ni, nj; lia).
    destruct (G ni nj) as (v & Gv & C). { unfold of_cell, ni, nj. lia. }
    rewrite Gv. cbn [of_option bind]. destruct (Req_bool_spec v (float_of nodata)) as [Ev | Ev].
    + destruct (IH (m + 1) S N s W ltac:(lra) R' B' (near_more up32 4 a b m (m + 1) S N s W ltac:(lra) ltac:(lra) NS)) as (S' & N' & s' & W' & E & NS' & LW & SOME & NONE).
      exists S', N', s', W'. split; auto. split; [replace (m + (INR (length ws) + 1)) with (m + 1 + INR (length ws)) by ring; auto|].
      split; auto. split.
      * intros (w & x & [<- | Iw] & Gx & Nx); [|apply SOME; eauto]. cbn [fst snd] in Gx. fold ni nj in Gx. congruence.
      * intros H. apply NONE. intros w Iw. apply H. right; auto.
    + destruct C as [C | (_ & C4 & Cab)]; [contradiction|].
      pose proof (weight_ok k i ni j nj K I J ltac:(unfold of_cell, ni, nj; lia) ltac:(unfold ni; lia) ltac:(unfold nj; lia)) as WO.
      set (w0 := fmul (share (IZR k) i ni) (share (IZR k) j nj)) in *.
      pose proof (near_step up32 4 a b m S N s W v w0 (fmul v w0) ltac:(unfold up32; lra) ltac:(lra) M B'' NS C4 Cab ltac:(lra) (fmt64_rnd32 _) (fmt64_rnd32 _) (term32_error v w0 C4 WO)) as NS1.
      destruct (IH (m + 1) _ _ _ _ ltac:(lra) R' B' NS1) as (S' & N' & s' & W' & E & NS' & LW & SOME & NONE).
      exists S', N', s', W'. split; auto. split; [replace (m + (INR (length ws) + 1)) with (m + 1 + INR (length ws)) by ring; auto|].
      split; [lra|]. split; [intros _; lra|]. intros H. specialize (H (ii, jj) (or_introl eq_refl)). cbn [fst snd] in H. fold ni nj in H. congruence.
Qed.
End Aggregate.

Lemma trunc_between x lo hi : IZR lo - / 20 <= x <= IZR hi + / 20 -> cut_between lo hi (Ztrunc x).
Proof.
  intros [A B]. unfold cut_between.
  pose proof (Ztrunc_le _ _ A) as TA. pose proof (Ztrunc_le _ _ B) as TB.
  pose proof (trunc_close (IZR lo - / 20) lo ltac:(apply Rabs_def1; lra)) as [LA LA'].
  pose proof (trunc_close (IZR hi + / 20) hi ltac:(apply Rabs_def1; lra)) as [LB LB'].
  destruct (0 <? lo)%Z eqn:E1; destruct (hi <? 0)%Z eqn:E2; lia.
Qed.

(** One pixel of the result. *)
Lemma reduced_ok g nx ny nodata k NX p lo hi : (1 <= k <= 1000)%Z -> (0 < NX)%Z -> (nx = k * NX)%Z -> (nx <= 4000000)%Z -> (ny <= 4000000)%Z ->
  (0 <= p)%Z -> (p / NX * k + k <= ny)%Z -> (-32768 <= lo <= 32767)%Z -> (-32768 <= hi <= 32767)%Z ->
  (forall x y, of_cell k (p / NX) (p mod NX) x y -> exists v, get_at g (x * nx + y) = Some v /\ (v = float_of nodata \/ (v <> float_of nodata /\ smoothed v (IZR lo / 10000) (IZR hi / 10000)))) ->
  exists r, reduced_pixel g nx ny nodata NX (IZR k) p = Ret r /\
    ((exists x y v, of_cell k (p / NX) (p mod NX) x y /\ get_at g (x * nx + y) = Some v /\ v <> float_of nodata) -> cut_between lo hi r) /\
    ((forall x y, of_cell k (p / NX) (p mod NX) x y -> get_at g (x * nx + y) = Some (float_of nodata)) -> r = nodata).
Proof.
  intros K N EX LX LY P PY LO HI G. unfold reduced_pixel. rewrite Zceil_IZR.
  set (i := (p / NX)%Z) in *. set (j := (p mod NX)%Z) in *. assert (0 <= i)%Z as I0 by (apply Z.div_pos; lia). assert (0 <= j < NX)%Z as J0 by (apply Z.mod_pos_bound; lia).
  destruct LO as [LO1 LO2], HI as [HI1 HI2]. apply IZR_le in LO1, LO2, HI1, HI2.
  set (a := IZR lo / 10000 - 4 / 10000000). set (b := IZR hi / 10000 + 4 / 10000000).
  assert (forall x y, of_cell k i j x y -> exists v, get_at g (x * nx + y) = Some v /\ (v = float_of nodata \/ (v <> float_of nodata /\ Rabs v <= 4 /\ a <= v <= b))) as G'.
  { intros x y C. destruct (G x y C) as (v & Gv & [E | (E & [S1 S2])]); exists v; split; auto. right. split; auto. split; [apply Rabs_le; lra|unfold a, b; lra]. }
  assert (INR (length (pairs k k)) = IZR (k * k)) as LN. { rewrite INR_IZR_INZ, pairs_length by lia. auto. }
  assert (1 <= IZR (k * k) <= 1000000) as LB. { split; apply IZR_le; nia. }
  destruct (aggregate_ok g nx ny nodata k i j a b K I0 ltac:(lia) PY ltac:(nia) LX LY G' (pairs k k) 0 0 0 0 0 ltac:(lra)) as (S & Nm & s & W & E & NS & LW & SOME & NONE).
  { intros [x y] H. apply pairs_In in H. cbn [fst snd]. lia. } { rewrite LN. unfold u64. lra. } { apply near_start. }
  rewrite E. cbn [bind fst snd]. rewrite LN, Rplus_0_l in NS.
  destruct (Rle_lt_or_eq_dec 0 W LW) as [WP | W0].
  - destruct (near_final up32 4 a b (IZR (k * k)) S Nm s W ltac:(unfold up32; lra) ltac:(lra) ltac:(lra) ltac:(unfold u64; lra) WP NS) as (NP & FB & _).
    rewrite Rlt_bool_true by auto. set (e := 2 * (up32 + 8 * IZR (k * k) * u64) * 4) in *. assert (0 <= e <= / 1000000) as EB by (unfold e, up32, u64; lra).
    set (q := S / Nm) in *. unfold a, b in FB. assert (Rabs q <= 4) as Q4 by (apply Rabs_le; lra).
    pose proof (rnd64_err q 4 ltac:(lra) Q4) as R1. set (x1 := rnd64 q) in *. apply Rabs_le_inv in R1.
    assert (Rabs (x1 * 10000) <= 50000) as Q5. { apply Rabs_le_inv in Q4. apply Rabs_le. lra. }
    pose proof (rnd64_err (x1 * 10000) 50000 ltac:(lra) Q5) as R2. set (x2 := rnd64 (x1 * 10000)) in *. apply Rabs_le_inv in R2.
    assert (cut_between lo hi (Ztrunc x2)) as CB by (apply trunc_between; lra).
    rewrite short_of_ok. { exists (Ztrunc x2). split; auto. split; auto. intros H. exfalso.
      destruct NONE as [_ Z0]. { intros [x y] Hw. apply pairs_In in Hw. cbn [fst snd]. apply H. unfold of_cell. lia. } lra. }
    unfold cut_between in CB. apply le_IZR in LO1, HI2, LO2, HI1. destruct (0 <? lo)%Z eqn:E1, (hi <? 0)%Z eqn:E2; lia.
  - subst W. destruct NS as (_ & _ & _ & _ & _ & _ & NZ). rewrite Rmult_0_r, Rminus_0_r in NZ. assert (Nm = 0) as ->. { apply Rabs_le_inv in NZ. lra. }
    rewrite Rlt_bool_false by lra. exists nodata. split; auto. split; auto. intros (x & y & v & C & Gv & Nv). exfalso. apply (Rlt_irrefl 0). apply SOME.
    exists (x - i * k, y - j * k)%Z, v. split; [apply pairs_In; unfold of_cell in C; lia|]. cbn [fst snd].
    replace (i * k + (x - i * k))%Z with x by lia. replace (j * k + (y - j * k))%Z with y by lia. auto.
Qed.

(** The whole reduction. *)
Lemma reduce_ok fuel hr NX NY k nodata : (1 <= k <= 1000)%Z -> (1 <= NX)%Z -> (1 <= NY)%Z -> (k * NX <= 4000000)%Z -> (k * NY <= 4000000)%Z ->
  image16 hr (k * NX) (k * NY) -> (4 < Z.abs nodata <= 32768)%Z -> (rounds k <= fuel)%nat ->
  exists lr, reduce_psf fuel hr (k * NX) (k * NY) NX NY nodata = Ret (Some lr) /\ zlen lr = (NX * NY)%Z /\
    forall i j, (0 <= i < NY)%Z -> (0 <= j < NX)%Z -> exists r, get_at lr (i * NX + j) = Some r /\
      ((forall a b v, of_cell k i j a b -> ~ value hr (k * NX) (k * NY) nodata a b v) -> r = nodata) /\
      (forall lo hi, (exists a b v, of_cell k i j a b /\ value hr (k * NX) (k * NY) nodata a b v) ->
         (forall a b v, around_cell k i j a b -> value hr (k * NX) (k * NY) nodata a b v -> lo <= v <= hi)%Z -> cut_between lo hi r).
Proof.
  intros K NX1 NY1 BX BY IM ND FU. unfold reduce_psf. rewrite ratio_whole, width_whole by lia.
  assert (1 <= IZR k) as K1 by (apply IZR_le; lia).
  destruct (sigma_found fuel k (IZR k) ltac:(lia) ltac:(lra) FU) as (s & Es & SR & _). rewrite Es.
  set (nx := (k * NX)%Z) in *. set (ny := (k * NY)%Z) in *. assert (0 < nx)%Z as NXP by (unfold nx; nia). assert (0 < ny)%Z as NYP by (unfold ny; nia).
  assert (float_of nodata = IZR nodata) as FN by (apply float_small; lia).
  set (Rel := fun (p : Z) (x : R) => forall v, get_at hr p = Some v ->
     (v = nodata /\ x = float_of nodata) \/
     (v <> nodata /\ x <> float_of nodata /\ forall lo hi, (-32768 <= lo)%Z -> (hi <= 32767)%Z ->
        (forall a b w, value hr nx ny nodata a b w -> (p / nx - k <= a <= p / nx + k)%Z -> (p mod nx - k <= b <= p mod nx + k)%Z -> (lo <= w <= hi)%Z) -> smoothed x (IZR lo / 10000) (IZR hi / 10000))).
  destruct (omap_get (gauss_pixel hr nx ny nodata (2 * k + 1) (kernel_at (2 * k + 1) s)) Rel (zupto (nx * ny))) as (g & Eg & Lg & Hg).
  { intros q p Gp. assert (0 <= p < nx * ny)%Z as PR by (apply get_at_In in Gp; apply zupto_In in Gp; lia).
    destruct IM as [IL IF]. destruct (get_at_some hr p) as [v Gv]; [lia|]. destruct (Z.eq_dec v nodata) as [-> | Nv].
    - exists (float_of nodata). split. { unfold gauss_pixel. rewrite Gv. cbn [of_option bind]. rewrite Z.eqb_refl. auto. }
      intros v' Gv'. left. split; auto. congruence.
    - destruct (gauss_smoothed hr nx ny nodata k s p v (-32768) 32767 (conj IL IF) K SR NXP PR Gv Nv ltac:(lra) ltac:(lra)) as (x & Ex & SX).
      { intros a b w (_ & _ & Gw & _) _ _. eapply Forall_get_at in IF; eauto. cbn beta in IF. destruct IF as [F1 F2]. apply IZR_le in F1, F2. lra. }
      exists x. split; auto. intros v' Gv'. assert (v' = v) by congruence. subst v'. right. split; auto. split.
      + rewrite FN. unfold smoothed in SX. intros ->. assert (-5 < nodata < 5)%Z as X; [|lia]. split; apply lt_IZR; lra.
      + intros lo hi LO HI AB. destruct (gauss_smoothed hr nx ny nodata k s p v (IZR lo) (IZR hi) (conj IL IF) K SR NXP PR Gv Nv (IZR_le _ _ LO) (IZR_le _ _ HI)) as (x' & Ex' & SX').
        { intros a b w Vw A B. destruct (AB a b w Vw A B) as [F1 F2]. apply IZR_le in F1, F2. lra. }
        rewrite Ex in Ex'. inversion Ex'; subst x'. auto. }
  rewrite Eg. cbn [bind].
  assert (zlen (zupto (nx * ny)) = nx * ny)%Z as ZL. { unfold zlen. rewrite zupto_length. nia. }
  assert (forall a b, (0 <= a < ny)%Z -> (0 <= b < nx)%Z -> exists x, get_at g (a * nx + b) = Some x /\ Rel (a * nx + b)%Z x) as Hg'.
  { intros a b A B. assert (0 <= a * nx + b < nx * ny)%Z as PR by nia. destruct (Hg _ _ (get_zupto (nx * ny) (a * nx + b) PR)) as (x & Gx & Rx). exists x. auto. }
  clear Hg. set (Rel2 := fun (p r : Z) =>
    ((forall a b v, of_cell k (p / NX) (p mod NX) a b -> ~ value hr nx ny nodata a b v) -> r = nodata) /\
    (forall lo hi, (exists a b v, of_cell k (p / NX) (p mod NX) a b /\ value hr nx ny nodata a b v) ->
       (forall a b v, around_cell k (p / NX) (p mod NX) a b -> value hr nx ny nodata a b v -> lo <= v <= hi)%Z -> cut_between lo hi r)).
  destruct (omap_get (reduced_pixel g nx ny nodata NX (IZR k)) Rel2 (zupto (NX * NY))) as (lr & El & Ll & Hl).
  { intros q p Gp. assert (0 <= p < NX * NY)%Z as PR by (apply get_at_In in Gp; apply zupto_In in Gp; lia). clear q Gp.
    assert (0 <= p / NX < NY)%Z as PD. { split; [apply Z.div_pos; lia|]. apply Z.div_lt_upper_bound; lia. }
    assert (0 <= p mod NX < NX)%Z as PM by (apply Z.mod_pos_bound; lia).
    set (i := (p / NX)%Z) in *. set (j := (p mod NX)%Z) in *.
    assert (i * k + k <= ny)%Z as IK by (unfold ny; nia). assert (j * k + k <= nx)%Z as JK by (unfold nx; nia).
    assert (0 <= i * k)%Z as IK0 by nia. assert (0 <= j * k)%Z as JK0 by nia.
    (* any bounds within 16 bit *)
    assert (forall lo hi, (-32768 <= lo <= 32767)%Z -> (-32768 <= hi <= 32767)%Z ->
      (forall a b v, around_cell k i j a b -> value hr nx ny nodata a b v -> lo <= v <= hi)%Z ->
      exists r, reduced_pixel g nx ny nodata NX (IZR k) p = Ret r /\
       ((forall a b v, of_cell k i j a b -> ~ value hr nx ny nodata a b v) -> r = nodata) /\
       ((exists a b v, of_cell k i j a b /\ value hr nx ny nodata a b v) -> cut_between lo hi r)) as CORE.
    { intros lo hi LO HI AB. 
      destruct (reduced_ok g nx ny nodata k NX p lo hi K ltac:(lia) eq_refl ltac:(lia) ltac:(lia) ltac:(lia) IK LO HI) as (r & Er & R1 & R2).
      { intros x y [CX CY]. destruct (Hg' x y ltac:(lia) ltac:(lia)) as (v & Gv & Rv). exists v. split; auto.
        destruct (value_get hr nx ny x y IM ltac:(lia) ltac:(lia)) as (w & Gw & _). destruct (Rv w Gw) as [(_ & E) | (_ & E & S)]; [left; auto|right]. split; auto.
        apply S; try lia. intros a b w' Vw A B. apply (AB a b w'); auto. unfold around_cell.
        rewrite Z.div_add_l, Z.div_small, Z.add_0_r in A by lia. rewrite Z.add_comm, Z.mod_add, Z.mod_small in B by lia. lia. }
      exists r. split; auto. split.
      - intros H. apply R2. intros x y [CX CY]. destruct (Hg' x y ltac:(lia) ltac:(lia)) as (v & Gv & Rv).
        destruct (value_get hr nx ny x y IM ltac:(lia) ltac:(lia)) as (w & Gw & _). destruct (Rv w Gw) as [(_ & ->) | (E & _)]; auto.
        exfalso. apply (H x y w); [split; auto|]. split; [lia|]. split; [lia|]. auto.
      - intros (a & b & v & [CA CB] & V). apply R1. destruct (Hg' a b ltac:(lia) ltac:(lia)) as (x & Gx & Rx). exists a, b, x. split; [split; auto|]. split; auto.
        destruct V as (_ & _ & Gv & Nv). destruct (Rx v Gv) as [(E & _) | (_ & E & _)]; [contradiction|auto]. }
    destruct (CORE (-32768)%Z 32767%Z ltac:(lia) ltac:(lia)) as (r & Er & R1 & _).
    { intros a b v _ (_ & _ & Gv & _). destruct IM as [_ IF]. eapply Forall_get_at in IF; eauto. }
    exists r. split; auto. split; auto. intros lo hi EX AB.
    assert (lo <= 32767 /\ -32768 <= hi)%Z as [LO HI].
    { destruct EX as (a & b & v & C & V). pose proof (AB a b v ltac:(unfold of_cell, around_cell in *; lia) V) as X. destruct V as (_ & _ & Gv & _). destruct IM as [_ IF]. eapply Forall_get_at in IF; eauto. cbn beta in IF. lia. }
    destruct (CORE (Z.max lo (-32768)) (Z.min hi 32767) ltac:(lia) ltac:(lia)) as (r' & Er' & _ & R2).
    { intros a b v A V. pose proof (AB a b v A V). destruct V as (_ & _ & Gv & _). destruct IM as [_ IF]. eapply Forall_get_at in IF; eauto. cbn beta in IF. lia. }
    rewrite Er in Er'. inversion Er'; subst r'. specialize (R2 EX). clear - R2. unfold cut_between in *.
    destruct (0 <? lo)%Z eqn:E1, (hi <? 0)%Z eqn:E2, (0 <? Z.max lo (-32768))%Z eqn:E3, (Z.min hi 32767 <? 0)%Z eqn:E4; lia. }
  rewrite El. cbn [bind]. exists lr. split; auto. assert (zlen (zupto (NX * NY)) = NX * NY)%Z as ZL2. { unfold zlen. rewrite zupto_length. nia. }
  split; [lia|]. intros i j I J. destruct (Hl _ _ (get_zupto (NX * NY) (i * NX + j) ltac:(nia))) as (r & Gr & Rr). exists r. split; auto.
  unfold Rel2 in Rr. rewrite Z.div_add_l, Z.div_small, Z.add_0_r in Rr by lia. replace ((i * NX + j) mod NX)%Z with j in Rr; [exact Rr|].
  rewrite Z.add_comm, Z.mod_add, Z.mod_small by lia. auto.
Qed.
