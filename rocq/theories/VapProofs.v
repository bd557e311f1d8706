(** Proofs about the water vapour map. *)
From Coq Require Import Reals Lra Lia ZifyBool Permutation.
From Flocq Require Import Core.
From Verif Require Import Base BaseFacts Loops LoopsFacts RoundModel RoundFacts StatsSpec CldGrow ChunkProofs BandProofs WrtProofs VapModel VapSpec.
#[local] Open Scope Z_scope.

Lemma Rltb_t a b : Rltb a b = true <-> (a < b)%R.
Proof. unfold Rltb. destruct (Rlt_dec a b); split; intros; auto; discriminate. Qed.
Lemma Rltb_f a b : Rltb a b = false <-> (b <= a)%R.
Proof. unfold Rltb. destruct (Rlt_dec a b); split; intros; auto; try discriminate; lra. Qed.
Lemma Rleb_t a b : Rleb a b = true <-> (a <= b)%R.
Proof. unfold Rleb. destruct (Rle_dec a b); split; intros; auto; discriminate. Qed.
Lemma Rleb_f a b : Rleb a b = false <-> (b < a)%R.
Proof. unfold Rleb. destruct (Rle_dec a b); split; intros; auto; try discriminate; lra. Qed.

(** ** The table *)
Lemma hundredth_eq : hundredth = (IZR 5764607523034235 * bpow radix2 (-59))%R.
Proof.
  unfold hundredth. apply rnd64_near; [lia|lia|]. change (bpow radix2 (-59)) with (/ 576460752303423488)%R. apply Rabs_lt. lra.
Qed.
Lemma hundredth_bounds : (1 / 100 <= hundredth <= 1 / 100 * (1 + / 36028797018963968))%R.
Proof. rewrite hundredth_eq. change (bpow radix2 (-59)) with (/ 576460752303423488)%R. lra. Qed.
Lemma times100 x : x = rnd32 x -> rnd64 (x * 100) = (x * 100)%R.
Proof.
  intros E. assert (F : generic_format radix2 (FLT_exp (-149) 24) x) by (rewrite E; apply generic_format_round; typeclasses eauto).
  apply FLT_format_generic in F; [|typeclasses eauto]. destruct F as [(m, e) V M L]. cbn [Fnum Fexp] in *. unfold F2R in V. cbn [Fnum Fexp] in V.
  replace (x * 100)%R with (IZR (m * 100) * bpow radix2 e)%R by (rewrite mult_IZR, V; ring). apply rnd64_dyadic; [|lia].
  change (radix2 ^ 24)%Z with 16777216 in M. change (2 ^ 53) with 9007199254740992. lia.
Qed.
Lemma divided_ge x : x = rnd32 x -> (0 < x)%R -> (x * 100 <= rnd64 (x / hundredth))%R.
Proof.
  intros E P. pose proof (times100 x E) as T. set (u := (x * 100)%R) in *. assert (U : (0 < u)%R) by (unfold u; lra).
  assert (F : generic_format radix2 (FLT_exp (-1074) 53) u) by (rewrite <- T; apply generic_format_round; typeclasses eauto).
  unfold rnd64. apply round_N_ge_midp; auto; [typeclasses eauto|].
  pose proof (pred_plus_ulp radix2 (FLT_exp (-1074) 53) u U F) as Q. set (pr := pred _ _ u) in *.
  assert (P0 : (0 <= pr)%R) by (unfold pr; apply pred_ge_0; auto; typeclasses eauto).
  pose proof (ulp_FLT_gt radix2 (-1074) 53 pr) as G. rewrite (Rabs_pos_eq pr P0) in G. change (bpow radix2 (- (53))) with (/ 9007199254740992)%R in G.
  set (ul := ulp _ _ pr) in *.
  pose proof hundredth_bounds as (H1 & H2). assert (H0 : (0 < hundredth)%R) by lra. set (h := hundredth) in *. clearbody h ul pr.
  apply Rmult_lt_reg_r with h; [exact H0|]. replace (x / h * h)%R with (u / 100)%R by (unfold u; field; lra). clearbody u.
  apply Rle_lt_trans with ((u + pr) / 2 * (1 / 100 * (1 + / 36028797018963968)))%R; [apply Rmult_le_compat_l; lra|]. lra.
Qed.
Lemma slot_ge x y : x = rnd32 x -> (0 <= x <= y)%R -> Zfloor (rnd64 (x * 100)) <= slot y.
Proof.
  intros E (P & L). pose proof hundredth_bounds as (H1 & H2). unfold slot. apply Zfloor_le. destruct P as [P | <-].
  - rewrite (times100 x E). apply Rle_trans with (rnd64 (x / hundredth)); [apply divided_ge; auto|]. apply rnd64_le. apply Rmult_le_compat_r; [|exact L]. left. apply Rinv_0_lt_compat. lra.
  - apply rnd64_le. rewrite Rmult_0_l. apply Rmult_le_pos; [exact L|]. left. apply Rinv_0_lt_compat. lra.
Qed.
Lemma divided_le x : (0 <= x)%R -> (x / hundredth <= x * 100)%R.
Proof.
  intros P. pose proof hundredth_bounds as (H1 & H2). apply Rmult_le_compat_l; [exact P|]. replace 100%R with (/ (1 / 100))%R by field. apply Rinv_le; lra.
Qed.
Lemma slot_le x y : (0 <= x <= y)%R -> slot x <= Zceil (rnd64 (y * 100)).
Proof.
  intros (P & L). unfold slot. apply Z.le_trans with (Zfloor (rnd64 (y * 100))).
  - apply Zfloor_le. apply rnd64_le. pose proof (divided_le x P). lra.
  - apply le_IZR. pose proof (Zfloor_lb (rnd64 (y * 100))). pose proof (Zceil_ub (rnd64 (y * 100))). lra.
Qed.
Lemma slot_range x n : (0 <= x)%R -> (x * 100 <= IZR n)%R -> Z.abs n < 2 ^ 53 -> 0 <= slot x <= n.
Proof.
  intros P L B. pose proof hundredth_bounds as (H1 & H2). unfold slot. split.
  - apply Zfloor_lub. rewrite <- rnd64_0. apply rnd64_le. apply Rmult_le_pos; [exact P|]. left. apply Rinv_0_lt_compat. lra.
  - apply le_IZR. apply Rle_trans with (rnd64 (x / hundredth)); [apply Zfloor_lb|]. rewrite <- (rnd64_int n B). apply rnd64_le. pose proof (divided_le x P). lra.
Qed.
Lemma table_ok {A} (f : R -> R -> A) s0 v0 s1 v1 w m : s0 = rnd32 s0 -> v0 = rnd32 v0 -> (0 <= s0)%R -> (0 <= v0)%R -> (s0 <= m \/ v0 <= m)%R -> (m <= s1 \/ m <= v1)%R -> (0 <= m <= 1)%R -> (0 <= w <= 7)%R ->
  table f (km_min s0 v0) (km_max s1 v1) (slot w) (slot m) = Some (Some (f (rnd32 (rnd64 (IZR (slot w) * hundredth))) (rnd32 (rnd64 (IZR (slot m) * hundredth))))).
Proof.
  intros Es Ev Ps Pv Lo Hi M W.
  assert (A0 : km_min s0 v0 <= slot m). { unfold km_min. destruct (Rltb s0 v0) eqn:C; [apply Rltb_t in C | apply Rltb_f in C]; apply slot_ge; auto; lra. }
  assert (A1 : slot m <= km_max s1 v1). { unfold km_max. destruct (Rltb v1 s1) eqn:C; [apply Rltb_t in C | apply Rltb_f in C]; apply slot_le; lra. }
  pose proof (slot_range m 100 (proj1 M) ltac:(lra) ltac:(lia)) as A2. pose proof (slot_range w 700 (proj1 W) ltac:(lra) ltac:(lia)) as A3.
  unfold table. replace ((0 <=? slot w) && (slot w <? 701) && (0 <=? slot m) && (slot m <? 101)) with true by lia. replace ((km_min s0 v0 <=? slot m) && (slot m <=? km_max s1 v1)) with true by lia. reflexivity.
Qed.
Lemma grid x : (0 <= x <= 7)%R -> (x - 10001 / 1000000 <= rnd32 (rnd64 (IZR (slot x) * hundredth)) <= x + 1 / 1000000)%R.
Proof.
  intros P. pose proof hundredth_bounds as (H1 & H2). pose proof (slot_range x 700 (proj1 P) ltac:(lra) ltac:(lia)) as S. pose proof (divided_le x (proj1 P)) as D.
  assert (D0 : (0 <= x / hundredth)%R) by (apply Rmult_le_pos; [apply P|]; left; apply Rinv_0_lt_compat; lra).
  pose proof (rnd64_err (x / hundredth) 700 ltac:(lra) ltac:(apply Rabs_le; lra)) as E1. apply Rabs_le_inv in E1.
  pose proof (Zfloor_lb (rnd64 (x / hundredth))) as F1. pose proof (Zfloor_ub (rnd64 (x / hundredth))) as F2. fold (slot x) in F1, F2.
  assert (X : (x = x / hundredth * hundredth)%R) by (field; lra). destruct S as (S0 & S1). apply IZR_le in S0, S1.
  set (k := IZR (slot x)) in *. set (r := rnd64 (x / hundredth)) in *. set (d := (x / hundredth)%R) in *. set (h := hundredth) in *. clearbody k r d h.
  assert (K1 : (k * h <= (d + 1 / 1000000000) * h)%R) by (apply Rmult_le_compat_r; lra). assert (K2 : ((d - 1 - 1 / 1000000000) * h <= k * h)%R) by (apply Rmult_le_compat_r; lra).
  assert (K3 : (0 <= k * h)%R) by (apply Rmult_le_pos; lra). assert (K4 : (k * h <= 700 * h)%R) by (apply Rmult_le_compat_r; lra).
  rewrite Rmult_plus_distr_r in K1. rewrite <- X in K1. replace ((d - 1 - 1 / 1000000000) * h)%R with (d * h - h - 1 / 1000000000 * h)%R in K2 by ring. rewrite <- X in K2.
  set (y := (k * h)%R) in *. clearbody y.
  pose proof (rnd64_err y 8 ltac:(lra) ltac:(apply Rabs_le; lra)) as E2. apply Rabs_le_inv in E2. set (z := rnd64 y) in *. clearbody z.
  pose proof (rnd32_err z 8 ltac:(lra) ltac:(apply Rabs_le; lra)) as E3. apply Rabs_le_inv in E3. lra.
Qed.

(** ** Blocks *)
Definition shift (b d : Z * Z) : Z * Z := (fst b + fst d, snd b + snd d).
Definition idx (nx : Z) (q : Z * Z) : Z := fst q * nx + snd q.
Lemma pos_idx nx b d : pos nx b d = idx nx (shift b d).
Proof. unfold pos, idx, shift. cbn [fst snd]. lia. Qed.
Lemma shift_inj b d e : shift b d = shift b e -> d = e.
Proof. unfold shift. destruct b, d, e. cbn [fst snd]. intros E. injection E as E1 E2. f_equal; lia. Qed.
Lemma offs6_In d : In d offs6 <-> 0 <= fst d < 6 /\ 0 <= snd d < 6.
Proof.
  unfold offs6. rewrite in_flat_map. destruct d as (a, b). cbn [fst snd]. split.
  - intros (x & I & J). apply in_map_iff in J as (y & E & J). injection E as -> ->. rewrite zupto_In in *. lia.
  - intros (A & B). exists a. rewrite zupto_In. split; [lia|]. apply in_map_iff. exists b. rewrite zupto_In. split; [reflexivity|lia].
Qed.
Lemma offs6_nodup : NoDup offs6.
Proof. apply product_nodup; apply zupto_nodup'. Qed.
Lemma idx_range g q : in_image g q -> 0 <= idx (i_nx g) q < i_nx g * i_ny g.
Proof. intros (A & B). unfold idx. split; nia. Qed.
Lemma idx_inj g q r : in_image g q -> in_image g r -> idx (i_nx g) q = idx (i_nx g) r -> q = r.
Proof. intros (A & B) (C & D) E. unfold idx in E. destruct q, r. cbn [fst snd] in *. pose proof (Z.div_add_l z (i_nx g) z0 ltac:(lia)) as D1. pose proof (Z.div_add_l z1 (i_nx g) z2 ltac:(lia)) as D2. rewrite (Z.div_small z0) in D1 by lia. rewrite (Z.div_small z2) in D2 by lia. rewrite E in D1. assert (z = z1) by lia. subst. f_equal. lia. Qed.
Lemma idx_onto g p : 0 <= p < i_nx g * i_ny g -> 0 <= i_nx g -> exists q, in_image g q /\ idx (i_nx g) q = p.
Proof.
  intros P N. assert (H : 0 < i_nx g) by (destruct (Z.eq_dec (i_nx g) 0) as [e|]; [rewrite e in P; lia | lia]). exists (p / i_nx g, p mod i_nx g). unfold in_image, idx. cbn [fst snd]. pose proof (Z.mod_pos_bound p (i_nx g) H). pose proof (Z.div_mod p (i_nx g) ltac:(lia)). split; [|lia]. split; [|lia]. split; [apply Z.div_pos; lia|]. apply Z.div_lt_upper_bound; lia.
Qed.
Lemma at_val {A} (l : list A) g q : zlen l = i_nx g * i_ny g -> in_image g q -> exists v, get_at l (idx (i_nx g) q) = Some v.
Proof. intros L I. apply idx_range in I. rewrite <- L in I. apply get_at_some. exact I. Qed.
Lemma in_block g b d : whole_blocks g -> is_block g b -> In d offs6 -> in_image g (shift b d) /\ block_of (shift b d) = b.
Proof.
  intros (X & Y & Mx & My & _) ((A & B) & C & D) I. apply offs6_In in I. unfold in_image, shift, block_of. destruct b as (i, j), d as (a, c). cbn [fst snd] in *.
  pose proof (Z.div_mod (i_nx g) 6 ltac:(lia)). pose proof (Z.div_mod (i_ny g) 6 ltac:(lia)). pose proof (Z.div_mod i 6 ltac:(lia)). pose proof (Z.div_mod j 6 ltac:(lia)). rewrite C, D, Mx, My in *.
  split; [lia|]. f_equal; [replace (i + a) with (a + (i / 6) * 6) by lia | replace (j + c) with (c + (j / 6) * 6) by lia]; rewrite Z.div_add by lia; rewrite Z.div_small; lia.
Qed.
Lemma of_block g q : in_image g q -> is_block g (block_of q) /\ exists d, In d offs6 /\ q = shift (block_of q) d.
Proof.
  intros (A & B). destruct q as (i, j). cbn [fst snd] in *. pose proof (Z.div_mod i 6 ltac:(lia)). pose proof (Z.div_mod j 6 ltac:(lia)). pose proof (Z.mod_pos_bound i 6 ltac:(lia)). pose proof (Z.mod_pos_bound j 6 ltac:(lia)). unfold is_block, in_image, block_of. cbn [fst snd]. split.
  - split; [lia|]. rewrite !(Z.mul_comm 6). rewrite !Z.mod_mul by lia. auto.
  - exists (i mod 6, j mod 6). rewrite offs6_In. unfold shift. cbn [fst snd]. split; [lia|]. f_equal; lia.
Qed.
Lemma block_own g b : is_block g b -> block_of b = b.
Proof. intros (_ & C & D). unfold block_of. destruct b as (i, j). cbn [fst snd] in *. pose proof (Z.div_mod i 6 ltac:(lia)). pose proof (Z.div_mod j 6 ltac:(lia)). f_equal; lia. Qed.

(** ** Writing a block *)
Lemma pair_dec (x y : Z * Z) : {x = y} + {x <> y}.
Proof. decide equality; apply Z.eq_dec. Qed.
Definition wfold (g : img) (b : Z * Z) (v : Z) (ds : list (Z * Z)) (wvp : list Z) : outcome (list Z) :=
  ofold (fun m d => let p := pos (i_nx g) b d in o <- of_option (get_at (i_off g) p) ;; if o then Ret m else of_option (set_at m p v)) ds wvp.
Lemma wfold_ok g b v : zlen (i_off g) = i_nx g * i_ny g -> forall ds m, zlen m = i_nx g * i_ny g -> (forall d, In d ds -> in_image g (shift b d)) -> exists m', wfold g b v ds m = Ret m' /\ zlen m' = i_nx g * i_ny g /\
  forall q, in_image g q -> ((forall d, In d ds -> q = shift b d -> at_pixel (i_off g) (i_nx g) q true) -> get_at m' (idx (i_nx g) q) = get_at m (idx (i_nx g) q)) /\
    (forall d, In d ds -> q = shift b d -> at_pixel (i_off g) (i_nx g) q false -> get_at m' (idx (i_nx g) q) = Some v).
Proof.
  intros Lo. induction ds as [|d ds IH]; intros m Lm I.
  - exists m. split; [reflexivity|]. split; auto. intros q Q. split; auto. intros d [].
  - unfold wfold. cbn [ofold]. rewrite pos_idx. destruct (at_val (i_off g) g (shift b d) Lo (I d (or_introl eq_refl))) as (o & O). rewrite O. cbn [of_option bind]. destruct o.
    + cbn [bind]. destruct (IH m Lm (fun e J => I e (or_intror J))) as (m' & E & L' & K). exists m'. split; [exact E|]. split; auto. intros q Q. destruct (K q Q) as (K1 & K2). split.
      * intros H. apply K1. intros e J. apply H. right. exact J.
      * intros e [<-|J] Eq Off; [|eauto]. subst q. unfold at_pixel in Off. unfold idx in O. congruence.
    + destruct (set_at m (idx (i_nx g) (shift b d)) v) as [m1|] eqn:S.
      2:{ exfalso. rewrite set_at_some in S; [discriminate|]. rewrite Lm. apply idx_range. apply I. left. reflexivity. }
      cbn [of_option bind]. assert (L1 : zlen m1 = i_nx g * i_ny g) by (rewrite (set_at_length _ _ _ _ S); exact Lm).
      destruct (IH m1 L1 (fun e J => I e (or_intror J))) as (m' & E & L' & K). exists m'. split; [exact E|]. split; auto. intros q Q. destruct (K q Q) as (K1 & K2). split.
      * intros H. rewrite K1. 2:{ intros e J. apply H. right. exact J. } apply (get_set_other _ _ _ _ _ S). intros Eq. apply (idx_inj g) in Eq; auto; [|apply I; left; reflexivity]. subst q. pose proof (H d (or_introl eq_refl) eq_refl) as Off. unfold at_pixel in Off. unfold idx in O. congruence.
      * intros e [<-|J] Eq Off; [|eauto]. destruct (in_dec pair_dec d ds) as [D|D]; [eapply K2; eauto|].
        rewrite K1; [subst q; apply (get_set_same _ _ _ _ S)|]. intros f J Ef. exfalso. apply D. rewrite Eq in Ef. apply shift_inj in Ef. congruence.
Qed.
Lemma write_ok g b v m : whole_blocks g -> is_block g b -> zlen m = i_nx g * i_ny g -> exists m', write g b v m = Ret m' /\ zlen m' = i_nx g * i_ny g /\
  forall q, in_image g q -> (at_pixel (i_off g) (i_nx g) q true \/ block_of q <> b -> get_at m' (idx (i_nx g) q) = get_at m (idx (i_nx g) q)) /\
    (block_of q = b -> at_pixel (i_off g) (i_nx g) q false -> get_at m' (idx (i_nx g) q) = Some v).
Proof.
  intros W B Lm. destruct (wfold_ok g b v ltac:(apply W) offs6 m Lm) as (m' & E & L' & K); [intros d I; apply (in_block g b d W B I)|].
  exists m'. split; [exact E|]. split; auto. intros q Q. destruct (K q Q) as (K1 & K2). destruct (of_block g q Q) as (_ & d & I & Eq). split.
  - intros [O|N]; apply K1; [auto|]. intros e J ->. exfalso. apply N. apply (in_block g b e W B J).
  - intros Eb Off. rewrite Eb in Eq. eapply K2; eauto.
Qed.

(** ** Averages of a block *)
Definition refl (x : Z * Z * (Z * Z)) : R := (IZR (fst (snd x)) / 10000)%R.
Definition gfold (g : img) (b : Z * Z) (ds : list (Z * Z)) (s0 : R * Z * Z) : outcome (R * Z * Z) :=
  ofold (fun s d => let p := pos (i_nx g) b d in
    o <- of_option (get_at (i_off g) p) ;;
    if o then Ret s else
    sh <- of_option (get_at (i_shadow g) p) ;;
    if sh then Ret s else
    w <- of_option (get_at (i_water g) p) ;;
    if w then Ret s else
    t <- of_option (get_at (i_ref g) p) ;;
    if t <? 1500 then Ret s else
    e <- of_option (get_at (i_dem g) p) ;;
    Ret ((fst (fst s) + IZR t / 10000)%R, snd (fst s) + e, snd s + 1)) ds s0.
Definition fits (g : img) (q : Z * Z) (t e : Z) : Prop :=
  at_pixel (i_off g) (i_nx g) q false /\ at_pixel (i_shadow g) (i_nx g) q false /\ at_pixel (i_water g) (i_nx g) q false /\
  at_pixel (i_ref g) (i_nx g) q t /\ 1500 <= t /\ at_pixel (i_dem g) (i_nx g) q e.
Lemma gfold_ok g b : whole_blocks g -> forall ds s0, NoDup ds -> (forall d, In d ds -> in_image g (shift b d)) -> exists l, NoDup (map fst l) /\ (forall q t e, In (q, (t, e)) l <-> (exists d, In d ds /\ q = shift b d) /\ fits g q t e) /\
  gfold g b ds s0 = Ret ((fst (fst s0) + sum (fun x => x) (map refl l))%R, snd (fst s0) + zsum (map (fun x => snd (snd x)) l), snd s0 + zlen l).
Proof.
  intros (X & Y & _ & _ & Lo & Ls & Lw & Lr & Lm & Ld). induction ds as [|d ds IH]; intros s0 N I.
  - exists []. split; [constructor|]. split; [intros q t e; split; [intros [] | intros ((d & [] & _) & _)]|]. unfold gfold. cbn. destruct s0 as ((a, b0), c). cbn [fst snd]. unfold zlen. cbn. rewrite Rplus_0_r, !Z.add_0_r. reflexivity.
  - inversion N as [|? ? Nd N']; subst. pose proof (I d (or_introl eq_refl)) as Id. assert (I' : forall e, In e ds -> in_image g (shift b e)) by (intros e J; apply I; right; exact J).
    assert (SKIP : (forall t e, ~ fits g (shift b d) t e) -> gfold g b (d :: ds) s0 = gfold g b ds s0 -> exists l, NoDup (map fst l) /\ (forall q t e, In (q, (t, e)) l <-> (exists d', In d' (d :: ds) /\ q = shift b d') /\ fits g q t e) /\
      gfold g b (d :: ds) s0 = Ret ((fst (fst s0) + sum (fun x => x) (map refl l))%R, snd (fst s0) + zsum (map (fun x => snd (snd x)) l), snd s0 + zlen l)).
    { intros NF E. destruct (IH s0 N' I') as (l & Nl & J & K). exists l. split; auto. split; [|congruence]. intros q t e. split.
      - intros A. apply J in A as ((e' & B & C) & F). split; auto. exists e'. split; auto. right. exact B.
      - intros ((e' & [<-|B] & ->) & F); [exfalso; apply (NF _ _ F)|]. apply J. split; auto. exists e'. auto. }
    assert (ST : gfold g b (d :: ds) s0 = bind (gfold g b [d] s0) (gfold g b ds)).
    { unfold gfold. cbn [ofold]. match goal with |- bind ?x _ = bind (bind ?x _) _ => destruct x; reflexivity end. }
    assert (ONE : forall s1, gfold g b [d] s0 = Ret s1 -> gfold g b (d :: ds) s0 = gfold g b ds s1) by (intros s1 E; rewrite ST, E; reflexivity).
    destruct (at_val _ g (shift b d) Lo Id) as (o & O). destruct (at_val _ g (shift b d) Ls Id) as (sh & S). destruct (at_val _ g (shift b d) Lw Id) as (w & W). destruct (at_val _ g (shift b d) Lr Id) as (t & T). destruct (at_val _ g (shift b d) Ld Id) as (e & E).
    assert (G : gfold g b [d] s0 = if o then Ret s0 else if sh then Ret s0 else if w then Ret s0 else if t <? 1500 then Ret s0 else Ret ((fst (fst s0) + IZR t / 10000)%R, snd (fst s0) + e, snd s0 + 1)).
    { unfold gfold. cbn [ofold]. rewrite pos_idx, O. cbn [of_option bind]. destruct o; [reflexivity|]. rewrite S. cbn [of_option bind]. destruct sh; [reflexivity|]. rewrite W. cbn [of_option bind]. destruct w; [reflexivity|]. rewrite T. cbn [of_option bind]. destruct (t <? 1500); [reflexivity|]. rewrite E. reflexivity. }
    unfold fits, at_pixel in *. fold (idx (i_nx g) (shift b d)) in *.
    destruct o; [apply SKIP; [intros t' e' F; fold (idx (i_nx g) (shift b d)) in F; destruct F; congruence | apply ONE; exact G]|].
    destruct sh; [apply SKIP; [intros t' e' F; fold (idx (i_nx g) (shift b d)) in F; destruct F as (_ & F & _); congruence | apply ONE; exact G]|].
    destruct w; [apply SKIP; [intros t' e' F; fold (idx (i_nx g) (shift b d)) in F; destruct F as (_ & _ & F & _); congruence | apply ONE; exact G]|].
    destruct (Z.ltb_spec t 1500); [apply SKIP; [intros t' e' F; fold (idx (i_nx g) (shift b d)) in F; destruct F as (_ & _ & _ & F & F' & _); assert (t' = t) by congruence; lia | apply ONE; exact G]|].
    clear SKIP. destruct (IH ((fst (fst s0) + IZR t / 10000)%R, snd (fst s0) + e, snd s0 + 1) N' I') as (l & Nl & J & K). exists ((shift b d, (t, e)) :: l). split; [|split].
    + cbn [map fst]. constructor; auto. intros A. apply in_map_iff in A as ((q, (t', e')) & A & B). cbn [fst] in A. subst q. apply J in B as ((d' & B & C) & _). apply shift_inj in C. subst d'. contradiction.
    + intros q t' e'. cbn [In]. split.
      * intros [A|A]; [injection A as <- <- <-; split; [exists d; auto|]; fold (idx (i_nx g) (shift b d)); repeat split; auto|]. apply J in A as ((d' & B & C) & F). split; auto. exists d'. auto.
      * intros ((d' & [<-|B] & ->) & F); [left|right; apply J; split; eauto]. fold (idx (i_nx g) (shift b d)) in F. destruct F as (_ & _ & _ & F1 & _ & F2). congruence.
    + rewrite (ONE _ G), K. cbn [fst snd map sum]. unfold zsum, refl, zlen. cbn [fold_right map fst snd length]. fold (zsum (map (fun x : Z * Z * (Z * Z) => snd (snd x)) l)). rewrite Nat2Z.inj_succ. do 2 f_equal; [f_equal; [ring | lia] | lia].
Qed.
Lemma gather_ok g b : whole_blocks g -> is_block g b -> exists l, used_list g b l /\ gather g b = Ret (sum (fun x => x) (map refl l), zsum (map (fun x => snd (snd x)) l), zlen l).
Proof.
  intros W B. destruct (gfold_ok g b W offs6 (0%R, 0, 0) offs6_nodup) as (l & N & J & E); [intros d I; apply (in_block g b d W B I)|].
  exists l. split.
  - split; auto. intros q t e. split.
    + intros A. apply J in A as ((d & I & ->) & F). destruct (in_block g b d W B I) as (A1 & A2). split; auto.
    + intros (Q & Eb & F). apply J. destruct (of_block g q Q) as (_ & d & I & Eq). rewrite Eb in Eq. split; eauto.
  - change (gather g b) with (gfold g b offs6 (0%R, 0, 0)). rewrite E. cbn [fst snd]. rewrite Rplus_0_l. reflexivity.
Qed.
Lemma estimate_ok opt seen g w b : whole_blocks g -> is_block g b -> exists r w', estimate opt seen g w b = Ret (r, w') /\ estimate_is opt seen g w b r.
Proof.
  intros W B. destruct (gather_ok g b W B) as (l & U & G). unfold estimate. rewrite G. cbn [bind snd fst]. unfold estimate_is.
  destruct (Z.eqb_spec (zlen l) 0) as [L|L]; [exists None, w; split; auto; exists l; split; auto; left; destruct l; auto; unfold zlen in L; cbn [length] in L; lia|].
  destruct (at_val (i_meas g) g b ltac:(apply W) (proj1 B)) as (m & M). unfold idx in M. rewrite M. cbn [of_option bind]. destruct (seen b) eqn:S; cbn [negb]; [|exists None, w; split; auto; exists l; split; auto].
  assert (EM : (sum (fun x => x) (map refl l) / IZR (zlen l))%R = mean (map refl l)) by (unfold mean, size; rewrite map_length, INR_IZR_INZ; reflexivity). rewrite EM.
  set (z := (2 * _ + _) / _). pose proof (Z.div_mod (2 * zsum (map (fun x => snd (snd x)) l) + zlen l) (2 * zlen l) ltac:(lia)) as D. fold z in D. assert (P : 0 < zlen l) by (unfold zlen in *; lia). pose proof (Z.mod_pos_bound (2 * zsum (map (fun x => snd (snd x)) l) + zlen l) (2 * zlen l) ltac:(lia)) as D2.
  assert (NZ : nearest l z) by (unfold nearest; nia). cbv zeta. set (e := rnd32 _). destruct (Rltb 7 e) eqn:E1; cbn [orb].
  - exists None, 3%R. split; auto. exists l. split; auto. right. right. exists m, z. split; [exact M|]. split; [exact NZ|]. left. apply Rltb_t in E1. exact E1.
  - destruct (Rleb e 0) eqn:E2.
    + exists None, 3%R. split; auto. exists l. split; auto. right. right. exists m, z. split; [exact M|]. split; [exact NZ|]. right. apply Rleb_t in E2. exact E2.
    + exists (Some e), e. split; auto. exists l. split; auto. split; [intros ->; apply L; reflexivity|]. split; auto. apply Rltb_f in E1. apply Rleb_f in E2. split; [lra|]. exists m, z. split; [exact M|]. split; [reflexivity|]. exact NZ.
Qed.

Lemma stored_ok e : (0 <= e <= 7)%R -> 0 <= stored e <= 7000 /\ milli e (stored e).
Proof.
  intros E. unfold milli, stored. pose proof (rnd32_between 0 7000 (e * 1000) ltac:(lia) ltac:(lia) ltac:(lra)) as B. set (x := rnd32 (e * 1000)) in *. clearbody x.
  rewrite Ztrunc_floor by apply B. assert (F : 0 <= Zfloor x <= 7000) by (split; [apply Zfloor_lub; apply B|]; apply le_IZR; pose proof (Zfloor_lb x); lra).
  assert (T : to_short (Zfloor x) = Zfloor x) by (unfold to_short; rewrite Z.mod_small; lia). rewrite T. split; auto. exists x. split; auto. rewrite plus_IZR. split; [apply Zfloor_lb | apply Zfloor_ub].
Qed.

Lemma sum_bounds l : Forall (fun e => 0 < e <= 7)%R l -> (0 <= sum (fun x => x) l <= 7 * INR (length l))%R.
Proof. induction 1 as [|x l H F IH]; [cbn; lra|]. cbn [sum length]. rewrite S_INR. lra. Qed.
Lemma mean_bounds l : Forall (fun e => 0 < e <= 7)%R l -> l <> [] -> (0 <= mean l <= 7)%R.
Proof.
  intros F N. pose proof (sum_bounds l F) as S. unfold mean, size. assert (P : (0 < INR (length l))%R) by (apply (lt_INR 0); destruct l; [congruence|cbn; lia]). split.
  - apply Rmult_le_pos; [apply S|]. left. apply Rinv_0_lt_compat. exact P.
  - apply Rmult_le_reg_r with (INR (length l)); [exact P|]. unfold Rdiv. rewrite Rmult_assoc, Rinv_l by lra. lra.
Qed.

(** ** All blocks *)
Section Scene.
Context (opt : R -> R -> Z -> Z -> Z * Z -> R) (seen : Z * Z -> bool) (g : img) (W : whole_blocks g).
Definition map_inv (rec : list (Z * Z * option R)) (m : list Z) : Prop := zlen m = i_nx g * i_ny g /\ forall q, in_image g q ->
  (at_pixel (i_off g) (i_nx g) q true -> at_pixel m (i_nx g) q 0) /\
  (at_pixel (i_off g) (i_nx g) q false -> (forall r, In (block_of q, r) rec -> at_pixel m (i_nx g) q match r with Some e => stored e | None => 0 end) /\ (~ In (block_of q) (map fst rec) -> at_pixel m (i_nx g) q 0)).
Definition made (x : Z * Z * option R) : Prop := exists w w', estimate opt seen g w (fst x) = Ret (snd x, w').
Definition inv (rec : list (Z * Z * option R)) (a : acc) : Prop := a_sum a = sum (fun x => x) (estimates rec) /\ a_num a = zlen (estimates rec) /\ map_inv rec (a_map a).
Lemma sum_app {A} (f : A -> R) l l' : sum f (l ++ l') = (sum f l + sum f l')%R.
Proof. induction l as [|x l IH]; cbn [app sum]; [ring|]. rewrite IH. ring. Qed.
Lemma zlen_app' {A} (l l' : list A) : zlen (l ++ l') = zlen l + zlen l'.
Proof. unfold zlen. rewrite app_length. lia. Qed.
Lemma estimates_app l l' : estimates (l ++ l') = estimates l ++ estimates l'.
Proof. apply flat_map_app. Qed.
Lemma block_ok rec a b : is_block g b -> ~ In b (map fst rec) -> inv rec a -> exists a' r, block opt seen g a b = Ret a' /\ made (b, r) /\ inv (rec ++ [(b, r)]) a'.
Proof.
  intros B N (S & K & Lm & M). unfold block. destruct (estimate_ok opt seen g (a_w a) b W B) as (r & w' & E & _). rewrite E. cbn [bind fst snd]. destruct r as [e|].
  - destruct (write_ok g b (stored e) (a_map a) W B Lm) as (m' & E2 & L' & P). rewrite E2. cbn [bind]. eexists _, (Some e). split; [reflexivity|]. split; [exists (a_w a), w'; exact E|].
    unfold inv. cbn [a_sum a_num a_map]. rewrite estimates_app, sum_app, zlen_app'. cbn [estimates flat_map snd app sum]. split; [rewrite S; ring|]. split; [rewrite K; reflexivity|]. split; auto.
    intros q Q. destruct (P q Q) as (P1 & P2). destruct (M q Q) as (M1 & M2). unfold at_pixel in *. fold (idx (i_nx g) q) in *. split; [intros O; rewrite P1; auto|]. intros O. destruct (M2 O) as (M3 & M4). split.
    + intros r I. apply in_app_iff in I as [I | [I|[]]].
      * rewrite P1; [auto|]. right. intros Eb. apply N. apply in_map_iff. exists (block_of q, r). auto.
      * injection I as -> <-. apply P2; auto.
    + intros NI. rewrite map_app, in_app_iff in NI. rewrite P1; [auto|]. right. intros Eb. apply NI. right. left. symmetry. exact Eb.
  - eexists _, None. split; [reflexivity|]. split; [exists (a_w a), w'; exact E|]. unfold inv. cbn [a_sum a_num a_map]. rewrite estimates_app. cbn [estimates flat_map snd app]. rewrite app_nil_r. split; auto. split; auto. split; auto.
    intros q Q. destruct (M q Q) as (M1 & M2). split; auto. intros O. destruct (M2 O) as (M3 & M4). split.
    + intros r I. apply in_app_iff in I as [I | [I|[]]]; auto. injection I as Eb <-. apply M4. rewrite <- Eb. exact N.
    + intros NI. apply M4. intros I. apply NI. rewrite map_app, in_app_iff. left. exact I.
Qed.
Lemma blocks_ok bs : forall rec a, (forall b, In b bs -> is_block g b) -> NoDup (map fst rec ++ bs) -> inv rec a -> exists a' rec', ofold (block opt seen g) bs a = Ret a' /\ map fst rec' = bs /\ Forall made rec' /\ inv (rec ++ rec') a'.
Proof.
  induction bs as [|b bs IH]; intros rec a B N I.
  - exists a, []. split; [reflexivity|]. rewrite app_nil_r. auto.
  - destruct (block_ok rec a b (B b (or_introl eq_refl))) as (a1 & r & E & M & I1); auto.
    { intros J. apply NoDup_remove_2 in N. apply N. apply in_app_iff. left. exact J. }
    cbn [ofold]. rewrite E. cbn [bind]. destruct (IH (rec ++ [(b, r)]) a1) as (a' & rec' & E' & F & G & H); auto.
    { intros c J. apply B. right. exact J. } { rewrite map_app. cbn [map fst]. rewrite <- app_assoc. exact N. }
    exists a', ((b, r) :: rec'). split; [exact E'|]. split; [cbn [map fst]; congruence|]. split; [constructor; auto|]. rewrite <- app_assoc in H. exact H.
Qed.
Lemma nodup_left {A} (l l' : list A) : NoDup (l ++ l') -> NoDup l.
Proof. induction l as [|x l IH]; intros N; [constructor|]. cbn [app] in N. inversion N; subst. constructor; auto. intros I. apply H1. apply in_app_iff. left. exact I. Qed.
Lemma threads_ok ts : forall rec a, (forall b, In b (concat ts) -> is_block g b) -> NoDup (map fst rec ++ concat ts) -> inv rec a -> exists a' rec', ofold (thread opt seen g) ts a = Ret a' /\ map fst rec' = concat ts /\ Forall made rec' /\ inv (rec ++ rec') a'.
Proof.
  induction ts as [|t ts IH]; intros rec a B N I.
  - exists a, []. split; [reflexivity|]. rewrite app_nil_r. auto.
  - cbn [concat] in *. cbn [ofold]. unfold thread at 1. destruct (blocks_ok t rec (mkAcc 3 (a_sum a) (a_num a) (a_map a))) as (a1 & r1 & E & F & M & I1).
    { intros b J. apply B. apply in_app_iff. left. exact J. } { rewrite app_assoc in N. eapply nodup_left; exact N. } { exact I. }
    rewrite E. cbn [bind]. destruct (IH (rec ++ r1) a1) as (a' & r2 & E' & F' & M' & I2); auto.
    { intros b J. apply B. apply in_app_iff. right. exact J. } { rewrite map_app, F, <- app_assoc. exact N. }
    exists a', (r1 ++ r2). split; [exact E'|]. split; [rewrite map_app; congruence|]. split; [apply Forall_app; auto|]. rewrite app_assoc. exact I2.
Qed.

Lemma made_is x : is_block g (fst x) -> made x -> exists w, estimate_is opt seen g w (fst x) (snd x).
Proof. intros B (w & w' & E). exists w. destruct (estimate_ok opt seen g w (fst x) W B) as (r & w2 & E2 & I). rewrite E in E2. injection E2 as -> _. exact I. Qed.
Lemma made_bounds b e : is_block g b -> made (b, Some e) -> (0 < e <= 7)%R.
Proof. intros B M. destruct (made_is (b, Some e) B M) as (w & l & _ & _ & _ & H & _). exact H. Qed.
Lemma estimates_bounds rec : (forall b, In b (map fst rec) -> is_block g b) -> Forall made rec -> Forall (fun e => 0 < e <= 7)%R (estimates rec).
Proof.
  intros B M. apply Forall_forall. intros e I. unfold estimates in I. apply in_flat_map in I as ((b, r) & J & K). cbn [snd] in K. destruct r as [e'|]; [|destruct K]. destruct K as [<-|[]]. rewrite Forall_forall in M. apply (made_bounds b); auto. apply B. apply in_map_iff. exists (b, Some e'). auto.
Qed.
Definition start : acc := mkAcc 3 0 0 (repeat 0 (Z.to_nat (i_nx g * i_ny g))).
Lemma size_nonneg : 0 <= i_nx g * i_ny g.
Proof. destruct W as (A & B & _). nia. Qed.
Lemma zlen_repeat {A} (x : A) : zlen (repeat x (Z.to_nat (i_nx g * i_ny g))) = i_nx g * i_ny g.
Proof. unfold zlen. rewrite repeat_length. pose proof size_nonneg. lia. Qed.
Lemma start_inv : inv [] start.
Proof.
  split; [reflexivity|]. split; [reflexivity|]. cbn [start a_map]. split; [apply zlen_repeat|]. intros q Q. assert (Z0 : at_pixel (repeat 0 (Z.to_nat (i_nx g * i_ny g))) (i_nx g) q 0) by (apply get_repeat; apply idx_range; exact Q). split; auto. intros _. split; auto. intros r [].
Qed.
Lemma scene_ok ts : shares g ts -> exists a rec, ofold (thread opt seen g) ts start = Ret a /\ map fst rec = concat ts /\ Forall made rec /\ inv rec a.
Proof. intros (N & B). destruct (threads_ok ts [] start) as (a & rec & H); [intros b; apply B | exact N | exact start_inv|]. exists a, rec. exact H. Qed.
Lemma in_rec (rec : list (Z * Z * option R)) ts q : map fst rec = concat ts -> shares g ts -> in_image g q -> exists r, In (block_of q, r) rec.
Proof. intros E (N & B) Q. destruct (of_block g q Q) as (I & _). apply B in I. rewrite <- E in I. apply in_map_iff in I as ((b, r) & <- & I). exists r. exact I. Qed.
Lemma fill_ok rec a : inv rec a -> exists wvp flag, fill g a = Ret (wvp, flag) /\ zlen wvp = i_nx g * i_ny g /\ zlen flag = i_nx g * i_ny g /\ forall q, in_image g q -> exists o v, at_pixel (i_off g) (i_nx g) q o /\ at_pixel (a_map a) (i_nx g) q v /\
  let f := negb o && negb (0 <? v) && (0 <? zlen (estimates rec)) in at_pixel wvp (i_nx g) q (if f then stored (rnd32 (mean (estimates rec))) else v) /\ at_pixel flag (i_nx g) q f.
Proof.
  intros (S & K & L & _). unfold fill. rewrite K. assert (M : (a_sum a / IZR (zlen (estimates rec)))%R = mean (estimates rec)) by (unfold mean, size; rewrite S, INR_IZR_INZ; reflexivity).
  assert (Lo : zlen (i_off g) = i_nx g * i_ny g) by apply W.
  destruct (Z.ltb_spec 0 (zlen (estimates rec))).
  - destruct (omap_zupto (fun p => o <- of_option (get_at (i_off g) p) ;; v <- of_option (get_at (a_map a) p) ;;
                 Ret (if o || (0 <? v) then (v, false) else (stored (rnd32 (a_sum a / IZR (zlen (estimates rec)))), true))) (i_nx g * i_ny g) size_nonneg) as (l & E & Ll & P).
    { intros p P. destruct (get_at_some (i_off g) p ltac:(lia)) as (o & O). destruct (get_at_some (a_map a) p ltac:(lia)) as (v & V). rewrite O. cbn [of_option bind]. rewrite V. cbn [of_option bind]. eauto. }
    rewrite E. cbn [bind]. exists (map fst l), (map snd l). split; [reflexivity|]. unfold zlen in *. rewrite !map_length. split; auto. split; auto.
    intros q Q. destruct (P _ (idx_range g q Q)) as (x & X & Gx). destruct (get_at_some (i_off g) (idx (i_nx g) q)) as (o & O); [unfold zlen; rewrite Lo; apply idx_range; exact Q|]. destruct (get_at_some (a_map a) (idx (i_nx g) q)) as (v & V); [unfold zlen; rewrite L; apply idx_range; exact Q|].
    exists o, v. split; [exact O|]. split; [exact V|]. rewrite O in X. cbn [of_option bind] in X. rewrite V in X. cbn [of_option bind] in X. injection X as <-. unfold at_pixel. fold (idx (i_nx g) q). rewrite !get_at_map, Gx. cbn [option_map]. rewrite M. destruct o, (0 <? v); cbn; auto.
  - exists (a_map a), (repeat false (Z.to_nat (i_nx g * i_ny g))). split; [reflexivity|]. split; [exact L|]. split; [apply zlen_repeat|]. intros q Q. destruct (at_val _ g q Lo Q) as (o & O). destruct (at_val _ g q L Q) as (v & V). exists o, v. split; [exact O|]. split; [exact V|].
    rewrite andb_false_r. cbv zeta. split; [exact V|]. apply get_repeat. apply idx_range. exact Q.
Qed.
End Scene.

(** ** Transmittance *)
Definition line (v : Z) : Z := slot (rnd32 (rnd64 (IZR v / 1000))).
Lemma line_ok v : 0 <= v <= 7000 -> 0 <= line v <= 700 /\ (IZR v / 1000 - 10002 / 1000000 <= IZR (line v) / 100 <= IZR v / 1000 + 2 / 1000000)%R.
Proof.
  intros (V0 & V1). apply IZR_le in V0, V1. unfold line. set (x := (IZR v / 1000)%R) in *. assert (X : (0 <= x <= 7)%R) by (unfold x; lra).
  assert (B : (0 <= rnd64 x <= 7)%R) by (split; [rewrite <- rnd64_0 | rewrite <- (rnd64_int 7) by lia]; apply rnd64_le; lra).
  pose proof (rnd64_err x 7 ltac:(lra) ltac:(apply Rabs_le; lra)) as E1. apply Rabs_le_inv in E1. clearbody x. set (y := rnd64 x) in *. clearbody y.
  pose proof (rnd32_between 0 7 y ltac:(lia) ltac:(lia) B) as C. pose proof (rnd32_err y 7 ltac:(lra) ltac:(apply Rabs_le; lra)) as E2. apply Rabs_le_inv in E2. set (w := rnd32 y) in *. clearbody w.
  pose proof (slot_range w 700 (proj1 C) ltac:(lra) ltac:(lia)) as S. split; [exact S|].
  pose proof hundredth_bounds as (H1 & H2). pose proof (divided_le w (proj1 C)) as D.
  assert (D0 : (w * 100 * (1 - / 36028797018963968) <= w / hundredth)%R).
  { apply Rmult_le_reg_r with hundredth; [lra|]. replace (w / hundredth * hundredth)%R with w by (field; lra). set (h := hundredth) in *. clearbody h.
    apply Rle_trans with (w * 100 * (1 - / 36028797018963968) * (1 / 100 * (1 + / 36028797018963968)))%R; [apply Rmult_le_compat_l; [|lra]; apply Rmult_le_pos; lra|]. lra. }
  pose proof (rnd64_err (w / hundredth) 701 ltac:(lra) ltac:(apply Rabs_le; lra)) as E3. apply Rabs_le_inv in E3.
  pose proof (Zfloor_lb (rnd64 (w / hundredth))) as F1. pose proof (Zfloor_ub (rnd64 (w / hundredth))) as F2. fold (slot w) in F1, F2. lra.
Qed.
Lemma gas_fold_ok tg seen g wvp : whole_blocks g -> zlen wvp = i_nx g * i_ny g -> forall bs m, (forall b, In b bs -> is_block g b) -> zlen m = i_nx g * i_ny g -> exists m',
  ofold (fun m b => if negb (seen b) then Ret m else v <- of_option (get_at wvp (fst b * i_nx g + snd b)) ;; let kw := slot (rnd32 (rnd64 (IZR v / 1000))) in write g b (tg kw b) m) bs m = Ret m' /\ zlen m' = i_nx g * i_ny g /\
  forall q, in_image g q -> (at_pixel (i_off g) (i_nx g) q true \/ seen (block_of q) = false \/ ~ In (block_of q) bs -> get_at m' (idx (i_nx g) q) = get_at m (idx (i_nx g) q)) /\
    (at_pixel (i_off g) (i_nx g) q false -> seen (block_of q) = true -> In (block_of q) bs -> forall v, at_pixel wvp (i_nx g) (block_of q) v -> at_pixel m' (i_nx g) q (tg (line v) (block_of q))).
Proof.
  intros W Lw. induction bs as [|b bs IH]; intros m B Lm.
  - exists m. split; [reflexivity|]. split; auto. intros q Q. split; auto. intros _ _ [].
  - cbn [ofold]. assert (B' : forall c, In c bs -> is_block g c) by (intros c J; apply B; right; exact J). pose proof (B b (or_introl eq_refl)) as Bb. destruct (seen b) eqn:S; cbn [negb].
    + destruct (at_val wvp g b Lw (proj1 Bb)) as (v & V). unfold idx in V. rewrite V. cbn [of_option bind]. cbv zeta. fold (line v). destruct (write_ok g b (tg (line v) b) m W Bb Lm) as (m1 & E & L1 & P). rewrite E. cbn [bind].
      destruct (IH m1 B' L1) as (m' & E' & L' & K). exists m'. split; [exact E'|]. split; auto. intros q Q. destruct (P q Q) as (P1 & P2). destruct (K q Q) as (K1 & K2). split.
      * intros H. rewrite K1; [rewrite P1; auto|].
        { destruct H as [H|[H|H]]; [left; exact H | right; intros Eb; congruence | right; intros Eb; apply H; left; symmetry; exact Eb]. }
        { destruct H as [H|[H|H]]; auto. right. right. intros J. apply H. right. exact J. }
      * intros O Sb J u U. destruct (in_dec pair_dec (block_of q) bs) as [D|D]; [apply K2; auto|]. unfold at_pixel. fold (idx (i_nx g) q). rewrite K1 by auto. destruct J as [J|J]; [|contradiction]. rewrite <- J in *. unfold at_pixel in U. assert (u = v) by congruence. subst u. apply P2; auto.
    + cbn [bind]. destruct (IH m B' Lm) as (m' & E' & L' & K). exists m'. split; [exact E'|]. split; auto. intros q Q. destruct (K q Q) as (K1 & K2). split.
      * intros H. apply K1. destruct H as [H|[H|H]]; auto. right. right. intros J. apply H. right. exact J.
      * intros O Sb J u U. apply K2; auto. destruct J as [J|J]; auto. congruence.
Qed.
