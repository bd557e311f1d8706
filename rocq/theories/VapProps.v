(** Water vapour of Sentinel-2: C159. *)
From Coq Require Import Reals Lra Lia ZifyBool Permutation.
From Flocq Require Import Core.
From Verif Require Import Base BaseFacts Loops LoopsFacts RoundModel RoundFacts StatsSpec CldGrow ChunkProofs VapModel VapSpec VapProofs.
#[local] Open Scope Z_scope.

(** Every entry of the table that is read was computed, for a water vapour and a cosine at most 0.01 below those asked for. *)
Theorem C159_table : forall A (f : R -> R -> A) s0 v0 s1 v1 w m, s0 = rnd32 s0 -> v0 = rnd32 v0 -> (0 <= s0)%R -> (0 <= v0)%R -> (s0 <= m <= s1 \/ v0 <= m <= v1)%R -> (0 <= m <= 1)%R -> (0 <= w <= 7)%R ->
  exists w' m', table f (km_min s0 v0) (km_max s1 v1) (slot w) (slot m) = Some (Some (f w' m')) /\ (w - 10001 / 1000000 <= w' <= w + 1 / 1000000)%R /\ (m - 10001 / 1000000 <= m' <= m + 1 / 1000000)%R.
Proof.
  intros A f s0 v0 s1 v1 w m Es Ev Ps Pv Lo M Wr. eexists _, _. split; [apply table_ok; auto; tauto|]. split; apply grid; lra.
Qed.
Example C159_table_case : exists w' m', table (fun w m => (w, m)) (km_min (1 / 2) (3 / 4)) (km_max (5 / 8) 1) (slot 2) (slot (3 / 4)) = Some (Some (w', m')) /\ (2 - 10001 / 1000000 <= w' <= 2 + 1 / 1000000)%R.
Proof.
  destruct (C159_table (R * R) (fun w m => (w, m)) (1 / 2) (3 / 4) (5 / 8) 1 2 (3 / 4)) as (w' & m' & T & B & _); try lra.
  - symmetry. exact (rnd32_dyadic 1 (-1) ltac:(lia) ltac:(lia)).
  - symmetry. exact (rnd32_dyadic 3 (-2) ltac:(lia) ltac:(lia)).
  - exists w', m'. auto.
Qed.

(** The blocks of an image in order are a distribution to one thread. *)
Lemma blocks_shares g : whole_blocks g -> shares g [blocks (i_nx g) (i_ny g)].
Proof.
  intros (X & Y & Mx & My & _). unfold shares. cbn [concat]. rewrite app_nil_r.
  assert (N6 : forall n, 0 <= n -> n mod 6 = 0 -> forall k, In k (every_sixth n) <-> 0 <= k < n /\ k mod 6 = 0).
  { intros n P M k. unfold every_sixth. rewrite in_map_iff. pose proof (Z.div_mod n 6 ltac:(lia)). rewrite M in *. assert (Q : (n + 5) / 6 = n / 6) by (replace (n + 5) with (5 + (n / 6) * 6) by lia; rewrite Z.div_add by lia; reflexivity). rewrite Q. split.
    - intros (j & <- & I). apply zupto_In in I. rewrite Z.mul_comm, Z.mod_mul by lia. lia.
    - intros (A & B). exists (k / 6). pose proof (Z.div_mod k 6 ltac:(lia)). split; [lia|]. apply zupto_In. lia. }
  split.
  - apply product_nodup; unfold every_sixth; (apply FinFun.Injective_map_NoDup; [intros a b E; lia | apply zupto_nodup']).
  - intros (i, j). unfold blocks, is_block, in_image. cbn [fst snd]. rewrite in_flat_map. split.
    + intros (x & I & J). apply in_map_iff in J as (y & E & J). injection E as -> ->. apply (N6 _ Y My) in I. apply (N6 _ X Mx) in J. tauto.
    + intros ((A & B) & C & D). exists i. split; [apply (N6 _ Y My); auto|]. apply in_map_iff. exists j. split; [reflexivity|]. apply (N6 _ X Mx); auto.
Qed.

(** The map: each block has its estimate; pixels without one get the mean of all, and are flagged. *)
Theorem C159_map : forall opt seen g ts, whole_blocks g -> shares g ts -> exists rec wvp flag, water_vapor opt seen g ts = Ret (wvp, flag) /\
  map fst rec = concat ts /\ Forall (fun x => exists start, estimate_is opt seen g start (fst x) (snd x)) rec /\
  zlen wvp = i_nx g * i_ny g /\ zlen flag = i_nx g * i_ny g /\
  forall q, in_image g q ->
    (at_pixel (i_off g) (i_nx g) q true -> at_pixel wvp (i_nx g) q 0 /\ at_pixel flag (i_nx g) q false) /\
    (at_pixel (i_off g) (i_nx g) q false -> exists r v, In (block_of q, r) rec /\ at_pixel wvp (i_nx g) q v /\ 0 <= v <= 7000 /\
      ((exists e, r = Some e /\ milli e v /\ 0 < v /\ at_pixel flag (i_nx g) q false) \/
       (r = None \/ exists e, r = Some e /\ milli e 0) /\
         (estimates rec <> [] /\ milli (rnd32 (mean (estimates rec))) v /\ at_pixel flag (i_nx g) q true \/
          estimates rec = [] /\ v = 0 /\ at_pixel flag (i_nx g) q false))).
Proof.
  intros opt seen g ts W Sh. destruct (scene_ok opt seen g W ts Sh) as (a & rec & E & F & M & I). pose proof I as (_ & _ & _ & Mi). destruct (fill_ok g W rec a I) as (wvp & flag & E2 & L1 & L2 & P).
  assert (Bl : forall b, In b (map fst rec) -> is_block g b) by (intros b J; apply (proj2 Sh); rewrite <- F; exact J).
  exists rec, wvp, flag. split; [unfold water_vapor; fold (start g); rewrite E; exact E2|]. split; auto. split; [|split; auto; split; auto].
  { rewrite Forall_forall in M |- *. intros x J. apply (made_is opt seen g W); auto. apply Bl. apply in_map. exact J. }
  intros q Q. destruct (P q Q) as (o & v & O & V & R). cbv zeta in R. destruct (Mi q Q) as (M1 & M2). split.
  - intros O'. unfold at_pixel in *. assert (o = true) by congruence. subst o. cbn [negb andb] in R. destruct R as (R1 & R2). split; auto. rewrite R1. rewrite (M1 O') in V. congruence.
  - intros O'. assert (o = false) by (unfold at_pixel in *; congruence). subst o. destruct (M2 O') as (M3 & _). destruct (in_rec g rec ts q F Sh Q) as (r & Ir). pose proof (M3 r Ir) as V'. cbn [negb andb] in R.
    assert (EB : forall e, r = Some e -> (0 < e <= 7)%R). { intros e ->. apply (made_bounds opt seen g W (block_of q)); [apply (of_block g q Q)|]. rewrite Forall_forall in M. apply (M _ Ir). }
    assert (EN : 0 < zlen (estimates rec) -> estimates rec <> []) by (intros Z0 Z1; rewrite Z1 in Z0; unfold zlen in Z0; cbn in Z0; lia).
    assert (EM : estimates rec <> [] -> (0 <= rnd32 (mean (estimates rec)) <= 7)%R). { intros N. apply (rnd32_between 0 7); [lia|lia|]. apply mean_bounds; auto. apply (estimates_bounds opt seen g W); auto. }
    destruct r as [e|].
    + specialize (EB e eq_refl). destruct (stored_ok e ltac:(lra)) as (S1 & S2). assert (v = stored e) by (unfold at_pixel in *; congruence). subst v. destruct (Z.ltb_spec 0 (stored e)); cbn [negb andb] in R; destruct R as (R1 & R2).
      * exists (Some e), (stored e). split; auto. split; auto. split; auto. left. exists e. auto.
      * assert (Z0 : stored e = 0) by lia. rewrite Z0 in *. destruct (Z.ltb_spec 0 (zlen (estimates rec))) as [K|K].
        -- destruct (stored_ok _ (EM (EN K))) as (S3 & S4). exists (Some e), (stored (rnd32 (mean (estimates rec)))). split; auto. split; auto. split; auto. right. split; [right; exists e; auto|]. left. auto.
        -- exists (Some e), 0. split; auto. split; auto. split; [lia|]. right. split; [right; exists e; auto|]. right. split; auto. destruct (estimates rec); auto. unfold zlen in K. cbn [length] in K. lia.
    + assert (v = 0) by (unfold at_pixel in *; congruence). subst v. cbn [Z.ltb negb andb] in R. change (0 <? 0) with false in R. cbn [negb andb] in R. destruct (Z.ltb_spec 0 (zlen (estimates rec))) as [K|K]; destruct R as (R1 & R2).
      * destruct (stored_ok _ (EM (EN K))) as (S3 & S4). exists None, (stored (rnd32 (mean (estimates rec)))). split; auto. split; auto. split; auto. right. split; auto.
      * exists None, 0. split; auto. split; auto. split; [lia|]. right. split; auto. right. split; auto. destruct (estimates rec); auto. unfold zlen in K. cbn [length] in K. lia.
Qed.

(** If the minimiser finds the same minimum from every start, the map does not depend on the distribution to threads. *)
Theorem C159_threads : forall opt seen g ts ts', (forall w w' r m z b, opt w r m z b = opt w' r m z b) -> whole_blocks g -> shares g ts -> shares g ts' -> water_vapor opt seen g ts = water_vapor opt seen g ts'.
Proof.
  intros opt seen g ts ts' O W S S'. destruct (scene_ok opt seen g W ts S) as (a & rec & E & F & M & I). destruct (scene_ok opt seen g W ts' S') as (a' & rec' & E' & F' & M' & I'). unfold water_vapor. fold (start g). rewrite E, E'. cbn [bind].
  assert (U : forall b r r', made opt seen g (b, r) -> made opt seen g (b, r') -> r = r').
  { intros b r r' (w & x & H) (w' & x' & H'). cbn [fst snd] in *. unfold estimate in *. destruct (gather g b) as [s| |] eqn:G; cbn [bind] in *; try discriminate. destruct (snd s =? 0); [congruence|]. destruct (get_at (i_meas g) (fst b * i_nx g + snd b)); cbn [of_option bind] in *; [|discriminate]. destruct (negb (seen b)); [congruence|]. rewrite (O w w') in H. destruct (_ || _); congruence. }
  assert (IN : forall t t' r r', shares g t -> shares g t' -> map fst r = concat t -> map fst r' = concat t' -> Forall (made opt seen g) r -> Forall (made opt seen g) r' -> forall x, In x r -> In x r').
  { intros t t' r r' T T' Fr Fr' Mr Mr' (b, v) J. assert (B : In b (map fst r')) by (rewrite Fr'; apply T', T; rewrite <- Fr; apply in_map_iff; exists (b, v); auto). apply in_map_iff in B as ((b', v') & Eb & B). cbn [fst] in Eb. subst b'. rewrite Forall_forall in Mr, Mr'. rewrite (U b v v' (Mr _ J) (Mr' _ B)). exact B. }
  assert (P : Permutation rec rec').
  { apply NoDup_Permutation; [apply (NoDup_map_inv fst); rewrite F; apply S | apply (NoDup_map_inv fst); rewrite F'; apply S' |]. intros x. split; [apply (IN ts ts') | apply (IN ts' ts)]; auto. }
  assert (PE : Permutation (estimates rec) (estimates rec')) by (apply Permutation_flat_map; exact P).
  assert (PS : forall l l', Permutation l l' -> sum (fun x : R => x) l = sum (fun x => x) l') by (induction 1; cbn [sum]; lra).
  destruct I as (I1 & I2 & L & Mi), I' as (J1 & J2 & L' & Mj).
  assert (EA : a_map a = a_map a').
  { apply get_at_ext; [congruence|]. intros p Bp. rewrite L in Bp. destruct (idx_onto g p Bp ltac:(apply W)) as (q & Q & <-). destruct (Mi q Q) as (A1 & A2). destruct (Mj q Q) as (B1 & B2). destruct (at_val (i_off g) g q ltac:(apply W) Q) as (o & Ho). unfold at_pixel in *. fold (idx (i_nx g) q) in *. destruct o; [rewrite A1, B1; auto|].
    destruct (in_rec g rec ts q F S Q) as (r & Ir). rewrite (proj1 (A2 Ho) r Ir). rewrite (proj1 (B2 Ho) r); auto. eapply Permutation_in; eauto. }
  unfold fill. rewrite EA, I1, I2, J1, J2. unfold zlen. rewrite (PS _ _ PE), (Permutation_length PE). reflexivity.
Qed.

(** Transmittance: that of the water vapour of the pixel, if the first pixel of its block is valid. *)
Theorem C159_gas_partial : forall opt seen g ts tg wvp flag, whole_blocks g -> shares g ts -> water_vapor opt seen g ts = Ret (wvp, flag) -> exists tgm, gas tg seen g wvp = Ret tgm /\ zlen tgm = i_nx g * i_ny g /\
  forall q, in_image g q ->
    (at_pixel (i_off g) (i_nx g) q true \/ seen (block_of q) = false -> at_pixel tgm (i_nx g) q 0) /\
    (at_pixel (i_off g) (i_nx g) q false -> seen (block_of q) = true -> at_pixel (i_off g) (i_nx g) (block_of q) false ->
       exists v k, at_pixel wvp (i_nx g) q v /\ at_pixel tgm (i_nx g) q (tg k (block_of q)) /\ 0 <= k <= 700 /\ (IZR v / 1000 - 10002 / 1000000 <= IZR k / 100 <= IZR v / 1000 + 2 / 1000000)%R).
Proof.
  intros opt seen g ts tg wvp flag W Sh E.
  assert (SAME : zlen wvp = i_nx g * i_ny g /\ forall q, in_image g q -> at_pixel (i_off g) (i_nx g) q false -> at_pixel (i_off g) (i_nx g) (block_of q) false -> exists v, at_pixel wvp (i_nx g) q v /\ at_pixel wvp (i_nx g) (block_of q) v).
  { destruct (scene_ok opt seen g W ts Sh) as (a & rec & E1 & F & M & I). pose proof I as (_ & _ & _ & Mi). destruct (fill_ok g W rec a I) as (wvp' & flag' & E2 & L1 & _ & P). unfold water_vapor in E. fold (start g) in E. rewrite E1 in E. cbn [bind] in E. rewrite E2 in E. injection E as -> ->. split; auto.
    intros q Q O Ob. destruct (of_block g q Q) as (Bq & _). destruct (P q Q) as (o & v & Ho & V & R & _). destruct (P _ (proj1 Bq)) as (o' & v' & Ho' & V' & R' & _). assert (o = false) by (unfold at_pixel in *; congruence). assert (o' = false) by (unfold at_pixel in *; congruence). subst o o'.
    destruct (in_rec g rec ts q F Sh Q) as (r & Ir). pose proof (proj1 (proj2 (Mi q Q) O) r Ir) as X. pose proof (proj1 (proj2 (Mi _ (proj1 Bq)) Ob) r ltac:(rewrite (block_own g _ Bq); exact Ir)) as X'. assert (v = v') by (unfold at_pixel in *; congruence). subst v'. eexists. split; [exact R | exact R']. }
  destruct SAME as (Lw & SAME). pose proof (blocks_shares g W) as (_ & Bs). cbn [concat] in Bs. rewrite app_nil_r in Bs.
  destruct (gas_fold_ok tg seen g wvp W Lw (blocks (i_nx g) (i_ny g)) (repeat 0 (Z.to_nat (i_nx g * i_ny g)))) as (tgm & G & Lt & K); [intros b; apply Bs | apply zlen_repeat; exact W|].
  exists tgm. split; [exact G|]. split; auto. intros q Q. destruct (K q Q) as (K1 & K2). destruct (of_block g q Q) as (Bq & _). split.
  - intros H. unfold at_pixel. fold (idx (i_nx g) q). rewrite K1 by tauto. apply get_repeat. apply idx_range. exact Q.
  - intros O S Ob. destruct (SAME q Q O Ob) as (v & V & V'). destruct (C159_map opt seen g ts W Sh) as (rec & w2 & f2 & E2 & _ & _ & _ & _ & Pm). rewrite E in E2. injection E2 as <- <-. destruct (Pm q Q) as (_ & Pm2). destruct (Pm2 O) as (r & v2 & _ & V2 & Bv & _). assert (v2 = v) by (unfold at_pixel in *; congruence). subst v2.
    destruct (line_ok v Bv) as (L1 & L2). exists v, (line v). split; auto. split; [apply K2; auto; apply Bs; exact Bq|]. auto.
Qed.
(** At the edge of the valid area: if the first pixel of a block is not valid, its valid pixels get the transmittance without water vapour. *)
Theorem C159_gas_edge : forall opt seen g ts tg wvp flag tgm q, whole_blocks g -> shares g ts -> water_vapor opt seen g ts = Ret (wvp, flag) -> gas tg seen g wvp = Ret tgm ->
  in_image g q -> at_pixel (i_off g) (i_nx g) q false -> seen (block_of q) = true -> at_pixel (i_off g) (i_nx g) (block_of q) true -> at_pixel tgm (i_nx g) q (tg 0 (block_of q)).
Proof.
  intros opt seen g ts tg wvp flag tgm q W Sh E G Q O S Ob. destruct (of_block g q Q) as (Bq & _). destruct (C159_map opt seen g ts W Sh) as (rec & w2 & f2 & E2 & _ & _ & Lw & _ & Pm). rewrite E in E2. injection E2 as <- <-. destruct (Pm _ (proj1 Bq)) as (Pm1 & _). destruct (Pm1 Ob) as (Z0 & _).
  pose proof (blocks_shares g W) as (_ & Bs). cbn [concat] in Bs. rewrite app_nil_r in Bs.
  destruct (gas_fold_ok tg seen g wvp W Lw (blocks (i_nx g) (i_ny g)) (repeat 0 (Z.to_nat (i_nx g * i_ny g)))) as (tgm' & G' & Lt & K); [intros b; apply Bs | apply zlen_repeat; exact W|].
  change (gas tg seen g wvp = Ret tgm') in G'. rewrite G' in G. injection G as ->. destruct (K q Q) as (_ & K2). specialize (K2 O S (proj2 (Bs _) Bq) 0 Z0).
  replace (line 0) with 0 in K2; auto. unfold line. replace (IZR 0 / 1000)%R with 0%R by lra. rewrite rnd64_0, rnd32_0. unfold slot. unfold Rdiv. rewrite Rmult_0_l, rnd64_0. symmetry. apply (Zfloor_IZR 0).
Qed.

(** ** A scene of one block whose first pixel is off *)
Definition g1 (first : bool) : img := mkImg 6 6 (first :: repeat false 35) (repeat false 36) (repeat false 36) (repeat 2000 36) (repeat 1500 36) (repeat 1 36).
Definition two (_ _ : R) (_ _ : Z) (_ : Z * Z) : R := 2%R.
Lemma g1_whole f : whole_blocks (g1 f).
Proof. unfold whole_blocks, g1. cbn. lia. Qed.
Lemma g1_shares f : shares (g1 f) [[(0, 0)]].
Proof. exact (blocks_shares (g1 f) (g1_whole f)). Qed.
(** Estimate 2 everywhere, so 2000 in all valid pixels. *)
Example C159_map_case : exists wvp flag, water_vapor two (fun _ => true) (g1 true) [[(0, 0)]] = Ret (wvp, flag) /\ at_pixel wvp 6 (0, 0) 0 /\ at_pixel wvp 6 (3, 4) 2000 /\ at_pixel flag 6 (3, 4) false.
Proof.
  destruct (C159_map two (fun _ => true) (g1 true) [[(0, 0)]] (g1_whole true) (g1_shares true)) as (rec & wvp & flag & E & F & M & _ & _ & P). exists wvp, flag. split; auto.
  destruct (P (0, 0)) as (P0 & _); [unfold in_image; cbn; lia|]. destruct (P0 eq_refl) as (Z0 & _). split; auto.
  destruct (P (3, 4)) as (_ & P1); [unfold in_image; cbn; lia|]. destruct (P1 eq_refl) as (r & v & Ir & V & _ & H). change (block_of (3, 4)) with (0, 0) in Ir.
  rewrite Forall_forall in M. destruct (M _ Ir) as (st & l & (_ & U) & R). cbn [fst snd] in R.
  assert (T : rnd32 2 = 2%R) by (apply (rnd32_int 2); lia).
  assert (Er : r = Some 2%R).
  { destruct r as [e|].
    - destruct R as (_ & _ & _ & m & z & _ & -> & _). unfold two. rewrite T. reflexivity.
    - destruct R as [-> | [R|(m & z & _ & _ & R)]]; [|discriminate|unfold two in R; rewrite T in R; lra]. exfalso. apply (U (3, 4) 2000 1). unfold used. split; [unfold in_image; cbn; lia|]. repeat split; lia. }
  assert (ML : forall v, milli 2 v -> v = 2000).
  { intros u (x & -> & B). replace (2 * 1000)%R with (IZR 2000) in B by lra. rewrite (rnd32_int 2000) in B by lia. destruct B as (B1 & B2). apply le_IZR in B1. apply lt_IZR in B2. lia. }
  destruct H as [(e & Ee & Me & _ & Fl) | ([Er'|(e & Ee & Me)] & _)]; [|congruence|].
  - rewrite Er in Ee. injection Ee as <-. rewrite <- (ML _ Me). auto.
  - rewrite Er in Ee. injection Ee as <-. apply ML in Me. discriminate.
Qed.
(** So the valid pixel with water vapour 2 gets the transmittance of line 0 instead of line 200. *)
Theorem C159_gas_edge_refuted : exists opt seen g ts wvp flag tgm, whole_blocks g /\ shares g ts /\ water_vapor opt seen g ts = Ret (wvp, flag) /\ gas (fun k _ => k) seen g wvp = Ret tgm /\
  at_pixel (i_off g) 6 (3, 4) false /\ at_pixel wvp 6 (3, 4) 2000 /\ at_pixel tgm 6 (3, 4) 0.
Proof.
  destruct C159_map_case as (wvp & flag & E & _ & V & _). destruct (C159_gas_partial two (fun _ => true) (g1 true) [[(0, 0)]] (fun k _ => k) wvp flag (g1_whole true) (g1_shares true) E) as (tgm & G & _).
  exists two, (fun _ => true), (g1 true), [[(0, 0)]], wvp, flag, tgm. split; [apply g1_whole|]. split; [apply g1_shares|]. split; auto. split; auto. split; [reflexivity|]. split; auto.
  apply (C159_gas_edge two (fun _ => true) (g1 true) [[(0, 0)]] (fun k _ => k) wvp flag tgm (3, 4)); auto using g1_whole, g1_shares; try reflexivity. unfold in_image. cbn. lia.
Qed.
(** An image that does not consist of whole blocks is read behind its end. *)
Theorem C159_size_refuted : exists g, let n := i_nx g * i_ny g in zlen (i_off g) = n /\ zlen (i_shadow g) = n /\ zlen (i_water g) = n /\ zlen (i_ref g) = n /\ zlen (i_meas g) = n /\ zlen (i_dem g) = n /\
  forall opt seen, water_vapor opt seen g [blocks (i_nx g) (i_ny g)] = UB.
Proof.
  exists (mkImg 6 7 (repeat true 42) (repeat false 42) (repeat false 42) (repeat 0 42) (repeat 0 42) (repeat 0 42)). cbv zeta. repeat split.
Qed.
Example C159_threads_case : exists g ts ts', ts <> ts' /\ whole_blocks g /\ shares g ts /\ shares g ts' /\ water_vapor two (fun _ => true) g ts = water_vapor two (fun _ => true) g ts'.
Proof.
  set (g := mkImg 12 6 (repeat false 72) (repeat false 72) (repeat false 72) (repeat 2000 72) (repeat 1500 72) (repeat 1 72)). assert (W : whole_blocks g) by (unfold whole_blocks, g; cbn; lia). pose proof (blocks_shares g W) as S. change (blocks (i_nx g) (i_ny g)) with [(0, 0); (0, 6)] in S.
  assert (S' : shares g [[(0, 6)]; [(0, 0)]]). { destruct S as (_ & B). split; [cbn; repeat constructor; cbn; intuition congruence|]. intros b. rewrite <- B. cbn. tauto. }
  exists g, [[(0, 0); (0, 6)]], [[(0, 6)]; [(0, 0)]]. split; [discriminate|]. split; auto. split; auto. split; auto. apply C159_threads; auto.
Qed.
Example C159_gas_case : exists wvp flag tgm, water_vapor two (fun _ => true) (g1 false) [[(0, 0)]] = Ret (wvp, flag) /\ gas (fun k _ => k) (fun _ => true) (g1 false) wvp = Ret tgm /\ exists v k, at_pixel wvp 6 (3, 4) v /\ at_pixel tgm 6 (3, 4) k /\ 0 <= k <= 700.
Proof.
  destruct (C159_map two (fun _ => true) (g1 false) [[(0, 0)]] (g1_whole false) (g1_shares false)) as (rec & wvp & flag & E & _). destruct (C159_gas_partial two (fun _ => true) (g1 false) [[(0, 0)]] (fun k _ => k) wvp flag (g1_whole false) (g1_shares false) E) as (tgm & G & _ & P). exists wvp, flag, tgm. split; auto. split; auto.
  destruct (P (3, 4)) as (_ & H); [unfold in_image; cbn; lia|]. destruct (H eq_refl eq_refl eq_refl) as (v & k & A & B & C & _). exists v, k. auto.
Qed.

Print Assumptions C159_table.
Print Assumptions C159_map.
Print Assumptions C159_threads.
Print Assumptions C159_gas_partial.
Print Assumptions C159_gas_edge.
Print Assumptions C159_gas_edge_refuted.
Print Assumptions C159_size_refuted.
