(** Theorems about the auxiliary programs: histogram, stratified sample, stack, tile grid. *)
From Coq Require Import Reals Lra Sorting.Sorted Sorting.Permutation.
From Flocq Require Import Core.
From Verif Require Import Base BaseFacts Loops LoopsFacts ChunkProofs RoundModel RoundFacts CubeModel CubeSpec CubeProofs ToolModel ToolSpec ToolProofs ToolSample ToolGrid.

(** ** C96 Histogram *)
Theorem C96_histogram nodata img : Forall (Forall in_short) img -> in_short nodata -> exists h, histogram (Some nodata) img = Ret h /\ is_histogram nodata img h.
Proof. apply histogram_spec. Qed.
Theorem C96_counts nodata img h : Forall (Forall in_short) img -> in_short nodata -> histogram (Some nodata) img = Ret h ->
  forall v, v <> nodata -> In v (all_values img) -> exists n, In (v, n) h /\ n = zlen (filter (fun x => x =? v) (all_values img)).
Proof.
  intros S D E v N I. destruct (C96_histogram nodata img S D) as (h' & E' & _ & H). rewrite E in E'. injection E' as <-. exists (zlen (filter (fun x => x =? v) (all_values img))). split; auto. apply H. split; auto.
  split; [|now apply how_many_eq]. assert (In v (filter (fun x => x =? v) (all_values img))) as J by (apply filter_In; split; auto; lia). unfold zlen. destruct (filter _ _); [destruct J|cbn [length]; lia].
Qed.
Theorem C96_no_nodata img : histogram None img = Exit.
Proof. reflexivity. Qed.
Example C96_case : exists h, histogram (Some (-9999)) [[3; 5; 3]; [-9999; -32768; 3]] = Ret h /\ In (3, 3) h /\ In (5, 1) h /\ In (-32768, 1) h /\ ~ In (-9999, 1) h /\ ~ In (4, 0) h.
Proof.
  destruct (C96_histogram (-9999) [[3; 5; 3]; [-9999; -32768; 3]]) as (h & E & _ & H); [repeat constructor; unfold in_short; lia|unfold in_short; lia|]. exists h. split; auto. rewrite !H, !how_many_eq.
  repeat split; try lia; try reflexivity.
Qed.

(** ** C97 Stratified sample *)
Section Sample.
Variables (rows : list stratum) (nodata : Z) (rand : nat -> Z) (g : geo) (img : list (list Z)).
Hypothesis R0 : forall k, 0 <= rand k.
Lemma sample_inv out : stratified rows (Some nodata) rand g img = Ret out -> exists c pts, ofold (thin_row rows (room rows) c) rows (firstn (Z.to_nat (room rows)) (preselected rows nodata rand g img)) = Ret pts /\
  out = filter pt_keep pts /\ (forall x, c x = zlen (filter (of_class x) (preselected rows nodata rand g img))) /\ Forall2 marked (firstn (Z.to_nat (room rows)) (preselected rows nodata rand g img)) pts.
Proof.
  unfold stratified. destruct (negb _); [discriminate|]. destruct (negb _); [discriminate|]. destruct (in_shortb nodata); [|discriminate].
  destruct (preselect_spec rows (room rows) nodata rand g img) as (c & -> & C). cbn [s_cnt s_pts]. intros E. destruct (ofold _ _ _) as [pts| |] eqn:F; try discriminate. cbn [bind] in E. injection E as <-.
  exists c, pts. repeat split; auto. apply rows_ret in F; auto.
  - intros q I. apply firstn_sub in I. apply (pre_nonneg rows nodata rand g img R0 q I).
  - rewrite firstn_length. lia.
Qed.
End Sample.
(** Every written point is the centre of a valid pixel with the pixel's class, and no pixel is written twice. *)
Theorem C97_points_are_pixels rows nodata rand g img out : (forall k, 0 <= rand k) -> stratified rows (Some nodata) rand g img = Ret out ->
  exists ps : list (Z * Z), NoDup ps /\ Forall2 (fun ij p => value_at img (fst ij) (snd ij) (pt_class p) /\ pt_class p <> nodata /\
    centre (g_x0 g) (g_dx g) (g_y0 g) (g_dy g) (fst ij) (snd ij) (pt_x p) (pt_y p)) ps out.
Proof.
  intros R0 E. destruct (sample_inv _ _ _ _ _ R0 _ E) as (c & pts & _ & -> & _ & M). clear E c. unfold preselected, pre_from in M. rewrite firstn_map in M.
  set (src := filter (taken rows rand) (combine (seq 0 (length (valid_pixels nodata img))) (valid_pixels nodata img))) in *.
  assert (NoDup (map (fun kp : nat * (Z * Z * Z) => fst (snd kp)) src)) as Ns.
  { unfold src. apply nodup_map_filter. rewrite <- (map_map snd fst). rewrite combine_snd by apply seq_length.
    unfold valid_pixels. apply nodup_map_filter. assert (forall l : list (Z * Z * Z), NoDup l -> (forall i j v w, In (i, j, v) l -> In (i, j, w) l -> v = w) -> NoDup (map fst l)) as G.
    { induction l as [|[ij v] l IH]; intros N U; cbn [map fst]; [constructor|]. inversion N as [|? ? Na Nl]; subst. constructor; [|apply IH; auto; intros i j v' w ? ?; apply (U i j); right; auto].
      intros I. apply in_map_iff in I. destruct I as ([ij' w] & Q & I). cbn in Q. subst ij'. destruct ij as [i j]. rewrite (U i j v w) in Na; [contradiction|left; auto|right; auto]. }
    apply G; [apply pixels_nodup|]. intros i j v w A B. apply pixels_In in A, B. destruct A as (l & A1 & A2), B as (l' & B1 & B2). rewrite A1 in B1. injection B1 as <-. rewrite A2 in B2. now injection B2. }
  assert (NoDup src) as Nd by (eapply NoDup_map_inv; eauto).
  assert (NoDup (firstn (Z.to_nat (room rows)) src)) as Nf by (rewrite <- (firstn_skipn (Z.to_nat (room rows)) src) in Nd; clear -Nd; induction (firstn _ src) as [|x l IH]; [constructor|cbn in Nd; inversion Nd; subst; constructor; [rewrite in_app_iff in *; tauto|auto]]).
  destruct (marked_source (to_point rand g) _ _ M Nf) as (cs & F & I & Nc).
  exists (map (fun kp => fst (snd kp)) cs). split.
  - assert (forall l : list (nat * (Z * Z * Z)), NoDup l -> incl l src -> NoDup (map (fun kp => fst (snd kp)) l)) as G.
    { assert (forall a b, In a src -> In b src -> fst (snd a) = fst (snd b) -> a = b) as Inj.
      { clear -Ns. induction src as [|x l IH]; intros a b Ia Ib Q; [destruct Ia|]. cbn [map] in Ns. inversion Ns as [|? ? Nx Nl]; subst. destruct Ia as [<-|Ia], Ib as [<-|Ib]; auto; exfalso; apply Nx; [rewrite Q|rewrite <- Q]; now apply (in_map (fun kp : nat * (Z * Z * Z) => fst (snd kp))). }
      induction l as [|x l IH]; intros N L; cbn [map]; [constructor|]. inversion N as [|? ? Nx Nl]; subst. constructor; [|apply IH; auto; intros y Iy; apply L; right; auto].
      intros J. apply in_map_iff in J. destruct J as (y & Q & J). apply Nx. rewrite (Inj x y); auto; apply L; [left|right]; auto. }
    apply G; auto. intros x Ix. apply I in Ix. now apply firstn_sub in Ix.
  - assert (forall x, In x cs -> In (snd x) (valid_pixels nodata img)) as V.
    { intros x Ix. apply I in Ix. apply firstn_sub in Ix. unfold src in Ix. apply filter_In in Ix. destruct x as [k px]. destruct Ix as [Ix _]. now apply in_combine_r in Ix. }
    clear -F V. induction F as [|x p cs out Q F IH]; cbn [map]; constructor; [|apply IH; intros y Iy; apply V; right; auto]. subst p. specialize (V x (or_introl eq_refl)). unfold valid_pixels in V. apply filter_In in V. destruct x as [k [[i j] v]]. cbn [fst snd] in *. destruct V as [V1 V2].
    cbn [to_point point_at pt_class pt_x pt_y fst snd]. split; [now apply pixels_In|]. split; [lia|]. unfold centre, to_point, point_at; cbn [pt_x pt_y fst snd]. split; lra.
Qed.
(** Of no class more points than requested. *)
Theorem C97_at_most rows nodata rand g img out r : (forall k, 0 <= rand k) -> NoDup (map st_class rows) -> In r rows -> stratified rows (Some nodata) rand g img = Ret out ->
  zlen (filter (fun p => pt_class p =? st_class r) out) <= Z.max 0 (Ztrunc (st_size r)).
Proof.
  intros R0 N I E. destruct (sample_inv _ _ _ _ _ R0 _ E) as (c & pts & F & -> & C & M). rewrite filter_both.
  change (fun x => (pt_class x =? st_class r) && pt_keep x) with (live (st_class r)). eapply (rows_bound rows (room rows) c r r rows); eauto.
  - now apply entry_in.
  - intros q J. apply firstn_sub in J. apply (pre_nonneg rows nodata rand g img R0 q J).
  - rewrite firstn_length. lia.
  - rewrite (live_pre rows nodata rand g img) by (intros q; apply firstn_sub). rewrite C. unfold zlen.
    rewrite <- (firstn_skipn (Z.to_nat (room rows)) (preselected rows nodata rand g img)) at 2. rewrite filter_app, app_length. lia.
Qed.
(** If the preselected pixels fit the memory reserved for them, then each class gets the requested number or, if fewer were preselected, all of these; those with the smallest numbers are taken. *)
Theorem C97_size_partial rows nodata rand g img : (forall k, 0 <= rand k) -> NoDup (map st_class rows) -> in_short nodata -> in_int (room rows) ->
  (forall r, In r rows -> in_short (st_class r) /\ in_int (Ztrunc (st_size r)) /\ 0 <= Ztrunc (st_size r)) ->
  zlen (preselected rows nodata rand g img) <= room rows ->
  exists out, stratified rows (Some nodata) rand g img = Ret out /\ forall r, In r rows ->
    let before := filter (of_class (st_class r)) (preselected rows nodata rand g img) in
    let after := filter (of_class (st_class r)) out in
    zlen after = Z.min (Ztrunc (st_size r)) (zlen before) /\
    exists dropped, Permutation before (after ++ dropped) /\ forall a b, In a after -> In b dropped -> (pt_draw a <= pt_draw b)%R.
Proof.
  intros R0 N D Ir H Fit. unfold stratified.
  replace (forallb _ rows) with true by (symmetry; apply forallb_forall; intros r I; destruct (H r I) as (S & _); unfold in_short, offset, cells in *; lia).
  replace (in_intb (room rows)) with true by (unfold in_int, in_intb in *; lia). replace (in_shortb nodata) with true by (unfold in_short, in_shortb in *; lia). cbn [negb].
  destruct (preselect_spec rows (room rows) nodata rand g img) as (c & -> & C). cbn [s_cnt s_pts].
  rewrite firstn_all2 by (unfold zlen in Fit; lia). set (pre := preselected rows nodata rand g img) in *.
  assert (forall x, filter (live x) pre = filter (of_class x) pre) as L by (intros x; apply (live_pre rows nodata rand g img); auto).
  destruct (rows_exact rows (room rows) c rows pre N) as (pts & -> & M & G & _).
  - apply pre_nonneg. auto.
  - auto.
  - intros r I. destruct (H r I) as (_ & A & B). split; [now apply entry_in|]. split; auto. rewrite L, C. unfold zlen. lia.
  - cbn [bind]. exists (filter pt_keep pts). split; auto. intros r I. set (before := filter (of_class (st_class r)) pre). set (after := filter (of_class (st_class r)) (filter pt_keep pts)). destruct (H r I) as (_ & A & B). destruct (G r I) as (dr & P & Ld & O). rewrite L in P. fold before in P.
    assert (after = filter (live (st_class r)) pts) as Ea by (unfold after; rewrite filter_both; reflexivity). rewrite <- Ea in *. split; [|exists dr; auto].
    apply Permutation_length in P. rewrite app_length in P. rewrite C in Ld. fold before in Ld. unfold zlen in *. lia.
Qed.
(** Only listed classes if no draw is zero. *)
Theorem C97_only_requested_partial rows nodata rand g img out : (forall k, 0 < rand k) -> stratified rows (Some nodata) rand g img = Ret out -> forall p, In p out -> In (pt_class p) (map st_class rows).
Proof.
  intros R1 E p I. assert (forall k, 0 <= rand k) as R0 by (intros k; specialize (R1 k); lia). destruct (sample_inv _ _ _ _ _ R0 _ E) as (c & pts & _ & -> & _ & M). apply (marked_kept _ _ M) in I; [|intros q J; apply firstn_sub in J; now apply pre_keep in J].
  apply firstn_sub in I. unfold preselected, pre_from in I. apply in_map_iff in I. destruct I as (kp & <- & I). apply filter_In in I. destruct I as [_ T]. unfold taken, admits in T. change (pt_class (to_point rand g kp)) with (snd (snd kp)).
  destruct (entry rows (snd (snd kp))) as [e|] eqn:En.
  - unfold entry in En. apply find_some in En. destruct En as [J Q]. apply in_rev in J. apply in_map_iff. exists e. split; auto. lia.
  - exfalso. apply Rle_bool_true in T || (destruct (Rle_bool_spec (draw (rand (fst kp))) 0) as [T'|T']; [|discriminate]).
    assert (0 < draw (rand (fst kp)))%R as P; [|lra]. unfold draw. apply Rlt_le_trans with (bpow radix2 (-31)); [apply bpow_gt_0|].
    rewrite <- (Rmult_1_l (bpow radix2 (-31))). rewrite <- (rnd64_dyadic 1 (-31)) by lia. apply rnd64_le.
    change (bpow radix2 (-31)) with (/ IZR 2147483648)%R. unfold rand_max. rewrite Rmult_1_l. specialize (R1 (fst kp)). assert (1 <= IZR (rand (fst kp)))%R by (apply IZR_le; lia). lra.
Qed.
(** If the requested number of each class is at least half of the stated number of pixels, and the image has only these classes, exactly the requested number is found. *)
Theorem C97_size_large_share_partial rows nodata rand g img : (forall k, 0 <= rand k <= rand_max) -> NoDup (map st_class rows) -> in_short nodata -> in_int (room rows) ->
  (forall r, In r rows -> in_short (st_class r) /\ st_class r <> nodata /\ in_int (Ztrunc (st_size r)) /\ 0 <= Ztrunc (st_size r) /\ (0 < st_count r <= 2 * st_size r)%R) ->
  (forall v, In v (all_values img) -> v = nodata \/ In v (map st_class rows)) ->
  zlen (filter (fun v => negb (v =? nodata)) (all_values img)) <= room rows ->
  exists out, stratified rows (Some nodata) rand g img = Ret out /\ forall r, In r rows ->
    zlen (filter (fun p => pt_class p =? st_class r) out) = Z.min (Ztrunc (st_size r)) (zlen (filter (fun v => v =? st_class r) (all_values img))).
Proof.
  intros R0 N D Ir H Cl Fit.
  assert (preselected rows nodata rand g img = map (to_point rand g) (combine (seq 0 (length (valid_pixels nodata img))) (valid_pixels nodata img))) as P.
  { apply pre_all. intros n px I. unfold valid_pixels in I. apply filter_In in I. destruct I as [I V]. assert (In (snd px) (all_values img)) as J by (unfold all_values; rewrite <- pixels_values; now apply in_map).
    destruct (Cl _ J) as [Q|Q]; [lia|]. apply in_map_iff in Q. destruct Q as (e & Q & Ie). destruct (H e Ie) as (_ & _ & _ & _ & S). rewrite <- Q. apply (admits_share rows _ e); auto; [now apply entry_in|]. apply draw_max. apply R0. }
  destruct (C97_size_partial rows nodata rand g img) as (out & E & G); auto.
  - intros k. apply R0.
  - intros r I. destruct (H r I) as (A & _ & B & C & _). auto.
  - rewrite P. unfold zlen in *. rewrite map_length, combine_length, seq_length, valid_length. unfold all_values in Fit. lia.
  - exists out. split; auto. intros r I. destruct (G r I) as (L & _). destruct (H r I) as (_ & Nn & _). rewrite P in L. cbv zeta in L. unfold zlen in L |- *. rewrite class_count, valid_values in L by auto. exact L.
Qed.
Example C97_case : exists out, stratified [mkStratum 3 1 2] (Some 0) (fun _ => 7) (mkGeo 0 10 0 (-10)) [[3; 0]; [3; 3]] = Ret out /\ zlen (filter (fun p => pt_class p =? 3) out) = 1.
Proof.
  assert (room [mkStratum 3 1 2] = 10) as Rm by (unfold room; cbn [fold_left st_size]; replace ((0 + 1) * 10)%R with (IZR 10) by lra; apply Ztrunc_IZR).
  destruct (C97_size_large_share_partial [mkStratum 3 1 2] 0 (fun _ => 7) (mkGeo 0 10 0 (-10)) [[3; 0]; [3; 3]]) as (out & E & G).
  - unfold rand_max. lia.
  - repeat constructor. intros [].
  - unfold in_short. lia.
  - rewrite Rm. unfold in_int. lia.
  - intros r [<-|[]]. cbn [st_class st_size st_count]. rewrite Ztrunc_IZR. unfold in_short, in_int. repeat split; try lia; lra.
  - intros v [<-|[<-|[<-|[<-|[]]]]]; cbn; auto.
  - rewrite Rm. vm_compute. discriminate.
  - exists out. split; auto. specialize (G (mkStratum 3 1 2) (or_introl eq_refl)). cbn [st_size st_class] in G. rewrite Ztrunc_IZR in G. exact G.
Qed.
(** Classes that are not in the table are sampled when the draw is zero. *)
Lemma draw_0 : draw 0 = 0%R.
Proof. unfold draw. unfold Rdiv. rewrite Rmult_0_l. apply (rnd64_int 0). lia. Qed.
Lemma room_1 c n : room [mkStratum c 1 n] = 10.
Proof. unfold room; cbn [fold_left st_size]; replace ((0 + 1) * 10)%R with (IZR 10) by lra; apply Ztrunc_IZR. Qed.
Theorem C97_unrequested_refuted : exists rows rand img out p, (forall k, 0 <= rand k <= rand_max) /\ stratified rows (Some 0) rand (mkGeo 0 1 0 (-1)) img = Ret out /\ In p out /\ ~ In (pt_class p) (map st_class rows).
Proof.
  pose (rows := [mkStratum 1 1 1]). pose (rand := fun _ : nat => 0).
  assert (forall v, admits rows v (draw (rand 0%nat)) = true) as Ad.
  { intros v. unfold admits. destruct (entry rows v) as [e|] eqn:E; [|apply Rle_bool_true; unfold rand; rewrite draw_0; lra]. unfold entry, rows in E. cbn [rev app find st_class] in E. destruct (1 =? v); [|discriminate]. injection E as <-. cbn [st_count st_size]. rewrite Req_bool_false by lra. apply Rle_bool_true. unfold rand. rewrite draw_0.
    rewrite <- (rnd64_int 0) by lia. apply rnd64_le. apply Rmult_le_pos; [|lra]. rewrite <- (rnd64_int 0) at 1 by lia. apply rnd64_le. lra. }
  assert (preselected rows 0 rand (mkGeo 0 1 0 (-1)) [[1; 2]] = map (to_point rand (mkGeo 0 1 0 (-1))) [(0%nat, (0, 0, 1)); (1%nat, (0, 1, 2))]) as P by (apply pre_all; intros n px _; apply Ad).
  destruct (C97_size_partial rows 0 rand (mkGeo 0 1 0 (-1)) [[1; 2]]) as (out & E & _).
  - unfold rand. lia.
  - repeat constructor. intros [].
  - unfold in_short. lia.
  - unfold rows. rewrite room_1. unfold in_int. lia.
  - intros r [<-|[]]. cbn [st_class st_size]. rewrite Ztrunc_IZR. unfold in_short, in_int. lia.
  - rewrite P. unfold rows. rewrite room_1. cbn. lia.
  - destruct (sample_inv rows 0 rand (mkGeo 0 1 0 (-1)) [[1; 2]] ltac:(unfold rand; lia) out E) as (c & pts & F & -> & C & M).
    exists rows, rand, [[1; 2]], (filter pt_keep pts), (to_point rand (mkGeo 0 1 0 (-1)) (1%nat, (0, 1, 2))). split; [unfold rand, rand_max; lia|]. split; auto. split; [|cbn; lia].
    unfold rows in F. cbn [ofold] in F. fold rows in F. rewrite P in F. replace (room rows) with 10 in F by (symmetry; apply room_1).
    unfold thin_row in F. change (entry rows 1) with (Some (mkStratum 1 1 1)) in F. cbn [st_class st_size] in F. change (entry rows 1) with (Some (mkStratum 1 1 1)) in F. cbn [st_size] in F. rewrite Ztrunc_IZR in F. rewrite C, P in F. cbn in F. injection F as <-. cbn. auto.
Qed.
(** Large draws: no sample although the class has more pixels than requested. *)
Theorem C97_size_refuted : exists r rand img out, (forall k, 0 <= rand k <= rand_max) /\ (IZR (zlen (filter (fun v => v =? st_class r) (all_values img))) = st_count r)%R /\ (1 <= st_size r <= st_count r)%R /\
  stratified [r] (Some 0) rand (mkGeo 0 1 0 (-1)) img = Ret out /\ out = [].
Proof.
  exists (mkStratum 1 1 4), (fun _ => rand_max), [[1; 1; 1; 1]], []. split; [unfold rand_max; lia|]. cbn [st_class st_count st_size all_values concat app filter zlen length Z.of_nat]. split; [reflexivity|]. split; [lra|]. split; auto.
  assert (draw rand_max = 1)%R as Dr by (unfold draw; replace (IZR rand_max / IZR rand_max)%R with 1%R by (unfold rand_max; field); apply (rnd64_int 1); lia).
  assert (admits [mkStratum 1 1 4] 1 (draw rand_max) = false) as Ad.
  { unfold admits. change (entry [mkStratum 1 1 4] 1) with (Some (mkStratum 1 1 4)). cbn [st_count st_size]. rewrite Req_bool_false by lra. apply Rle_bool_false. rewrite Dr.
    assert (rnd64 (1 / 4) = 1 / 4)%R as -> by (generalize (rnd64_dyadic 1 (-2)); change (bpow radix2 (-2)) with (/ 4)%R; unfold Rdiv; intros G; apply G; lia).
    replace (1 / 4 * 2)%R with (1 / 2)%R by lra. rewrite (rnd64_half 1) by lia. lra. }
  unfold stratified. rewrite room_1. cbn [forallb st_class negb andb]. change ((0 <=? 1 + offset) && (1 + offset <? cells) && true) with true. change (in_intb 10) with true. change (in_shortb 0) with true. cbn [negb].
  destruct (preselect_spec [mkStratum 1 1 4] 10 0 (fun _ => rand_max) (mkGeo 0 1 0 (-1)) [[1; 1; 1; 1]]) as (c & -> & C). cbn [s_cnt s_pts].
  assert (preselected [mkStratum 1 1 4] 0 (fun _ => rand_max) (mkGeo 0 1 0 (-1)) [[1; 1; 1; 1]] = []) as P.
  { unfold preselected. change (valid_pixels 0 [[1; 1; 1; 1]]) with [(0, 0, 1); (0, 1, 1); (0, 2, 1); (0, 3, 1)]. rewrite !pre_cons, Ad. reflexivity. }
  rewrite P in *. rewrite firstn_nil. cbn [ofold]. unfold thin_row. cbn [st_class]. change (entry [mkStratum 1 1 4] 1) with (Some (mkStratum 1 1 4)). cbn [st_size]. rewrite Ztrunc_IZR. rewrite C. reflexivity.
Qed.
(** More preselected pixels than memory: the only pixel of another class is lost. *)
Theorem C97_overflow_refuted : exists a b rand img out, (forall k, 0 <= rand k <= rand_max) /\ NoDup (map st_class [a; b]) /\
  (forall r, r = a \/ r = b -> (IZR (zlen (filter (fun v => v =? st_class r) (all_values img))) = st_count r)%R /\ (1 <= st_size r <= st_count r)%R) /\
  stratified [a; b] (Some 0) rand (mkGeo 0 1 0 (-1)) img = Ret out /\ out = [].
Proof.
  pose (a := mkStratum 1 1 30). pose (b := mkStratum 2 1 1). pose (rand := fun _ : nat => 0). pose (img := [2 :: repeat 1 30]). pose (g := mkGeo 0 1 0 (-1)).
  assert (forall v, v = 1 \/ v = 2 -> admits [a; b] v (draw 0) = true) as Ad.
  { intros v V. unfold admits. rewrite draw_0. destruct V as [-> | ->]; [change (entry [a; b] 1) with (Some a)|change (entry [a; b] 2) with (Some b)]; cbn [a b st_count st_size]; rewrite Req_bool_false by lra; apply Rle_bool_true;
    rewrite <- (rnd64_int 0) by lia; apply rnd64_le; (apply Rmult_le_pos; [|lra]); rewrite <- (rnd64_int 0) at 1 by lia; apply rnd64_le; lra. }
  assert (room [a; b] = 20) as Rm by (unfold room, a, b; cbn [fold_left st_size]; replace ((0 + 1 + 1) * 10)%R with (IZR 20) by lra; apply Ztrunc_IZR).
  assert (preselected [a; b] 0 rand g img = map (to_point rand g) (combine (seq 0 (length (valid_pixels 0 img))) (valid_pixels 0 img))) as P.
  { apply pre_all. intros n px I. apply Ad. unfold valid_pixels in I. apply filter_In in I. destruct I as [I _]. assert (In (snd px) (concat img)) as J by (rewrite <- pixels_values; now apply in_map).
    cbn [img concat app] in J. rewrite app_nil_r in J. destruct J as [<-|J]; auto. apply repeat_spec in J. auto. }
  set (pre := preselected [a; b] 0 rand g img) in *.
  assert (firstn 20 pre = to_point rand g (0%nat, (0, 0, 2)) :: firstn 19 (skipn 1 pre)) as F0 by (rewrite P; reflexivity).
  assert (forall q, In q (firstn 20 pre) -> pt_class q = 1 \/ pt_class q = 2) as Cl.
  { intros q I. apply firstn_sub in I. rewrite P in I. apply in_map_iff in I. destruct I as (kp & <- & I). change (pt_class (to_point rand g kp)) with (snd (snd kp)). destruct kp as [k px]. apply in_combine_r in I. unfold valid_pixels in I. apply filter_In in I. destruct I as [I _].
    assert (In (snd px) (concat img)) as J by (rewrite <- pixels_values; now apply in_map). cbn [img concat app] in J. rewrite app_nil_r in J. cbn [snd]. destruct J as [<-|J]; auto. apply repeat_spec in J. auto. }
  assert (nonneg (firstn 20 pre)) as NN by (intros q I; apply firstn_sub in I; apply (pre_nonneg [a; b] 0 rand g img ltac:(unfold rand; lia) q I)).
  destruct (thin_any 1 20 29 (firstn 20 pre) NN) as (q & E & M & _ & Z0); [unfold zlen; rewrite firstn_length; lia|lia|].
  destruct Z0 as (Z1 & Z2); [pose proof (filter_le (live 1) (firstn 20 pre)) as Le; rewrite firstn_length in Le; lia|].
  assert (filter pt_keep q = []) as Q.
  { assert (forall x, In x q -> pt_class x = 1 \/ pt_class x = 2) as Cq. { apply (marked_class (fun c => c = 1 \/ c = 2) _ _ M). exact Cl. }
    assert (forall x, In x q -> pt_class x = 1 -> pt_keep x = false) as K1. { intros x I C. destruct (pt_keep x) eqn:K; auto. assert (In x (filter (live 1) q)) as J by (apply filter_In; split; auto; unfold live, of_class; rewrite C, K; reflexivity). rewrite Z1 in J. destruct J. }
    rewrite F0 in M. inversion M as [|? y ? l' My M']; subst. specialize (Z2 y eq_refl). cbn [filter]. rewrite Z2.
    assert (forall x, In x l' -> pt_class x = 1) as Cx. { assert (forall z, In z (firstn 19 (skipn 1 pre)) -> pt_class z = 1) as C1. { intros z I. apply (in_map pt_class) in I. rewrite <- firstn_map, <- skipn_map, P, classes_of in I. change (In (pt_class z) (repeat 1 19)) in I. now apply repeat_spec in I. }
      apply (marked_class (fun c => c = 1) _ _ M'). exact C1. }
    assert (forall l, (forall x, In x l -> pt_keep x = false) -> filter pt_keep l = []) as Fn by (induction l as [|x l IH]; intros H; auto; cbn [filter]; rewrite (H x (or_introl eq_refl)); apply IH; intros; apply H; right; auto).
    apply Fn. intros x I. apply K1; [right; auto|auto]. }
  exists a, b, rand, img, []. split; [unfold rand, rand_max; lia|]. split; [repeat constructor; cbn; lia|]. split.
  { intros r [-> | ->]; unfold a, b; cbn [st_count st_size st_class]; (split; [apply f_equal; reflexivity|lra]). }
  split; auto. unfold stratified. fold g. rewrite Rm. change (forallb _ [a; b]) with true. change (in_intb 20) with true. change (in_shortb 0) with true. cbn [negb].
  destruct (preselect_spec [a; b] 20 0 rand g img) as (c & -> & C). cbn [s_cnt s_pts]. fold pre. change (Z.to_nat 20) with 20%nat. cbn [ofold].
  assert (c 1 = 30) as C1 by (rewrite C; fold pre; rewrite P; unfold zlen; rewrite class_count; reflexivity). assert (c 2 = 1) as C2 by (rewrite C; fold pre; rewrite P; unfold zlen; rewrite class_count; reflexivity).
  unfold thin_row. change (st_class a) with 1. change (st_class b) with 2. change (entry [a; b] 1) with (Some a). change (entry [a; b] 2) with (Some b). rewrite C1, C2. unfold a, b. cbn [st_size]. rewrite Ztrunc_IZR. change (in_intb 1) with true. change (Z.to_nat (30 - 1)) with 29%nat. rewrite E. cbn [bind]. change (Z.to_nat (1 - 1)) with 0%nat. cbn [thin bind]. now rewrite Q.
Qed.
(** The format can never be chosen. *)
Theorem C97_format_refuted f l : In (OptF f) l -> sample_options l = None.
Proof.
  intros I. unfold sample_options. destruct (fold_left _ l _) as [r h] eqn:E. destruct (existsb _ l); auto. cbn [negb].
  assert (h = true) as ->; [|reflexivity].
  assert (forall l r h r' h', fold_left (fun (a : options * bool) x => let '(r, f) := a in match x with OptO n => (mkOptions (Some n) (op_format r) (op_band r), f) | OptF n => (mkOptions (op_out r) (Some n) (op_band r), true) | OptB b => (mkOptions (op_out r) (op_format r) b, f) end) l (r, h) = (r', h') -> h = true \/ In (OptF f) l -> h' = true) as G.
  { induction l0 as [|x l0 IH]; cbn [fold_left]; intros r0 h0 r' h' Q C; [injection Q as <- <-; destruct C as [C|[]]; auto|].
    destruct x; apply IH in Q; auto; destruct C as [C|[C|C]]; auto; discriminate. }
  eapply G; [exact E|auto].
Qed.
Theorem C97_output_without_format n : sample_options [OptO n] = Some (mkOptions (Some n) None 1).
Proof. reflexivity. Qed.

(** ** C98 Tile grid and tile finder *)
Definition on_tile (t : tile_poly) (x y : Z) : Prop := in_rect (tp_left t) (tp_right t) (tp_top t) (tp_bottom t) x y.
(** Every point of the projected box is in a listed tile, namely the one that the other programs assign to it. *)
Theorem C98_covers_box c corners : 0 < size_x c -> 0 < size_y c -> exists l, tabulate c corners = Some l /\ forall x y, in_box corners x y ->
  exists f t, tile_find c x y = Some f /\ In t l /\ tp_x t = id_x f /\ tp_y t = id_y f /\ on_tile t x y.
Proof.
  intros SX SY. destruct (tabulate_spec c corners SX SY) as (p & q & p' & q' & l & E & A & B & _ & _ & L). exists l. split; auto. intros x y (le & ri & to & bo & Il & Ir & It & Ib & Hx & Hy).
  destruct (tile_find_covers c x y SX SY) as (u & v & F & C).
  pose proof (smallest_le _ _ (in_map fst _ _ Il)). pose proof (largest_ge _ _ (in_map fst _ _ Ir)). pose proof (smallest_le _ _ (in_map snd _ _ Ib)). pose proof (largest_ge _ _ (in_map snd _ _ It)).
  destruct (fun U V => tile_find_le c _ _ x y _ _ SX SY U V A F) as (A1 & A2); [lia|lia|]. destruct (fun U V => tile_find_le c x y _ _ _ _ SX SY U V F B) as (B1 & B2); [lia|lia|]. cbn [id_x id_y] in *.
  exists (mkFound (corner_x c u) (corner_y c v) u v), (polygon c u v). split; auto. split; [rewrite L; apply poly_In; exists u, v; auto|]. split; [reflexivity|]. split; [reflexivity|].
  unfold on_tile, in_rect, polygon, covers, corner_x, corner_y in *; cbn [tp_left tp_right tp_top tp_bottom]. nia.
Qed.
(** No tile is listed that does not touch the box. *)
Theorem C98_touch_box c corners l t : 0 < size_x c -> 0 < size_y c -> corners <> [] -> (forall p, In p corners -> in_int (fst p) /\ in_int (snd p)) -> tabulate c corners = Some l -> In t l -> exists x y, in_box corners x y /\ on_tile t x y.
Proof.
  intros SX SY N R E I. destruct (tabulate_spec c corners SX SY) as (p & q & p' & q' & l' & E' & _ & _ & C & C' & L). rewrite E in E'. injection E' as <-. rewrite L in I. apply poly_In in I. destruct I as (px & py & Hx & Hy & ->).
  assert (map fst corners <> []) as N1 by (destruct corners; cbn; congruence). assert (map snd corners <> []) as N2 by (destruct corners; cbn; congruence).
  assert (forall z, In z (map fst corners) -> in_int z) as R1 by (intros z J; apply in_map_iff in J; destruct J as (a & <- & J); apply R; auto). assert (forall z, In z (map snd corners) -> in_int z) as R2 by (intros z J; apply in_map_iff in J; destruct J as (a & <- & J); apply R; auto).
  pose proof (smallest_in _ N1 ltac:(intros z J; specialize (R1 z J); unfold in_int in R1; lia)) as S1. pose proof (largest_in _ N1 ltac:(intros z J; specialize (R1 z J); unfold in_int in R1; lia)) as S2.
  pose proof (smallest_in _ N2 ltac:(intros z J; specialize (R2 z J); unfold in_int in R2; lia)) as S3. pose proof (largest_in _ N2 ltac:(intros z J; specialize (R2 z J); unfold in_int in R2; lia)) as S4.
  pose proof (largest_ge _ _ S1) as O1. pose proof (largest_ge _ _ S3) as O2.
  set (x0 := smallest (map fst corners)) in *. set (x1 := largest (map fst corners)) in *. set (y0 := smallest (map snd corners)) in *. set (y1 := largest (map snd corners)) in *.
  exists (Z.max x0 (corner_x c px)), (Z.min y1 (corner_y c py)). split.
  - apply in_map_iff in S1, S2, S3, S4. destruct S1 as (a1 & Q1 & I1), S2 as (a2 & Q2 & I2), S3 as (a3 & Q3 & I3), S4 as (a4 & Q4 & I4). exists a1, a2, a4, a3. repeat split; auto; try lia; unfold covers, corner_x, corner_y in *; nia.
  - unfold on_tile, in_rect, polygon, covers, corner_x, corner_y in *; cbn [tp_left tp_right tp_top tp_bottom]. nia.
Qed.
(** Tiles do not overlap, each is listed once. *)
Theorem C98_tiles_disjoint c corners l : 0 < size_x c -> 0 < size_y c -> tabulate c corners = Some l -> NoDup l /\
  forall s t x y, In s l -> In t l -> inside_rect (tp_left s) (tp_right s) (tp_top s) (tp_bottom s) x y -> on_tile t x y -> s = t.
Proof.
  intros SX SY E. destruct (tabulate_spec c corners SX SY) as (p & q & p' & q' & l' & E' & _ & _ & _ & _ & L). rewrite E in E'. injection E' as <-. split.
  - rewrite L. apply (NoDup_map_inv (fun t => (tp_y t, tp_x t))). apply lex_nodup. rewrite concat_map, map_map. apply (sorted_concat (fun y => y)).
    + generalize (zrange_sorted q q'). auto.
    + intros py _. rewrite map_map. cbn [tp_x tp_y polygon]. split; [|intros k I; apply in_map_iff in I; destruct I as (f & <- & _); reflexivity]. apply (sorted_map Z.lt); [|apply zrange_sorted]. intros u v Q. right. cbn. lia.
  - intros s t x y Is It A B. rewrite L in Is, It. apply poly_In in Is, It. destruct Is as (a & b & _ & _ & ->), It as (a' & b' & _ & _ & ->). destruct (covers_interior c a b a' b' x y SX SY) as (-> & ->); auto.
    + unfold interior, inside_rect, polygon, corner_x, corner_y in *; cbn [tp_left tp_right tp_top tp_bottom] in A. nia.
    + unfold covers, on_tile, in_rect, polygon, corner_x, corner_y in *; cbn [tp_left tp_right tp_top tp_bottom] in B. nia.
Qed.
Example C98_case : exists l, tabulate (mkCube 0 0 10 10 1) [(-5, 3); (12, 3); (12, -7); (-5, -7)] = Some l /\ map (fun t => (tp_x t, tp_y t)) l = [(-1, -1); (0, -1); (1, -1); (-1, 0); (0, 0); (1, 0)].
Proof. eexists. split; [reflexivity|reflexivity]. Qed.
(** The box is given in geographic coordinates: its inside need not be covered. *)
Theorem C98_geographic_box_refuted : exists c corners l lon lat x y,
  (forall u v, In (u, v) corners -> exists a b, (a = -90 \/ a = 90)%R /\ (b = 60 \/ b = 80)%R /\ polar a b = (IZR u, IZR v)) /\
  (forall a b, (a = -90 \/ a = 90)%R -> (b = 60 \/ b = 80)%R -> exists u v, In (u, v) corners /\ polar a b = (IZR u, IZR v)) /\
  tabulate c corners = Some l /\ (-90 <= lon <= 90)%R /\ (60 <= lat <= 80)%R /\ polar lon lat = (IZR x, IZR y) /\ forall t, In t l -> ~ on_tile t x y.
Proof.
  assert (forall b, polar (-90) b = (- (90 - b), 0)%R) as P1. { intros b. unfold polar. replace (-90 * PI / 180)%R with (- (PI / 2))%R by field. rewrite sin_neg, cos_neg, sin_PI2, cos_PI2. f_equal; ring. }
  assert (forall b, polar 90 b = (90 - b, 0)%R) as P2. { intros b. unfold polar. replace (90 * PI / 180)%R with (PI / 2)%R by field. rewrite sin_PI2, cos_PI2. f_equal; ring. }
  assert (polar 0 60 = (0, -30)%R) as P3. { unfold polar. replace (0 * PI / 180)%R with 0%R by field. rewrite sin_0, cos_0. f_equal; ring. }
  eexists (mkCube (-100) 100 10 10 1), [(-30, 0); (30, 0); (-10, 0); (10, 0)], _, 0%R, 60%R, 0, (-30).
  split; [|split; [|split; [reflexivity|split; [lra|split; [lra|split; [exact P3|]]]]]].
  - intros u v [Q|[Q|[Q|[Q|[]]]]]; injection Q as <- <-; [exists (-90)%R, 60%R|exists 90%R, 60%R|exists (-90)%R, 80%R|exists 90%R, 80%R]; (split; [auto|split; [auto|rewrite ?P1, ?P2; f_equal; lra]]).
  - intros a b [-> | ->] [-> | ->]; rewrite ?P1, ?P2; [exists (-30), 0|exists (-10), 0|exists 30, 0|exists 10, 0]; (split; [cbn; auto|f_equal; lra]).
  - intros t I. cbn in I. unfold on_tile, in_rect. repeat (destruct I as [<-|I]; [cbn; lia|]). destruct I.
Qed.
(** The tile finder: the pixel holds the point. *)
Theorem C98_finder_partial c x y p q : cube_ok c -> (res c | size_x c) -> (res c | size_y c) -> interior c p q x y -> exists i j, find_pixel c x y = Some (p, q, i, j) /\
  0 <= i < size_x c / res c /\ 0 <= j < size_y c / res c /\ corner_x c p + i * res c <= x < corner_x c p + (i + 1) * res c /\ corner_y c q - (j + 1) * res c < y <= corner_y c q - j * res c.
Proof.
  intros (SX & SY & R) (kx & Kx) (ky & Ky) I. unfold find_pixel. rewrite (tile_find_interior c p q x y SX SY I). cbn [id_x id_y tile_x tile_y]. unfold interior in I. do 2 eexists. split; [reflexivity|].
  rewrite !Z.quot_div_nonneg by lia. rewrite Kx, Ky, !Z.div_mul by lia. rewrite Kx, Ky in I.
  pose proof (Z.div_mod (x - corner_x c p) (res c) ltac:(lia)). pose proof (Z.mod_pos_bound (x - corner_x c p) (res c) R). pose proof (Z.div_mod (corner_y c q - y) (res c) ltac:(lia)). pose proof (Z.mod_pos_bound (corner_y c q - y) (res c) R).
  pose proof (Z.div_pos (x - corner_x c p) (res c) ltac:(lia) R). pose proof (Z.div_pos (corner_y c q - y) (res c) ltac:(lia) R).
  pose proof (Z.div_lt_upper_bound (x - corner_x c p) (res c) kx R ltac:(lia)). pose proof (Z.div_lt_upper_bound (corner_y c q - y) (res c) ky R ltac:(lia)). repeat split; try lia; nia.
Qed.
(** On a tile border right of or below the origin the pixel is not in the tile. *)
Theorem C98_finder_border_refuted : exists c x y p q i j, cube_ok c /\ (res c | size_x c) /\ (res c | size_y c) /\ find_pixel c x y = Some (p, q, i, j) /\ ~ i < size_x c / res c /\ ~ j < size_y c / res c.
Proof. exists (mkCube 0 0 100 100 10), 100, (-100), 0, 0, 10, 10. split; [unfold cube_ok; cbn; lia|]. split; [exists 10; reflexivity|]. split; [exists 10; reflexivity|]. split; [reflexivity|]. cbn. lia. Qed.
Example C98_finder_case : find_pixel (mkCube 0 0 100 100 10) 234 (-55) = Some (2, 0, 3, 5) /\ interior (mkCube 0 0 100 100 10) 2 0 234 (-55).
Proof. split; [reflexivity|]. unfold interior, corner_x, corner_y. cbn. lia. Qed.

(** ** C99 Stack *)
Theorem C99_all_bands od ins l : stack od ins = Some l -> all_bands (map in_nb ins) l.
Proof. apply stack_all. Qed.
Theorem C99_order od ins l : stack od ins = Some l ->
  ((forall a b, In a ins -> In b ins -> in_nb a = in_nb b) -> StronglySorted lex_lt (map swap l)) /\ ((exists a b, In a ins /\ In b ins /\ in_nb a <> in_nb b) -> StronglySorted lex_lt l).
Proof.
  intros E. apply stack_inv in E. destruct E as (first & rest & -> & _ & _ & [[(x & I & N) ->]|[H ->]]).
  - split; [|intros _; apply by_file_sorted]. intros A. exfalso. apply N. apply A; [right|left]; auto.
  - split; [intros _; apply by_band_sorted|]. intros (a & b & Ia & Ib & N). exfalso. apply N. rewrite (H a Ia), (H b Ib). reflexivity.
Qed.
Theorem C99_refuses od ins l : stack od ins = Some l -> forall a, In a ins -> in_dir a = od /\ forall b, In b ins -> in_nx a = in_nx b /\ in_ny a = in_ny b.
Proof.
  assert (forall x y, same x y = true -> x = y) as Eq. { induction x as [|u x IH]; intros [|v y] H; try discriminate; auto. cbn in H. apply andb_prop in H. destruct H as [A B]. f_equal; [lia|auto]. }
  intros E a Ia. apply stack_inv in E. destruct E as (first & rest & _ & H & O & _). destruct (H a Ia) as (D & X & Y). apply Eq in D, O. split; [congruence|]. intros b Ib. destruct (H b Ib) as (_ & X' & Y'). lia.
Qed.
Theorem C99_position_refuted : exists od a b l, in_geo a <> in_geo b /\ stack od [a; b] = Some l.
Proof. exists [1], (mkInput [1] 2 2 1 [0; 10]%R), (mkInput [1] 2 2 1 [5000; 30]%R), [(0, 1); (1, 1)]. split; [|reflexivity]. cbn. intros Q. injection Q. intros. lra. Qed.
Example C99_case : stack [1] [mkInput [1] 2 2 2 []; mkInput [1] 2 2 2 []] = Some [(0, 1); (1, 1); (0, 2); (1, 2)] /\ stack [1] [mkInput [1] 2 2 2 []; mkInput [1] 2 2 1 []] = Some [(0, 1); (0, 2); (1, 1)].
Proof. split; reflexivity. Qed.

Print Assumptions C96_histogram.
Print Assumptions C96_counts.
Print Assumptions C96_no_nodata.
Print Assumptions C97_points_are_pixels.
Print Assumptions C97_at_most.
Print Assumptions C97_size_partial.
Print Assumptions C97_only_requested_partial.
Print Assumptions C97_size_large_share_partial.
Print Assumptions C97_unrequested_refuted.
Print Assumptions C97_size_refuted.
Print Assumptions C97_overflow_refuted.
Print Assumptions C97_format_refuted.
Print Assumptions C97_output_without_format.
Print Assumptions C98_covers_box.
Print Assumptions C98_touch_box.
Print Assumptions C98_tiles_disjoint.
Print Assumptions C98_geographic_box_refuted.
Print Assumptions C98_finder_partial.
Print Assumptions C98_finder_border_refuted.
Print Assumptions C99_all_bands.
Print Assumptions C99_order.
Print Assumptions C99_refuses.
Print Assumptions C99_position_refuted.
