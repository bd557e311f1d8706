(** C146-C148: sharpening of the 20 m bands of Sentinel-2 (ImproPhe, STARFM, regression). *)
From Coq Require Import Reals Lra Lia ZifyBool Permutation.
From Flocq Require Import Core.
From Verif Require Import Base BaseFacts RoundModel RoundFacts StatsSpec ChunkProofs LsmProofs ImpModel ImpSpec ImpPredict ResModel ResSpec ResProofs.
#[local] Open Scope R_scope.

(** ** C146 ImproPhe *)
(** Sharpened values are means over the similar pixels around, more similar ones count more. *)
Theorem C146_mean sc p : (0 < z_nx sc)%Z -> (0 <= p < z_nx sc * z_ny sc)%Z -> z_use sc p = true ->
  (forall b q, In b (z_coarse sc) -> (0 <= q < z_nx sc * z_ny sc)%Z -> in_short (b q)) ->
  let D := unlike (z_fine sc) p in let near q := in_circle (z_nx sc) (z_ny sc) 2 (p / z_nx sc) (p mod z_nx sc) q /\ z_use sc q = true in
  exists lim qs w, chosen2 D near lim /\ NoDup qs /\ (forall q, In q qs <-> near q /\ D q < lim) /\ In p qs /\ fair D qs w /\
  merge2 sc p = Ret (map (fun b => Ztrunc (weighted_mean w (fun q => IZR (b q)) qs)) (z_coarse sc)).
Proof.
  intros NX P U Sh D near. pose proof (row_range (z_nx sc) (z_ny sc) p NX P) as (Rr & Rc). pose proof (at_pos (z_nx sc) p NX) as E. assert (NY : (0 < z_ny sc)%Z) by lia.
  assert (E' : (p / z_nx sc * z_nx sc + p mod z_nx sc)%Z = p) by lia.
  pose proof (improphe2_ok sc (p / z_nx sc) (p mod z_nx sc) NX Rr Rc) as H. rewrite E' in H. destruct (H U Sh) as (lim & qs & w & A & B & C & F & G & K). exists lim, qs, w. split; [exact A|]. split; [exact B|]. split; [exact C|]. split; [exact F|]. split; [exact G|]. unfold merge2. rewrite K. cbn [bind]. rewrite U. reflexivity.
Qed.
(** So they are never out of the range of the values around, and a uniform area stays as it is. *)
Theorem C146_range sc p b lo hi : (0 < z_nx sc)%Z -> (0 <= p < z_nx sc * z_ny sc)%Z -> z_use sc p = true ->
  (forall b q, In b (z_coarse sc) -> (0 <= q < z_nx sc * z_ny sc)%Z -> in_short (b q)) ->
  (forall k, nth_error (z_coarse sc) k = Some b -> (forall q, in_circle (z_nx sc) (z_ny sc) 2 (p / z_nx sc) (p mod z_nx sc) q -> z_use sc q = true -> (lo <= b q <= hi)%Z) ->
  exists v l, merge2 sc p = Ret l /\ nth_error l k = Some v /\ (lo <= v <= hi)%Z).
Proof.
  intros NX P U Sh k K B. destruct (C146_mean sc p NX P U Sh) as (lim & qs & w & _ & _ & C & F & (G & _) & E). exists (Ztrunc (weighted_mean w (fun q => IZR (b q)) qs)). eexists. split; [exact E|]. split; [rewrite nth_error_map, K; reflexivity|].
  assert (W : IZR lo <= weighted_mean w (fun q => IZR (b q)) qs <= IZR hi). { apply weighted_mean_between; [intros N; rewrite N in F; destruct F|intros q Q; apply G; auto|]. intros q Q. apply C in Q as ((Q1 & Q2) & _). specialize (B q Q1 Q2). split; apply IZR_le; lia. }
  destruct W as (W1 & W2). apply Ztrunc_le in W1, W2. rewrite Ztrunc_IZR in W1, W2. lia.
Qed.
(** Clouds, shadows and nodata are left alone. *)
Theorem C146_masked sc p : (0 < z_nx sc)%Z -> z_use sc p = false -> merge2 sc p = Ret (map (fun b => b p) (z_coarse sc)).
Proof. intros NX U. pose proof (at_pos (z_nx sc) p NX) as E. unfold merge2, improphe2. replace (p / z_nx sc * z_nx sc + p mod z_nx sc)%Z with p by lia. rewrite U. reflexivity. Qed.
(** In double arithmetic a pixel without similar neighbours may lose a digit. *)
Theorem C146_kept_refuted : ~ (forall t, (0 <= t <= 10000)%Z -> lone_pixel t = t).
Proof. intros H. specialize (H 3%Z ltac:(lia)). rewrite lone_3 in H. lia. Qed.
Definition pair2 : scene2 := mkS2 2 1 (fun _ => false) (fun _ => true) [fun q => (1000 + 10 * q)%Z] [fun q => (2000 + 100 * q)%Z].
Example C146_example : (forall b q, In b (z_coarse pair2) -> (0 <= q < z_nx pair2 * z_ny pair2)%Z -> in_short (b q)) /\ (exists v l, merge2 pair2 0 = Ret l /\ nth_error l 0 = Some v /\ (2000 <= v <= 2100)%Z) /\ unlike (z_fine pair2) 0 1 = 0.001.
Proof.
  assert (Sh : forall b q, In b (z_coarse pair2) -> (0 <= q < z_nx pair2 * z_ny pair2)%Z -> in_short (b q)) by (intros b q [<-|[]] Q; cbn in Q; unfold in_short; lia). split; [exact Sh|]. split.
  - apply (C146_range pair2 0 (fun q => (2000 + 100 * q)%Z) 2000 2100); try reflexivity; try exact Sh; [cbn; lia|]. intros q (Q & _) _. cbn in Q. lia.
  - unfold unlike, mean, size. cbn [map z_fine pair2 sum length INR]. replace (IZR (1000 + 10 * 0) - IZR (1000 + 10 * 1)) with (-10) by (cbn; lra). rewrite Rabs_left by lra. lra.
Qed.

(** ** C147 STARFM *)
(** Every pixel gets a mean of what similar pixels have in the fine bands, changed by how much the coarse band differs there; the pixel itself always counts. *)
Theorem C147_mean sc fine coarse target slice r i j : let p := (i * z_nx sc + j)%Z in (0 < r)%Z -> (0 <= i < z_ny sc)%Z -> (0 <= j < z_nx sc)%Z -> z_off sc p = false ->
  (forall k, 0 <= slice k) -> Rabs (coarse 0%Z p - target p) < 32767 ->
  exists sel, (exists k, In (k, p) sel) /\ convex (starfm_at sc fine coarse target slice r i j) (map (fun kq => fine (fst kq) (snd kq) + (target (snd kq) - coarse (fst kq) (snd kq))) sel) /\
  forall k q, In (k, q) sel -> (k = 0 \/ k = 1)%Z /\ (0 <= q < z_nx sc * z_ny sc)%Z /\ z_off sc q = false /\ (Z.abs (q / z_nx sc - i) <= r)%Z /\ (Z.abs (q mod z_nx sc - j) <= r)%Z /\ Rabs (fine k q - fine k p) <= slice k.
Proof.
  intros p R I J O SL BD. set (keep d k := let np := ((i + fst d) * z_nx sc + (j + snd d))%Z in
     negb (outside sc (i + fst d) (j + snd d)) && negb (z_off sc np) && negb (Rlt_bool (slice k) (Rabs (fine k np - fine k p))) &&
     (Rlt_bool (Rabs (coarse k np - target np)) (min_rc coarse target p + unc_r) || Rlt_bool (Rabs (coarse k np - fine k np)) (min_rf fine coarse p + unc_r))).
  set (dk := flat_map (fun d => map (fun k => (d, k)) (filter (keep d) pairs)) (LsmModel.kernel r)).
  set (pos d := ((i + fst d) * z_nx sc + (j + snd d))%Z). set (mk (e : Z * Z * Z) := mkCand (snd (fst e)) (fst (fst e)) (fine (snd e) (pos (fst e))) (coarse (snd e) (pos (fst e)) - target (pos (fst e))) (coarse (snd e) (pos (fst e)) - fine (snd e) (pos (fst e)))).
  assert (CA : candidates sc fine coarse target slice r i j = map mk dk).
  { unfold candidates, dk. generalize (LsmModel.kernel r). intros l. induction l as [|d l IH]; cbn [flat_map map]; [reflexivity|]. rewrite map_app, IH. f_equal. unfold candidates_at. fold p. fold (pos d). unfold keep. cbv zeta. fold (pos d).
    destruct (outside sc (i + fst d) (j + snd d)); cbn [negb andb]; [cbn; reflexivity|]. destruct (z_off sc (pos d)); cbn [negb andb]; [cbn; reflexivity|]. rewrite map_map. unfold pairs. cbn [flat_map filter app].
    destruct (Rlt_bool (slice 0%Z) (Rabs (fine 0%Z (pos d) - fine 0%Z p))), (Rlt_bool (slice 1%Z) (Rabs (fine 1%Z (pos d) - fine 1%Z p))); cbn [negb andb app map filter];
    repeat match goal with |- context [if ?b then _ else _] => destruct b; cbn [app map] end; reflexivity. }
  assert (CE : exists k, In ((0, 0)%Z, k) dk).
  { destruct (least_ok (map (fun k => coarse k p - target p) pairs)) as (L1 & L2 & [L3|(x & X & L3)]).
    - exfalso. pose proof (L1 (coarse 0%Z p - target p) ltac:(left; reflexivity)). lra.
    - apply in_map_iff in X as (k & <- & K). exists k. unfold dk. apply in_flat_map. exists (0, 0)%Z. split; [apply kernel_In; lia|]. apply in_map_iff. exists k. split; [reflexivity|]. apply filter_In. split; [exact K|]. unfold keep. cbn [fst snd]. rewrite !Z.add_0_r. fold p. rewrite O.
      assert (outside sc i j = false) as -> by (unfold outside; lia). cbn [negb andb]. rewrite Rminus_diag_eq, Rabs_R0 by reflexivity. rewrite Rlt_bool_false by apply SL. cbn [negb andb]. unfold min_rc. rewrite L3. pose proof unc_pos. rewrite Rlt_bool_true by lra. reflexivity. }
  exists (map (fun e => (snd e, pos (fst e))) dk). split; [|split].
  - destruct CE as (k & K). exists k. apply in_map_iff. exists ((0, 0)%Z, k). split; [|exact K]. cbn [fst snd]. unfold pos. cbn [fst snd]. rewrite !Z.add_0_r. reflexivity.
  - unfold starfm_at. fold p. rewrite O, CA. assert (NE : dk <> []) by (destruct CE as (k & K); intros N; rewrite N in K; destruct K). destruct (map mk dk) as [|c l] eqn:M; [destruct dk; [congruence|discriminate]|]. cbv iota beta. rewrite <- M. rewrite !fold_sum, !Rplus_0_l.
    assert (CV : convex (sum (fun x => c_weight r x / sum (c_weight r) (map mk dk) * (c_fine x - c_rc x)) (map mk dk)) (map (fun x => c_fine x - c_rc x) (map mk dk))) by (apply weighted_convex; [rewrite M; discriminate|intros x; apply c_weight_pos, R]).
    assert (EQ : map (fun x => c_fine x - c_rc x) (map mk dk) = map (fun kq => fine (fst kq) (snd kq) + (target (snd kq) - coarse (fst kq) (snd kq))) (map (fun e => (snd e, pos (fst e))) dk)) by (rewrite !map_map; apply map_ext; intros e; unfold mk; cbn [c_fine c_rc fst snd]; ring).
    rewrite <- EQ. exact CV.
  - intros k q Q. apply in_map_iff in Q as ((d & k') & E & Q). cbn [fst snd] in E. injection E as -> <-. unfold dk in Q. apply in_flat_map in Q as (d' & Kd & Q). apply in_map_iff in Q as (k' & E & Q). injection E as -> ->. apply filter_In in Q as (K1 & K2). destruct d as (dy & dx). apply kernel_In in Kd as (D1 & D2).
    unfold keep in K2. cbn [fst snd] in K2. apply andb_prop in K2 as (K2 & _). apply andb_prop in K2 as (K2 & K3). apply andb_prop in K2 as (K4 & K5). assert (IN : (0 <= i + dy < z_ny sc /\ 0 <= j + dx < z_nx sc)%Z) by (unfold outside in K4; lia). unfold pos. cbn [fst snd]. rewrite at_row, at_col by lia. split; [unfold pairs in K1; cbn in K1; lia|]. split; [apply pos_range; lia|].
    split; [destruct (z_off sc ((i + dy) * z_nx sc + (j + dx))); [discriminate|reflexivity]|]. split; [lia|]. split; [lia|]. destruct (Rlt_bool_spec (slice k) (Rabs (fine k ((i + dy) * z_nx sc + (j + dx))%Z - fine k p))) as [|L]; [discriminate|exact L].
Qed.
(** Without nodata the coarse versions of the fine bands are the averages of blocks of 2 x 2 pixels. *)
Theorem C147_blocks_partial sc img i j q : (forall p, z_off sc p = false) -> (0 < z_nx sc)%Z -> (0 <= i < z_ny sc)%Z -> (0 <= j < z_nx sc)%Z -> (i mod 2 = 0)%Z -> (j mod 2 = 0)%Z -> In q (block_pixels sc i j) ->
  block_average sc img q = sum img (block_pixels sc i j) / IZR (zlen (block_pixels sc i j)).
Proof. apply block_average_spec. Qed.
(** The coarse versions of the fine bands are not always averages of blocks: nodata is asked of the wrong pixel. *)
Definition hole : scene2 := mkS2 4 4 (fun p => (p =? 3)%Z) (fun p => negb (p =? 3)%Z) [] [].
Theorem C147_blocks_refuted : ~ (forall sc img i j, (0 <= i < z_ny sc)%Z -> (0 <= j < z_nx sc)%Z -> (i mod 2 = 0)%Z -> (j mod 2 = 0)%Z ->
  (forall q, In q (block_pixels sc i j) -> z_off sc q = false) -> forall q q', In q (block_pixels sc i j) -> In q' (block_pixels sc i j) -> block_average sc img q = block_average sc img q').
Proof.
  intros H. assert (B : block_pixels hole 2 2 = [10; 11; 14; 15]%Z) by reflexivity. specialize (H hole IZR 2%Z 2%Z ltac:(cbn; lia) ltac:(cbn; lia) eq_refl eq_refl). rewrite B in H. specialize (H ltac:(intros q [<-|[<-|[<-|[<-|[]]]]]; reflexivity) 10%Z 15%Z ltac:(cbn; tauto) ltac:(cbn; tauto)).
  unfold block_average in H. change (blocks hole) with [(0, 0, 0); (0, 2, 1); (2, 0, 2); (2, 2, 3)]%Z in H. cbn [fold_left] in H. unfold block_step in H. change (z_off hole 0) with false in H. change (z_off hole 1) with false in H. change (z_off hole 2) with false in H. change (z_off hole 3) with true in H. cbv iota beta in H.
  change (block_pixels hole 0 0) with [0; 1; 4; 5]%Z in H. change (block_pixels hole 0 2) with [2; 6; 7]%Z in H. change (block_pixels hole 2 0) with [8; 9; 12; 13]%Z in H. cbv iota beta in H. cbn [existsb Z.eqb Pos.eqb orb] in H. lra.
Qed.
Example C147_example : let sc := mkS2 3 3 (fun _ => false) (fun _ => true) [] [] in z_off sc 4 = false /\ block_pixels sc 0 2 = [2; 5]%Z /\ length (LsmModel.kernel 1) = 9%nat /\ (0 < unc_r) /\ 0 < c_weight 1 (mkCand 1 0 0.1 0.01 0.02).
Proof. cbv zeta. split; [reflexivity|]. split; [reflexivity|]. split; [reflexivity|]. split; [apply unc_pos|apply c_weight_pos; lia]. Qed.

(** ** C148 Regression *)
(** Nothing happens outside the pixels that are neither nodata nor cloud nor shadow. *)
Theorem C148_masked_partial sc order : forall band band' q, regress sc order band band' -> (forall i j, In (i, j) order -> z_use sc (i * z_nx sc + j) = true -> (i * z_nx sc + j)%Z <> q) -> band' q = band q.
Proof.
  induction order as [|(i, j) o IH]; intros band band' q H N; cbn [regress] in H; [apply H|]. destruct H as (b1 & S & H). rewrite (IH b1 band' q H); [|intros; apply N; auto; right; auto]. unfold regress_step in S. destruct (z_use sc (i * z_nx sc + j)) eqn:U; cbn [negb] in S; [|apply S]. destruct S as (c & _ & _ & S). apply S. intros E. apply (N i j (or_introl eq_refl) U). congruence.
Qed.
(** Bands are changed in place, so the result depends on the order in which threads do the rows. *)
Theorem C148_order_refuted : ~ (forall sc band o1 o2 b1 b2, Permutation o1 o2 -> regress sc o1 band b1 -> regress sc o2 band b2 -> forall q, b1 q = b2 q).
Proof.
  intros H. set (band := fun q : Z => if (q =? 0)%Z then 1000%Z else 3000%Z). set (st := fun (i : Z) (band : Z -> Z) (q : Z) => if (q =? i)%Z then Ztrunc ((IZR (band 0%Z) + IZR (band 1%Z)) / 2) else band q).
  assert (R : forall i k band, (i = 0 \/ i = 1)%Z -> (k = 0 \/ k = 1)%Z -> regress flat2 [(i, 0); (k, 0)]%Z band (st k (st i band))). { intros i k bd A B. cbn [regress]. exists (st i bd). split; [exact (flat_step_ex i bd A)|]. exists (st k (st i bd)). split; [exact (flat_step_ex k (st i bd) B)|reflexivity]. }
  specialize (H flat2 band [(0, 0); (1, 0)]%Z [(1, 0); (0, 0)]%Z _ _ ltac:(apply perm_swap) (R 0%Z 1%Z band ltac:(auto) ltac:(auto)) (R 1%Z 0%Z band ltac:(auto) ltac:(auto)) 0%Z). unfold st in H. cbn [Z.eqb Pos.eqb] in H. unfold band in H. cbn [Z.eqb Pos.eqb] in H.
  assert (E : Ztrunc ((1000 + 3000) / 2) = 2000%Z) by (replace ((1000 + 3000) / 2) with (IZR 2000) by lra; apply Ztrunc_IZR). rewrite E in H. assert (E2 : Ztrunc ((1000 + 2000) / 2) = 1500%Z) by (replace ((1000 + 2000) / 2) with (IZR 1500) by lra; apply Ztrunc_IZR). rewrite E2 in H. lia.
Qed.
(** An image with uniform fine bands: the fit is the mean. *)
Theorem C148_uniform_partial i band band' : (i = 0 \/ i = 1)%Z -> regress_step flat2 i 0 band band' -> band' i = Ztrunc ((IZR (band 0%Z) + IZR (band 1%Z)) / 2) /\ forall q, q <> i -> band' q = band q.
Proof. apply flat_step. Qed.
Example C148_example : exists band', regress_step flat2 0 0 (fun q => if (q =? 0)%Z then 1000%Z else 3000%Z) band'.
Proof. eexists. apply flat_step_ex. auto. Qed.

Print Assumptions C146_mean.
Print Assumptions C146_range.
Print Assumptions C146_masked.
Print Assumptions C146_kept_refuted.
Print Assumptions C147_mean.
Print Assumptions C147_blocks_partial.
Print Assumptions C147_blocks_refuted.
Print Assumptions C148_masked_partial.
Print Assumptions C148_order_refuted.
Print Assumptions C148_uniform_partial.
