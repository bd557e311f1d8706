(** Lemmas about the sharpening of the 20 m bands of Sentinel-2. *)
From Coq Require Import Reals Lra Lia ZifyBool ZifyNat Psatz Sorting.Sorted Arith.
From Flocq Require Import Core.
From Verif Require Import Base BaseFacts Loops LoopsFacts RoundModel RoundFacts StatsModel StatsSpec StatsProofs CsoProofs ChunkProofs LsmProofs ImpModel ImpSpec ImpPredict ResModel ResSpec.
From Verif Require LsmModel MlProofs.
#[local] Open Scope R_scope.

(** ** Similarity *)
Lemma spectral2_spec fine p q : spectral2 fine p q = unlike fine p q.
Proof.
  unfold spectral2, unlike, mean. rewrite sum_map, size_map. unfold size, zlen. rewrite INR_IZR_INZ. f_equal.
  assert (G : forall a, fold_left (fun s b => s + Rabs (IZR (b p - b q) / 10000)) fine a = a + sum (fun b => Rabs (IZR (b p) - IZR (b q)) / 10000) fine).
  { induction fine as [|b l IH]; intros a; cbn [fold_left sum]; [lra|]. rewrite IH, minus_IZR. unfold Rdiv. rewrite Rabs_mult, (Rabs_pos_eq (/ 10000)) by lra. lra. } rewrite G. lra.
Qed.
Lemma unlike_nonneg fine p q : 0 <= unlike fine p q.
Proof.
  unfold unlike, mean. destruct fine as [|b l]; [cbn; lra|]. apply Rmult_le_pos; [rewrite sum_map; apply sum_nonneg; intros; apply Rmult_le_pos; [apply Rabs_pos|lra]|]. left. apply Rinv_0_lt_compat, size_pos. cbn; congruence.
Qed.
Lemma unlike_self fine p : unlike fine p p = 0.
Proof.
  unfold unlike, mean. rewrite sum_map. assert (sum (fun b : Z -> Z => Rabs (IZR (b p) - IZR (b p)) / 10000) fine = 0) as ->; [|unfold Rdiv; ring]. induction fine as [|b l IH]; cbn [sum]; auto. rewrite IH, Rminus_diag_eq, Rabs_R0 by auto. lra.
Qed.
Definition lim2 (s : Z) : R := nth (Z.to_nat s) limits2 0.
Lemma class2_spec S : match class_of S 0 thresholds2 with
  | Some c => (0 <= c <= 4)%Z /\ forall s, (0 <= s <= 4)%Z -> ((c <=? s)%Z = true <-> S < lim2 s)
  | None => 0.025 <= S end.
Proof.
  unfold thresholds2, class_of.
  destruct (Rlt_bool_spec S 0.0025) as [H0|H0]; [|destruct (Rlt_bool_spec S 0.005) as [H1|H1]; [|destruct (Rlt_bool_spec S 0.01) as [H2|H2]; [|destruct (Rlt_bool_spec S 0.02) as [H3|H3]; [|destruct (Rlt_bool_spec S 0.025) as [H4|H4]; [|auto]]]]].
  all: split; [lia|intros s Hs; assert (s = 0 \/ s = 1 \/ s = 2 \/ s = 3 \/ s = 4)%Z as [-> |[-> |[-> |[-> | ->]]]] by lia].
  all: change (lim2 0) with 0.0025; change (lim2 1) with 0.005; change (lim2 2) with 0.01; change (lim2 3) with 0.02; change (lim2 4) with 0.025.
  all: split; intros Q; try reflexivity; try discriminate Q; lra.
Qed.
Lemma lim2_le s : (0 <= s <= 4)%Z -> 0 < lim2 s <= 0.025.
Proof.
  intros Hs. assert (s = 0 \/ s = 1 \/ s = 2 \/ s = 3 \/ s = 4)%Z as [-> |[-> |[-> |[-> | ->]]]] by lia.
  all: try change (lim2 0) with 0.0025; try change (lim2 1) with 0.005; try change (lim2 2) with 0.01; try change (lim2 3) with 0.02; try change (lim2 4) with 0.025; lra.
Qed.
Section Improphe.
Context (sc : scene2) (i j : Z) (NX : (0 < z_nx sc)%Z) (NY : (0 < z_ny sc)%Z) (I : (0 <= i < z_ny sc)%Z) (J : (0 <= j < z_nx sc)%Z).
Let nx := z_nx sc.
Let ny := z_ny sc.
Let p := (i * nx + j)%Z.
Let pos (d : Z * Z) : Z := (nx * (i + fst d) + (j + snd d))%Z.
Let D (q : Z) : R := unlike (z_fine sc) p q.
Let cls (q : Z) : Z := match class_of (D q) 0 thresholds2 with Some c => c | None => 5 end.
Definition nb2 (q : Z) : neighbour := mkNb (cls q) (D q) 0 [] (map (fun b => b q) (z_coarse sc)).
Definition inb2 (d : Z * Z) : bool := ((0 <=? i + fst d) && (0 <=? j + snd d) && (i + fst d <? ny) && (j + snd d <? nx))%Z.
Definition cand2 (d : Z * Z) : bool := inb2 d && (fst d * fst d + snd d * snd d <=? 2 * 2)%Z && z_use sc (pos d) && Rlt_bool (D (pos d)) 0.025.
Lemma pos2_ok d : inb2 d = true -> (0 <= pos d < nx * ny)%Z /\ (pos d / nx = i + fst d)%Z /\ (pos d mod nx = j + snd d)%Z.
Proof.
  intros B. unfold inb2 in B. unfold pos. replace (nx * (i + fst d) + (j + snd d))%Z with ((i + fst d) * nx + (j + snd d))%Z by ring. split; [apply pos_range; lia|]. rewrite at_row, at_col by lia. auto.
Qed.
Lemma neighbour2_spec d : neighbour2 sc 2 i j d = if cand2 d then Some (nb2 (pos d)) else None.
Proof.
  unfold neighbour2, cand2, outside. fold nx ny. assert (((i + fst d <? 0) || (j + snd d <? 0) || (i + fst d >=? ny) || (j + snd d >=? nx))%Z = negb (inb2 d)) as -> by (unfold inb2; lia).
  destruct (inb2 d) eqn:B; cbn [negb andb]; auto. rewrite kdist_test by lia. rewrite Z.ltb_antisym. destruct (fst d * fst d + snd d * snd d <=? 2 * 2)%Z; cbn [negb andb]; auto.
  fold (pos d). destruct (z_use sc (pos d)); cbn [negb andb]; auto. rewrite spectral2_spec. fold p. fold (D (pos d)). pose proof (class2_spec (D (pos d))) as C. unfold nb2, cls. destruct (class_of (D (pos d)) 0 thresholds2) as [c|].
  - rewrite Rlt_bool_true by (apply (proj2 C 4%Z); lia). reflexivity.
  - rewrite Rlt_bool_false; auto.
Qed.
Definition found2 : list Z := map pos (filter cand2 (LsmModel.kernel 2)).
Lemma gather2_spec : gather2 sc 2 i j = map nb2 found2.
Proof.
  unfold gather2, found2. generalize (LsmModel.kernel 2). intros l. induction l as [|d l IH]; cbn [flat_map filter map]; auto. rewrite neighbour2_spec, IH. destruct (cand2 d); reflexivity.
Qed.
Lemma found2_NoDup : NoDup found2.
Proof.
  unfold found2. assert (NoDup (filter cand2 (LsmModel.kernel 2))) as N. { apply NoDup_filter. pose proof (kernel_sorted 2) as S. induction S as [|a l S IH F]; constructor; auto. intros In. rewrite Forall_forall in F. specialize (F a In). unfold lexlt in F. lia. }
  assert (forall d, In d (filter cand2 (LsmModel.kernel 2)) -> inb2 d = true) as B. { intros d Id. apply filter_In in Id. destruct Id as (_ & C). unfold cand2 in C. destruct (inb2 d); auto. }
  induction N as [|d l Nd N IH]; cbn [map]; constructor; [|apply IH; intros; apply B; right; auto]. rewrite in_map_iff. intros (d' & E & Id). apply Nd. destruct (pos2_ok d (B d ltac:(left; auto))) as (_ & E1 & E2), (pos2_ok d' (B d' ltac:(right; auto))) as (_ & E1' & E2'). rewrite E in E1', E2'. replace d with d'; auto. destruct d, d'; cbn in *. f_equal; lia.
Qed.
Definition near q : Prop := in_circle nx ny 2 i j q /\ z_use sc q = true.
Lemma found2_spec q : In q found2 <-> near q /\ D q < 0.025.
Proof.
  unfold found2, near. rewrite in_map_iff. split.
  - intros (d & <- & Id). apply filter_In in Id. destruct Id as (_ & C). unfold cand2 in C. apply andb_prop in C. destruct C as (C & L). apply andb_prop in C. destruct C as (C & U). apply andb_prop in C. destruct C as (B & K).
    destruct (pos2_ok d B) as (R & E1 & E2). destruct (Rlt_bool_spec (D (pos d)) 0.025) as [L'|]; [|discriminate]. unfold in_circle. repeat split; auto; try apply R. rewrite E1, E2. lia.
  - intros (((R & K) & U) & L). pose proof (row_range nx ny q NX R) as (Rr & Rc). exists (q / nx - i, q mod nx - j)%Z. assert (inb2 (q / nx - i, q mod nx - j)%Z = true) as B by (unfold inb2; cbn [fst snd]; lia).
    assert (pos (q / nx - i, q mod nx - j)%Z = q) as E. { unfold pos. cbn [fst snd]. pose proof (at_pos nx q NX). lia. }
    split; auto. apply filter_In. split; [apply kernel_In; clear -K; generalize dependent (q / nx - i)%Z; generalize dependent (q mod nx - j)%Z; intros; split; nia|]. unfold cand2. rewrite B, E. cbn [fst snd andb].
    replace ((q / nx - i) * (q / nx - i) + (q mod nx - j) * (q mod nx - j) <=? 2 * 2)%Z with true by lia. cbn [andb]. rewrite U. cbn [andb]. now apply Rlt_bool_true.
Qed.
Lemma cls2_spec q : In q found2 -> (0 <= cls q <= 4)%Z /\ forall s, (0 <= s <= 4)%Z -> ((cls q <=? s)%Z = true <-> D q < lim2 s).
Proof. intros Q. apply found2_spec in Q. destruct Q as (_ & L). unfold cls. pose proof (class2_spec (D q)) as C. destruct (class_of (D q) 0 thresholds2); auto. lra. Qed.
Definition used2 (c : Z) : list Z := filter (fun q => cls q <=? c)%Z found2.
Lemma used2_NoDup c : NoDup (used2 c). Proof. apply NoDup_filter, found2_NoDup. Qed.
Lemma used2_spec c q : (0 <= c <= 4)%Z -> In q (used2 c) <-> near q /\ D q < lim2 c.
Proof.
  intros C. unfold used2. rewrite filter_In. split.
  - intros (Q & K). destruct (cls2_spec q Q) as (_ & S). apply found2_spec in Q. split; [apply Q|]. now apply S.
  - intros (A & L). assert (In q found2) as Q by (apply found2_spec; pose proof (lim2_le c C); split; auto; lra). split; auto. now apply (cls2_spec q Q).
Qed.
Lemma count2_used s : count_class (map nb2 found2) s = zlen (used2 s).
Proof. unfold count_class, used2. clear. induction found2 as [|q l IH]; cbn [map filter]; auto. cbn [nb2 n_class]. destruct (cls q <=? s)%Z; auto. unfold zlen in *. cbn [length]. lia. Qed.
Lemma cutoff2_spec : let c := cutoff 3 (map nb2 found2) in (0 <= c <= 4)%Z /\ chosen2 D near (lim2 c).
Proof.
  unfold cutoff. change (zupto 5) with [0; 1; 2; 3; 4]%Z. cbn [find]. rewrite !count2_used.
  assert (forall s n, (0 <= s <= 4)%Z -> has_size (fun q => near q /\ D q < lim2 s) n -> n = zlen (used2 s)) as U. { intros s n Hs. apply same_size; [apply used2_NoDup|]. intros q. now apply used2_spec. }
  assert (forall s, (0 <= s <= 4)%Z -> has_size (fun q => near q /\ D q < lim2 s) (zlen (used2 s))) as E. { intros s Hs. exists (used2 s). split; [apply used2_NoDup|]. split; auto. intros q. now apply used2_spec. }
  unfold chosen2, limits2. pose proof (U 0%Z) as U0. pose proof (U 1%Z) as U1. pose proof (U 2%Z) as U2. pose proof (U 3%Z) as U3.
  pose proof (E 0%Z ltac:(lia)) as E0. pose proof (E 1%Z ltac:(lia)) as E1. pose proof (E 2%Z ltac:(lia)) as E2. pose proof (E 3%Z ltac:(lia)) as E3.
  change (lim2 0) with 0.0025 in *. change (lim2 1) with 0.005 in *. change (lim2 2) with 0.01 in *. change (lim2 3) with 0.02 in *. clear U E.
  destruct (3 <=? zlen (used2 0))%Z eqn:B0; [|destruct (3 <=? zlen (used2 1))%Z eqn:B1; [|destruct (3 <=? zlen (used2 2))%Z eqn:B2; [|destruct (3 <=? zlen (used2 3))%Z eqn:B3; [|destruct (3 <=? zlen (used2 4))%Z]]]]; (split; [lia|]).
  - exists [], [0.005; 0.01; 0.02; 0.025]. split; [reflexivity|]. split; [intros ? []|]. right. exists (zlen (used2 0)). split; auto. lia.
  - exists [0.0025], [0.01; 0.02; 0.025]. split; [reflexivity|]. split; [intros l [<-|[]] n Sn; rewrite (U0 n); auto; lia|]. right. exists (zlen (used2 1)). split; auto. lia.
  - exists [0.0025; 0.005], [0.02; 0.025]. split; [reflexivity|]. split; [intros l [<-|[<-|[]]] n Sn; [rewrite (U0 n)|rewrite (U1 n)]; auto; lia|]. right. exists (zlen (used2 2)). split; auto. lia.
  - exists [0.0025; 0.005; 0.01], [0.025]. split; [reflexivity|]. split; [intros l [<-|[<-|[<-|[]]]] n Sn; [rewrite (U0 n)|rewrite (U1 n)|rewrite (U2 n)]; auto; lia|]. right. exists (zlen (used2 3)). split; auto. lia.
  - exists [0.0025; 0.005; 0.01; 0.02], []. split; [reflexivity|]. split; [intros l [<-|[<-|[<-|[<-|[]]]]] n Sn; [rewrite (U0 n)|rewrite (U1 n)|rewrite (U2 n)|rewrite (U3 n)]; auto; lia|]. auto.
  - exists [0.0025; 0.005; 0.01; 0.02], []. split; [reflexivity|]. split; [intros l [<-|[<-|[<-|[<-|[]]]]] n Sn; [rewrite (U0 n)|rewrite (U1 n)|rewrite (U2 n)|rewrite (U3 n)]; auto; lia|]. auto.
Qed.
Definition wt2 (c q : Z) : R := weight2 c (map nb2 found2) (nb2 q).
Lemma rescaled2_spec c q : In q (used2 c) -> rescaled D (used2 c) q (rescale_weight (D q) (fst (range c n_S (map nb2 found2))) (snd (range c n_S (map nb2 found2)))).
Proof.
  intros Q. unfold range. set (r := (IZR 2147483647, IZR (-2147483648))). destruct (range_gen c n_S (map nb2 found2) r) as (A & _ & _ & C1 & C2). cbv zeta in *. set (r' := fold_left _ _ r) in *. unfold r in C1, C2. cbn [fst snd] in C1, C2.
  assert (forall q', In q' (used2 c) -> 0 < D q' -> fst r' <= D q' <= snd r') as A'. { intros q' Q' P'. unfold used2 in Q'. apply filter_In in Q'. destruct Q' as (Q' & C'). apply (A (nb2 q')); [now apply in_map|auto|auto]. }
  unfold rescaled, rescale_weight. split; [intros Z0; now rewrite Req_bool_true|]. intros P. rewrite (Req_bool_false (D q) 0) by lra.
  assert (forall x, (exists n, In n (map nb2 found2) /\ (n_class n <=? c)%Z = true /\ 0 < n_S n /\ x = n_S n) -> exists q', In q' (used2 c) /\ 0 < D q' /\ x = D q') as T. { intros x (n & In & Cn & Pn & ->). apply in_map_iff in In. destruct In as (q' & <- & I'). exists q'. split; auto. unfold used2. apply filter_In. split; auto. }
  assert (exists q1, In q1 (used2 c) /\ 0 < D q1 /\ fst r' = D q1) as (q1 & I1 & P1 & E1).
  { destruct C1 as [C1|C1]; [|auto]. exfalso. pose proof (A' q Q P). unfold used2 in Q. apply filter_In in Q. destruct Q as (Q & _). apply found2_spec in Q. lra. }
  assert (exists q2, In q2 (used2 c) /\ 0 < D q2 /\ snd r' = D q2) as (q2 & I2 & P2 & E2). { destruct C2 as [C2|C2]; [|auto]. exfalso. pose proof (A' q Q P). lra. }
  exists q1, q2. rewrite E1, E2 in *. do 3 (split; auto). split; [intros q' Q' P'; now apply A'|]. split; [intros Eq; now rewrite Req_bool_true|intros Lt; rewrite Req_bool_false by lra; reflexivity].
Qed.
Lemma wt2_fair c : fair D (used2 c) (wt2 c).
Proof.
  assert (G : forall q, In q (used2 c) -> 1 <= rescale_weight (D q) (fst (range c n_S (map nb2 found2))) (snd (range c n_S (map nb2 found2)))) by (intros q Q; apply (rescaled_ge1 D (used2 c) q); [apply unlike_nonneg|now apply rescaled2_spec]).
  unfold wt2, weight2. cbn [nb2 n_S]. split; [|split].
  - intros q Q. specialize (G q Q). split; [apply Rdiv_lt_0_compat; lra|]. unfold Rdiv. rewrite Rmult_1_l, <- Rinv_1. apply Rinv_le_contravar; lra.
  - intros q Q E. destruct (rescaled2_spec c q Q) as (Z0 & _). rewrite (Z0 E). lra.
  - intros q q' Q Q' L. pose proof (rescaled_mono D (used2 c) q q' _ _ Q Q' (unlike_nonneg _ _ _) L (rescaled2_spec c q Q) (rescaled2_spec c q' Q')) as M. pose proof (G q Q). unfold Rdiv. rewrite !Rmult_1_l. apply Rinv_le_contravar; lra.
Qed.
Lemma sums2_spec c b band : get_at (z_coarse sc) b = Some band -> band_sums2 c b (map nb2 found2) = Ret (sum (fun q => wt2 c q * (IZR (band q) / 10000)) (used2 c), sum (wt2 c) (used2 c)).
Proof.
  intros Gm. unfold band_sums2. set (L := map nb2 found2) at 1.
  assert (forall l a s, ofold (fun acc n => if (c <? n_class n)%Z then Ret acc else m <- of_option (get_at (n_M n) b) ;; Ret (fst acc + weight2 c L n * (IZR m / 10000), snd acc + weight2 c L n)) (map nb2 l) (a, s) =
    Ret (a + sum (fun q => wt2 c q * (IZR (band q) / 10000)) (filter (fun q => cls q <=? c)%Z l), s + sum (wt2 c) (filter (fun q => cls q <=? c)%Z l))) as G.
  { induction l as [|q l IH]; intros a s; cbn [map ofold filter sum]; [now rewrite !Rplus_0_r|]. cbn [nb2 n_class]. rewrite Z.ltb_antisym. destruct (cls q <=? c)%Z; cbn [negb].
    - fold (nb2 q). cbn [nb2 n_M]. rewrite get_map, Gm. cbn [option_map of_option bind fst snd]. fold (nb2 q). rewrite IH. cbn [sum]. unfold wt2, L. f_equal. f_equal; ring.
    - cbn [bind]. apply IH. }
  rewrite G. unfold used2. now rewrite !Rplus_0_l.
Qed.
Lemma center_used c : (0 <= c <= 4)%Z -> z_use sc p = true -> In p (used2 c).
Proof.
  intros C U. apply used2_spec; auto. split; [|unfold D; rewrite unlike_self; apply (lim2_le c C)]. split; [|exact U]. split; [unfold p; apply pos_range; auto|]. assert (E1 : (p / nx = i)%Z) by (unfold p; apply at_row; lia). assert (E2 : (p mod nx = j)%Z) by (unfold p; apply at_col; lia). rewrite E1, E2. lia.
Qed.
Lemma predict2_spec c b band : (0 <= c <= 4)%Z -> z_use sc p = true -> get_at (z_coarse sc) b = Some band -> (forall q, (0 <= q < nx * ny)%Z -> in_short (band q)) ->
  predict2 c (map nb2 found2) b = Ret (Ztrunc (weighted_mean (wt2 c) (fun q => IZR (band q)) (used2 c))).
Proof.
  intros C U Gm Sh. unfold predict2. rewrite (sums2_spec c b band Gm). cbn [bind fst snd]. pose proof (center_used c C U) as Ce. assert (NE : used2 c <> []) by (intros E; rewrite E in Ce; destruct Ce). destruct (wt2_fair c) as (F1 & _).
  assert (P : forall q, In q (used2 c) -> 0 < wt2 c q) by (intros q Q; apply F1; auto). pose proof (sum_pos _ _ NE P) as S. rewrite Req_bool_false by lra.
  assert (E : sum (fun q => wt2 c q * (IZR (band q) / 10000)) (used2 c) / sum (wt2 c) (used2 c) * 10000 = weighted_mean (wt2 c) (fun q => IZR (band q)) (used2 c)).
  { unfold weighted_mean. assert (sum (fun q => wt2 c q * (IZR (band q) / 10000)) (used2 c) = sum (fun q => wt2 c q * IZR (band q)) (used2 c) / 10000) as ->; [|field; lra]. generalize (used2 c). intros l. induction l as [|q l IH]; cbn [sum]; [lra|]. rewrite IH. lra. }
  rewrite E. unfold real_short. assert (B : -32768 <= weighted_mean (wt2 c) (fun q => IZR (band q)) (used2 c) <= 32767).
  { apply weighted_mean_between; auto. intros q Q. apply used2_spec in Q as (((R & _) & _) & _); auto. specialize (Sh q R). unfold in_short in Sh. split; apply IZR_le; lia. }
  assert (in_shortb (Ztrunc (weighted_mean (wt2 c) (fun q => IZR (band q)) (used2 c))) = true) as ->; auto. apply in_shortb_spec. unfold in_short. destruct B as (B1 & B2). apply Ztrunc_le in B1, B2. rewrite Ztrunc_IZR in B1, B2. lia.
Qed.
Lemma improphe2_ok : z_use sc p = true -> (forall b q, In b (z_coarse sc) -> (0 <= q < nx * ny)%Z -> in_short (b q)) ->
  exists lim qs w, chosen2 D near lim /\ NoDup qs /\ (forall q, In q qs <-> near q /\ D q < lim) /\ In p qs /\ fair D qs w /\
  improphe2 sc 2 3 i j = Ret (Some (map (fun b => Ztrunc (weighted_mean w (fun q => IZR (b q)) qs)) (z_coarse sc))).
Proof.
  intros U Sh. pose proof cutoff2_spec as (C & Ch). remember (cutoff 3 (map nb2 found2)) as c eqn:EC. exists (lim2 c), (used2 c), (wt2 c). split; [exact Ch|]. split; [apply used2_NoDup|]. split; [intros q; now apply used2_spec|]. split; [now apply center_used|]. split; [apply wt2_fair|].
  unfold improphe2. fold nx p. rewrite U. cbn [negb]. rewrite gather2_spec. remember (map nb2 found2) as L eqn:EL. destruct L as [|n l] eqn:E.
  { exfalso. pose proof (center_used 4 ltac:(lia) U) as Ce. unfold used2 in Ce. apply filter_In in Ce as (Ce & _). apply (in_map nb2) in Ce. rewrite <- EL in Ce. destruct Ce. }
  cbv iota beta. rewrite EL in *. rewrite <- EC. assert (O : omap (predict2 c (map nb2 found2)) (zupto (zlen (z_coarse sc))) = Ret (map (fun b => Ztrunc (weighted_mean (wt2 c) (fun q => IZR (b q)) (used2 c))) (z_coarse sc))).
  { apply MlProofs.omap_range; [unfold zlen; lia|apply zlen_map|]. intros b Hb. destruct (get_at_some (z_coarse sc) b Hb) as (band & Gm). rewrite get_map, Gm. cbn [option_map of_option]. apply predict2_spec; auto. intros q Q. apply Sh; auto. apply (get_at_In _ _ _ Gm). }
  rewrite O. reflexivity.
Qed.
End Improphe.

(** ** In double arithmetic *)
Lemma lone_3 : lone_pixel 3 = 2%Z.
Proof.
  unfold lone_pixel. assert (E : rnd64 (3 / 10000) = IZR 5534023222112865 * bpow radix2 (-64)). { apply rnd64_near; [lia|lia|]. change (bpow radix2 (-64)) with (/ 18446744073709551616). apply Rabs_def1; lra. }
  rewrite E. assert (F : rnd64 (IZR 5534023222112865 * bpow radix2 (-64)) = IZR 5534023222112865 * bpow radix2 (-64)) by (apply rnd64_dyadic; lia). rewrite Rmult_1_l, F, Rplus_0_l, F. unfold Rdiv at 1. rewrite Rinv_1, Rmult_1_r, F.
  assert (G : rnd64 (IZR 5534023222112865 * bpow radix2 (-64) * 10000) = IZR 6755399441055743 * bpow radix2 (-51)). { apply rnd64_near; [lia|lia|]. change (bpow radix2 (-51)) with (/ 2251799813685248). change (bpow radix2 (-64)) with (/ 18446744073709551616). apply Rabs_def1; lra. }
  rewrite G. change (bpow radix2 (-51)) with (/ 2251799813685248). rewrite Ztrunc_floor by lra. apply Zfloor_imp. rewrite plus_IZR. lra.
Qed.
(** ** STARFM *)
Lemma least_ok l : (forall x, In x l -> least l <= Rabs x) /\ least l <= 32767 /\ (least l = 32767 \/ exists x, In x l /\ least l = Rabs x).
Proof.
  unfold least. assert (G : forall m, let r := fold_left (fun m x => if Rlt_bool (Rabs x) m then Rabs x else m) l m in (forall x, In x l -> r <= Rabs x) /\ r <= m /\ (r = m \/ exists x, In x l /\ r = Rabs x)).
  { induction l as [|a l IH]; intros m; cbn [fold_left]; [split; [intros ? []|split; [lra|auto]]|]. destruct (IH (if Rlt_bool (Rabs a) m then Rabs a else m)) as (A & B & C). cbv zeta in *. destruct (Rlt_bool_spec (Rabs a) m) as [L|L].
    - split; [intros x [<-|X]; [lra|auto]|]. split; [lra|]. right. destruct C as [C|(x & X & E)]; [exists a; split; [left; auto|exact C]|exists x; split; [right; auto|exact E]].
    - split; [intros x [<-|X]; [lra|auto]|]. split; [lra|]. destruct C as [C|(x & X & E)]; [left; exact C|right; exists x; split; [right; auto|exact E]]. }
  apply G.
Qed.
Lemma fold_sum {A} (f : A -> R) l : forall a, fold_left (fun s x => s + f x) l a = a + sum f l.
Proof. induction l as [|x l IH]; intros a; cbn [fold_left sum]; [lra|]. rewrite IH. lra. Qed.
Lemma unc_pos : 0 < unc_r. Proof. unfold unc_r, unc1. apply sqrt_lt_R0. lra. Qed.
Lemma c_weight_pos r c : (0 < r)%Z -> 0 < c_weight r c.
Proof.
  intros R. unfold c_weight. pose proof (Rabs_pos (c_rc c)). pose proof (Rabs_pos (c_rf c)). set (T := Rabs (c_rc c) + 0.0001). set (S := Rabs (c_rf c) + 0.0001). assert (0 < T * S) by (apply Rmult_lt_0_compat; unfold T, S; lra). destruct (Rlt_bool (T * S) unc_all); [lra|].
  assert (Q : 0 <= sqrt (IZR (c_dx c * c_dx c + c_dy c * c_dy c)) / IZR r) by (apply Rmult_le_pos; [apply sqrt_pos|left; apply Rinv_0_lt_compat, IZR_lt; exact R]). apply Rdiv_lt_0_compat; [lra|]. apply Rmult_lt_0_compat; lra.
Qed.
Lemma weighted_convex {A} (w f : A -> R) l : l <> [] -> (forall x, 0 < w x) -> convex (sum (fun x => w x / sum w l * f x) l) (map f l).
Proof.
  intros NE W. assert (S : 0 < sum w l). { destruct l as [|x l]; [congruence|]. cbn [sum]. pose proof (W x). assert (0 <= sum w l); [|lra]. clear NE. induction l as [|y l IH]; cbn [sum]; [lra|]. pose proof (W y). lra. }
  exists (map (fun x => w x / sum w l) l). split; [now rewrite !map_length|]. split; [apply Forall_forall; intros v V; apply in_map_iff in V as (x & <- & _); apply Rdiv_lt_0_compat; auto|]. split.
  - rewrite sum_map. assert (E : forall k m, sum (fun x => w x / k) m = sum w m / k). { intros k m. induction m as [|x m IH]; cbn [sum]; [unfold Rdiv; ring|]. rewrite IH. unfold Rdiv. ring. } cbv beta. rewrite E. field. lra.
  - generalize (sum w l). intros C. clear. induction l as [|x l IH]; cbn [map combine sum fst snd]; [reflexivity|]. rewrite IH. reflexivity.
Qed.
(** ** Regression *)
Lemma cost_app a b c : cost (a ++ b) c = cost a c + cost b c.
Proof. unfold cost. rewrite fold_left_app, !fold_sum. lra. Qed.
Lemma cost_repeat x y n c : cost (repeat (x, y) n) c = INR n * ((dot x c - y) * (dot x c - y)).
Proof. unfold cost. rewrite fold_sum, Rplus_0_l. induction n as [|n IH]; [cbn; lra|]. cbn [repeat sum fst snd]. rewrite IH, S_INR. ring. Qed.
Definition flat2 : scene2 := mkS2 1 2 (fun _ => false) (fun _ => true) [fun _ => 1000%Z; fun _ => 1000%Z; fun _ => 1000%Z] [].
Lemma flat_fit i band c : (i = 0 \/ i = 1)%Z -> least_squares 4 (filled flat2 (window_rows flat2 i 0 band)) c -> dot [1; IZR 1000 / 10000; IZR 1000 / 10000; IZR 1000 / 10000] c = (IZR (band 0%Z) / 10000 + IZR (band 1%Z) / 10000) / 2.
Proof.
  intros I. assert (W : window_rows flat2 i 0 band = [([1; IZR 1000 / 10000; IZR 1000 / 10000; IZR 1000 / 10000], IZR (band 0%Z) / 10000); ([1; IZR 1000 / 10000; IZR 1000 / 10000; IZR 1000 / 10000], IZR (band 1%Z) / 10000)]) by (destruct I as [-> | ->]; reflexivity).
  unfold filled. rewrite W. cbn [length]. change (25 - 2)%nat with 23%nat. set (x := [1; IZR 1000 / 10000; IZR 1000 / 10000; IZR 1000 / 10000]). set (a := IZR (band 0%Z) / 10000). set (b := IZR (band 1%Z) / 10000). intros (L & H). specialize (H [0; (a + b) / 2 * 10; 0; 0] eq_refl).
  rewrite !cost_app, !cost_repeat in H. change (1 :: map (fun _ => 0) (z_fine flat2)) with [1; 0; 0; 0] in H. unfold cost in H. cbn [fold_left fst snd] in H. rewrite INR_IZR_INZ in H. change (IZR (Z.of_nat 23)) with 23 in H.
  set (u := dot x c) in *. set (v := dot [1; 0; 0; 0] c) in *. assert (E1 : dot x [0; (a + b) / 2 * 10; 0; 0] = (a + b) / 2) by (unfold dot, x; cbn [combine fold_left fst snd]; lra). assert (E2 : dot [1; 0; 0; 0] [0; (a + b) / 2 * 10; 0; 0] = 0) by (unfold dot; cbn [combine fold_left fst snd]; lra). rewrite E1, E2 in H. clearbody u v a b.
  assert (V : 0 <= v * v) by apply Rle_0_sqr. assert (K : (u - (a + b) / 2) * (u - (a + b) / 2) <= 0) by lra. assert (K0 : 0 <= (u - (a + b) / 2) * (u - (a + b) / 2)) by apply Rle_0_sqr. assert (K1 : u - (a + b) / 2 = 0) by (apply Rsqr_eq_0; unfold Rsqr; lra). lra.
Qed.
Lemma flat_exists i band : (i = 0 \/ i = 1)%Z -> exists c, least_squares 4 (filled flat2 (window_rows flat2 i 0 band)) c.
Proof.
  intros I. assert (W : window_rows flat2 i 0 band = [([1; IZR 1000 / 10000; IZR 1000 / 10000; IZR 1000 / 10000], IZR (band 0%Z) / 10000); ([1; IZR 1000 / 10000; IZR 1000 / 10000; IZR 1000 / 10000], IZR (band 1%Z) / 10000)]) by (destruct I as [-> | ->]; reflexivity).
  unfold filled. rewrite W. cbn [length]. change (25 - 2)%nat with 23%nat. set (x := [1; IZR 1000 / 10000; IZR 1000 / 10000; IZR 1000 / 10000]). set (a := IZR (band 0%Z) / 10000). set (b := IZR (band 1%Z) / 10000). exists [0; (a + b) / 2 * 10; 0; 0]. split; [reflexivity|]. intros c' L'.
  rewrite !cost_app, !cost_repeat. change (1 :: map (fun _ => 0) (z_fine flat2)) with [1; 0; 0; 0]. unfold cost. cbn [fold_left fst snd]. rewrite INR_IZR_INZ. change (IZR (Z.of_nat 23)) with 23.
  assert (E1 : dot x [0; (a + b) / 2 * 10; 0; 0] = (a + b) / 2) by (unfold dot, x; cbn [combine fold_left fst snd]; lra). assert (E2 : dot [1; 0; 0; 0] [0; (a + b) / 2 * 10; 0; 0] = 0) by (unfold dot; cbn [combine fold_left fst snd]; lra). rewrite E1, E2. set (u := dot x c'). set (v := dot [1; 0; 0; 0] c'). clearbody u v a b.
  assert (V : 0 <= v * v) by apply Rle_0_sqr. assert (K0 : 0 <= (u - (a + b) / 2) * (u - (a + b) / 2)) by apply Rle_0_sqr. lra.
Qed.
Lemma flat_step i band band' : (i = 0 \/ i = 1)%Z -> regress_step flat2 i 0 band band' -> band' i = Ztrunc ((IZR (band 0%Z) + IZR (band 1%Z)) / 2) /\ forall q, q <> i -> band' q = band q.
Proof.
  intros I. unfold regress_step. cbn [flat2 z_use negb z_nx z_fine length]. replace (i * 1 + 0)%Z with i by ring. intros (c & L & E & O). split; [|exact O]. rewrite E. cbn [map]. rewrite (flat_fit i band c I L). f_equal. field.
Qed.
Lemma flat_step_ex i band : (i = 0 \/ i = 1)%Z -> regress_step flat2 i 0 band (fun q => if (q =? i)%Z then Ztrunc ((IZR (band 0%Z) + IZR (band 1%Z)) / 2) else band q).
Proof.
  intros I. unfold regress_step. cbn [flat2 z_use negb z_nx z_fine length]. replace (i * 1 + 0)%Z with i by ring. destruct (flat_exists i band I) as (c & L). exists c. split; [exact L|]. split; [|intros q Q; destruct (Z.eqb_spec q i); [congruence|reflexivity]]. rewrite Z.eqb_refl. cbn [map]. rewrite (flat_fit i band c I L). f_equal. field.
Qed.
(** ** Averages of blocks *)
Definition avg (img : Z -> R) (l : list Z) : R := sum img l / IZR (zlen l).
Lemma sum_ext_in {A} (f g : A -> R) l : (forall x, In x l -> f x = g x) -> sum f l = sum g l.
Proof. induction l as [|x l IH]; cbn [sum]; intros H; [reflexivity|]. rewrite (H x) by (left; auto). rewrite IH by (intros; apply H; right; auto). reflexivity. Qed.
Lemma block_step_spec sc img i j p : z_off sc p = false -> forall q, block_step sc img (i, j, p) q = if existsb (Z.eqb q) (block_pixels sc i j) then avg img (block_pixels sc i j) else img q.
Proof. intros O q. unfold block_step. rewrite O. destruct (block_pixels sc i j) as [|x l]; [reflexivity|]. rewrite fold_sum, Rplus_0_l. reflexivity. Qed.
Lemma existsb_eqb q l : existsb (Z.eqb q) l = true <-> In q l.
Proof. rewrite existsb_exists. split; [intros (x & X & E); apply Z.eqb_eq in E; subst; auto|intros; exists q; split; auto; apply Z.eqb_refl]. Qed.
Lemma block_where sc a b q : (0 < z_nx sc)%Z -> (0 <= b)%Z -> In q (block_pixels sc (2 * a) (2 * b)) -> (q / z_nx sc / 2 = a /\ q mod z_nx sc / 2 = b)%Z.
Proof.
  intros NX B Q. unfold block_pixels in Q. apply filter_In in Q as (Q & _). apply in_flat_map in Q as ((di & dj) & D & Q). cbn [fst snd] in Q. destruct ((2 * a + di >=? z_ny sc) || (2 * b + dj >=? z_nx sc))%Z eqn:E; [destruct Q|]. destruct Q as [<-|[]]. assert (DD : (0 <= di <= 1 /\ 0 <= dj <= 1)%Z) by (cbn in D; intuition (match goal with H : (_, _) = (_, _) |- _ => injection H as <- <- end; lia)). rewrite at_row, at_col by lia. lia.
Qed.
Lemma blocks_fold sc (OFF : forall p, z_off sc p = false) (NX : (0 < z_nx sc)%Z) (bs : list (Z * Z)) (num : Z * Z -> Z) : NoDup bs -> (forall e, In e bs -> (0 <= snd e)%Z) -> forall img e q, In e bs -> In q (block_pixels sc (2 * fst e) (2 * snd e)) ->
  fold_left (block_step sc) (map (fun e => (2 * fst e, 2 * snd e, num e)%Z) bs) img q = avg img (block_pixels sc (2 * fst e) (2 * snd e)).
Proof.
  intros N P. induction N as [|b l Nb N IH]; intros img e q E Q; [destruct E|]. cbn [map fold_left].
  assert (OUT : forall m img q, (forall e, In e m -> ~ In q (block_pixels sc (2 * fst e) (2 * snd e))) -> fold_left (block_step sc) (map (fun e => (2 * fst e, 2 * snd e, num e)%Z) m) img q = img q).
  { clear -OFF. induction m as [|x m IHm]; intros img q H; cbn [map fold_left]; [reflexivity|]. rewrite IHm by (intros; apply H; right; auto). rewrite block_step_spec by apply OFF. destruct (existsb (Z.eqb q) (block_pixels sc (2 * fst x) (2 * snd x))) eqn:X; [|reflexivity]. apply existsb_eqb in X. exfalso. apply (H x); auto. left; auto. }
  assert (DIS : forall e1 e2 q, In e1 (b :: l) -> In e2 (b :: l) -> In q (block_pixels sc (2 * fst e1) (2 * snd e1)) -> In q (block_pixels sc (2 * fst e2) (2 * snd e2)) -> e1 = e2).
  { intros (a1 & b1) (a2 & b2) x I1 I2 X1 X2. cbn [fst snd] in *. pose proof (P _ I1) as P1. pose proof (P _ I2) as P2. cbn [snd] in P1, P2. apply block_where in X1, X2; auto. destruct X1 as (X1 & X3), X2 as (X2 & X4). congruence. }
  destruct E as [<-|E].
  - rewrite OUT; [rewrite block_step_spec by apply OFF; rewrite (proj2 (existsb_eqb q _)) by exact Q; reflexivity|]. intros e E QE. apply Nb. rewrite (DIS b e q); auto; [left; auto|right; auto].
  - rewrite (IH (fun e' H' => P e' (or_intror H')) _ e q E Q). unfold avg. f_equal. apply sum_ext_in. intros x X. rewrite block_step_spec by apply OFF. destruct (existsb (Z.eqb x) (block_pixels sc (2 * fst b) (2 * snd b))) eqn:XB; [|reflexivity]. apply existsb_eqb in XB. exfalso. apply Nb. rewrite (DIS b e x); auto; [left; auto|right; auto].
Qed.
Lemma zupto_In n x : In x (zupto n) <-> (0 <= x < n)%Z.
Proof. unfold zupto. rewrite in_map_iff. split; [intros (k & <- & K); apply in_seq in K; lia|intros H; exists (Z.to_nat x); split; [lia|apply in_seq; lia]]. Qed.
Lemma zupto_NoDup n : NoDup (zupto n).
Proof. unfold zupto. apply FinFun.Injective_map_NoDup; [intros x y; lia|apply seq_NoDup]. Qed.
Lemma NoDup_pairs (l m : list Z) : NoDup l -> NoDup m -> NoDup (flat_map (fun a => map (pair a) m) l).
Proof.
  intros L M. induction L as [|a l A L IH]; cbn [flat_map]; [constructor|]. assert (G : forall (x y : list (Z * Z)), NoDup x -> NoDup y -> (forall e, In e x -> ~ In e y) -> NoDup (x ++ y)). { induction 1 as [|e x E X IHx]; intros Y D; cbn [app]; [exact Y|]. constructor; [rewrite in_app_iff; intros [Q|Q]; [auto|apply (D e); auto; left; auto]|apply IHx; auto; intros; apply D; right; auto]. }
  apply G; [apply FinFun.Injective_map_NoDup; [intros x y E; congruence|exact M]|exact IH|]. intros e E F. apply in_map_iff in E as (b & <- & _). apply in_flat_map in F as (a' & A' & F). apply in_map_iff in F as (b' & E & _). congruence.
Qed.
Lemma block_average_spec sc img i j q : (forall p, z_off sc p = false) -> (0 < z_nx sc)%Z -> (0 <= i < z_ny sc)%Z -> (0 <= j < z_nx sc)%Z -> (i mod 2 = 0)%Z -> (j mod 2 = 0)%Z -> In q (block_pixels sc i j) ->
  block_average sc img q = avg img (block_pixels sc i j).
Proof.
  intros OFF NX I J EI EJ Q. unfold block_average, blocks. set (w := ((z_nx sc + 1) / 2)%Z). set (h := ((z_ny sc + 1) / 2)%Z).
  assert (E : flat_map (fun a => map (fun b => (2 * a, 2 * b, a * w + b)%Z) (zupto w)) (zupto h) = map (fun e => (2 * fst e, 2 * snd e, fst e * w + snd e)%Z) (flat_map (fun a => map (pair a) (zupto w)) (zupto h))).
  { generalize (zupto h). intros l. induction l as [|a l IH]; cbn [flat_map map]; [reflexivity|]. rewrite map_app, IH, map_map. reflexivity. }
  rewrite E. assert (DI : (i = 2 * (i / 2))%Z) by lia. assert (DJ : (j = 2 * (j / 2))%Z) by lia. rewrite DI, DJ. rewrite DI, DJ in Q.
  apply (blocks_fold sc OFF NX (flat_map (fun a => map (pair a) (zupto w)) (zupto h)) (fun e => (fst e * w + snd e)%Z) (NoDup_pairs _ _ (zupto_NoDup h) (zupto_NoDup w))) with (e := (i / 2, j / 2)%Z); [|apply in_flat_map; exists (i / 2)%Z; split; [apply zupto_In; unfold h; lia|apply in_map, zupto_In; unfold w; lia]|exact Q].
  intros e F. apply in_flat_map in F as (a & A & F). apply in_map_iff in F as (b & <- & F). apply zupto_In in F. cbn [snd]. lia.
Qed.
