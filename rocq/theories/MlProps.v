(** Theorems about machine learning predictions. *)
From Coq Require Import Reals Lra Sorting.Permutation.
From Flocq Require Import Core.
From Verif Require Import Base BaseFacts Loops LoopsFacts ChunkProofs RoundModel RoundFacts StatsModel StatsSpec StatsProofs ModeModel ModeSpec ModeProofs MlModel MlSpec MlProofs.
#[local] Open Scope Z_scope.

(** The pixel is processed; there is an answer of every model; every set has a model. *)
Definition ready (mask : option bool) (exclude : bool) (valid : list bool) (flat : list answer) (sets : list (Z * Z)) : Prop :=
  mask <> Some false /\ (exclude = true -> Forall (fun v => v = true) valid) /\ Forall (fun s => 1 <= fst s) sets /\ zsum (map fst sets) <= zlen flat.
Lemma ready_pixel cf mask exclude valid flat sets : ready mask exclude valid flat sets -> pixel cf mask exclude valid flat sets = all_sets cf flat sets 0.
Proof.
  intros (M & V & _). unfold pixel. replace (match mask with Some false => true | _ => false end) with false by (destruct mask as [[|]|]; congruence). cbn [orb].
  destruct exclude; auto. cbn [andb]. specialize (V eq_refl). replace (forallb (fun v => v) valid) with true; auto. symmetry. apply forallb_forall. rewrite Forall_forall in V. auto.
Qed.

(** ** C100 Regression *)
Theorem C100_regression cf mask exclude valid flat sets : ready mask exclude valid flat sets -> cf_regression cf = true -> cf_mlu cf = false \/ Forall (fun s => 2 <= fst s) sets ->
  exists rs, pixel cf mask exclude valid flat sets = Ret rs /\ length rs = length sets /\ forall s r, nth_error rs s = Some r ->
    let preds := map an_value (block (map fst sets) flat s) in
    exists n, stops (cf_converge cf) preds n /\ r_mlp r = Ztrunc (to_range (mean_of preds n * cf_scale cf)) /\ r_mli r = Z.of_nat n /\
      (cf_mlu cf = true -> r_mlu r = Some (Ztrunc (Rmin 32767 (sample_sd (firstn n preds) * 10000)))).
Proof.
  intros Rd Rg U. rewrite ready_pixel by auto. destruct Rd as (_ & _ & F & L). apply all_sets_spec. intros s nm ncl G. destruct (set_facts sets flat s nm ncl F L G) as (Nm & S0 & N1 & S1 & Lb & Gb & Le).
  set (k := start (map fst sets) s) in *. cbv zeta. set (preds := map an_value (block (map fst sets) flat s)).
  destruct (one_set_regression cf flat nm ncl k preds Rg S0 N1) as (r & n & E & St & P1 & P2 & P3).
  - unfold preds. rewrite zlen_map. auto.
  - intros i I. unfold preds. rewrite get_map, Gb by auto. destruct (get_at_some flat (k + i)) as (a & Ga); [lia|]. exists a. rewrite Ga. auto.
  - destruct U as [U|U]; auto. right. apply nth_error_In in G. rewrite Forall_forall in U. apply (U _ G).
  - exists r. rewrite S1. rewrite !Z.add_0_l. split; auto. exists n. split; auto. split; auto. split; auto. intros M. rewrite P3, M. auto.
Qed.
(** With all models used if the threshold is 0. *)
Theorem C100_no_threshold l n : stops 0 l n -> n = length l.
Proof. intros (A & _ & C). destruct (Nat.eq_dec n (length l)); auto. destruct C as (_ & C); [lia|]. unfold change in C. pose proof (Rabs_pos (mean_of l n - mean_of l (n - 1))). lra. Qed.
(** The number of models used is determined. *)
Theorem C100_stop_unique conv l n m : stops conv l n -> stops conv l m -> n = m.
Proof.
  intros (A & B & C) (A' & B' & C'). destruct (Nat.lt_trichotomy n m) as [H|[H|H]]; auto; exfalso.
  - destruct C as (C1 & C2); [lia|]. specialize (B' n ltac:(lia)). lra.
  - destruct C' as (C1 & C2); [lia|]. specialize (B m ltac:(lia)). lra.
Qed.
(** One model: the uncertainty is undefined. *)
Theorem C100_single_model_refuted : exists cf flat, cf_regression cf = true /\ cf_mlu cf = true /\ pixel cf None false [] flat [(1, 0)] = UB.
Proof. exists (mkConf true true false false 10000 0 (-9999)), [mkAnswer 1 []]. split; [reflexivity|]. split; [reflexivity|]. unfold pixel, all_sets, one_set. cbn [orb andb cf_regression cf_mlu cf_converge cf_scale get_at]. change (Z.to_nat 1) with 1%nat. cbn [blend get_at]. reflexivity. Qed.
Definition sample_conf := mkConf true true false false 100 (1 / 2) (-9999).
Example C100_case : let flat := map (fun v => mkAnswer v []) [1; 3; 2; 9; 5; 7]%R in ready None true [true] flat [(4, 0); (2, 0)] /\ exists n, stops (1 / 2) [1; 3; 2; 9]%R n /\ n = 3%nat.
Proof.
  split; [split; [discriminate|split; [intros _; repeat constructor|split; [repeat constructor; cbn; lia|cbn; lia]]]|]. exists 3%nat. split; auto. split; [cbn; lia|]. split; [lia|]. intros _. split; [lia|]. unfold change, mean_of, mean, size. cbn [firstn Nat.sub sum length INR]. replace ((1 + (3 + (2 + 0))) / (1 + 1 + 1) - (1 + (3 + 0)) / (1 + 1))%R with 0%R by field. rewrite Rabs_R0. lra.
Qed.

(** ** C101 Classification *)
Theorem C101_label cf mask exclude valid flat sets : ready mask exclude valid flat sets -> cf_regression cf = false -> cf_rfp cf = false -> cf_rfm cf = false ->
  Forall (fun a => in_short (Ztrunc (an_value a))) flat ->
  exists rs, pixel cf mask exclude valid flat sets = Ret rs /\ length rs = length sets /\ forall s r, nth_error rs s = Some r ->
    most_frequent (r_mlp r) (map (fun a => Ztrunc (an_value a)) (block (map fst sets) flat s)) /\ r_mli r = nth s (map fst sets) 0.
Proof.
  intros Rd Rg P1 P2 Sh. rewrite ready_pixel by auto. destruct Rd as (_ & _ & F & L). apply all_sets_spec. intros s nm ncl G. destruct (set_facts sets flat s nm ncl F L G) as (Nm & S0 & N1 & S1 & Lb & Gb & Le). rewrite !Z.add_0_l. rewrite Nm.
  set (k := start (map fst sets) s) in *. set (bl := block (map fst sets) flat s) in *. unfold one_set. rewrite Rg. rewrite (omap_range _ nm bl) by (try lia; intros i I; rewrite Gb by auto; reflexivity). cbn [bind].
  assert (rfprob cf = false) as Rf by (unfold rfprob; rewrite P1, P2, andb_false_r; auto).
  assert (Forall (fun a => in_short (Ztrunc (an_value a))) bl) as Sb. { rewrite Forall_forall in *. intros a I. apply Sh. unfold bl, block in I. apply (In_nth_error) in I. destruct I as (j & I). assert (In a (skipn (Z.to_nat (start (map fst sets) s)) flat)) as J by (apply nth_error_In in I; rewrite <- (firstn_skipn (Z.to_nat (nth s (map fst sets) 0))); apply in_or_app; left; exact I). rewrite <- (firstn_skipn (Z.to_nat (start (map fst sets) s)) flat). apply in_or_app. right; auto. }
  destruct (values_spec cf ncl bl Rf) as (ls & -> & Ev); [eapply Forall_impl; [|exact Sb]; unfold in_short, in_int; intros; lia|]. cbn [bind]. rewrite Ev.
  set (labels := map (fun a => Ztrunc (an_value a)) bl). assert (Forall in_short labels) as Sl by (apply Forall_map; exact Sb). assert (labels <> []) as Nl by (intros Q; apply (f_equal (@zlen Z)) in Q; unfold labels in Q; rewrite zlen_map, Lb in Q; cbn in Q; lia).
  destruct (mode_spec labels (short_fit _ Sl) Nl) as (v & -> & Iv & Mv). cbn [bind]. rewrite Rf. assert (in_short v) as Sv by (rewrite Forall_forall in Sl; auto). rewrite (to_short_id v Sv).
  eexists. split; [rewrite S1; reflexivity|]. cbn [r_mlp r_mli]. split; auto. split; auto.
Qed.
(** With votes: the columns of every model of the set, at least one tree. *)
Definition has_columns (ncl : Z) (a : answer) : Prop := zlen (an_votes a) = ncl /\ (exists w, In w (an_votes a) /\ 0 < snd w) /\ Forall (fun w => in_short (fst w) /\ 0 <= snd w) (an_votes a).
Definition forest_ready (flat : list answer) (sets : list (Z * Z)) : Prop :=
  forall s nm ncl, nth_error sets s = Some (nm, ncl) -> 1 <= ncl /\ Forall (has_columns ncl) (block (map fst sets) flat s) /\ zsum (concat (map (fun a => map snd (an_votes a)) (block (map fst sets) flat s))) <= 1000000000.
Definition votes_of (bl : list answer) (c : nat) : Z := zsum (map (fun a => snd (nth c (an_votes a) (0, 0))) bl).
Definition all_votes (bl : list answer) : Z := zsum (concat (map (fun a => map snd (an_votes a)) bl)).
Lemma col_sum_votes bl c : col_sum (map (fun a => map snd (an_votes a)) bl) c = votes_of bl c.
Proof. unfold col_sum, votes_of. rewrite map_map. f_equal. apply map_ext. intros a. change 0 with (snd (0, 0)). apply map_nth. Qed.
Lemma forest_sets cf mask exclude valid flat sets : ready mask exclude valid flat sets -> rfprob cf = true -> forest_ready flat sets ->
  exists rs, pixel cf mask exclude valid flat sets = Ret rs /\ length rs = length sets /\ forall s r, nth_error rs s = Some r -> let bl := block (map fst sets) flat s in
    (exists labels, Forall2 (fun a l => most_votes l (an_votes a)) bl labels /\ most_frequent (r_mlp r) labels) /\ r_mli r = nth s (map fst sets) 0 /\
    exists p, length p = Z.to_nat (snd (nth s sets (0, 0))) /\ 0 < all_votes bl <= 1000000000 /\
      (forall c x, nth_error p c = Some x -> x = share (all_votes bl) (votes_of bl c) /\ 0 <= votes_of bl c <= all_votes bl) /\ zsum (map Ztrunc p) <= 10000 /\
      (cf_rfp cf = true -> r_rfp r = map Ztrunc p) /\ (cf_rfm cf = true -> r_rfm r = Some (margin p)).
Proof.
  intros Rd Rf Fr. rewrite ready_pixel by auto. destruct Rd as (_ & _ & F & L). apply all_sets_spec. intros s nm ncl G. destruct (set_facts sets flat s nm ncl F L G) as (Nm & S0 & N1 & S1 & Lb & Gb & Le). destruct (Fr s nm ncl G) as (Nc & Hc & Hs). rewrite !Z.add_0_l. rewrite Nm.
  replace (nth s sets (0, 0)) with (nm, ncl) by (symmetry; now apply nth_error_nth). cbn [snd]. cbv zeta.
  set (k := start (map fst sets) s) in *. set (bl := block (map fst sets) flat s) in *. unfold one_set. assert (cf_regression cf = false) as Rg by (unfold rfprob in Rf; destruct (cf_regression cf); auto; discriminate). rewrite Rg.
  rewrite (omap_range _ nm bl) by (try lia; intros i I; rewrite Gb by auto; reflexivity). cbn [bind].
  destruct (labels_spec cf ncl bl Rf ltac:(lia)) as (ls & -> & Ev & Ml). { eapply Forall_impl; [|exact Hc]. intros a (A & B & _). auto. } cbn [bind]. rewrite Rf, Ev.
  assert (Forall in_short (map fst ls)) as Sl. { clear -Ml Hc. induction Ml as [|a l bl ls' (n & I & _) M IH]; constructor; inversion Hc as [|? ? (_ & _ & W) Hc']; subst; auto. rewrite Forall_forall in W. apply (W _ I). }
  assert (map fst ls <> []) as Nl. { intros Q. rewrite Q in Ml. inversion Ml as [Z0|]. rewrite <- Z0 in Lb. cbn in Lb. lia. }
  destruct (mode_spec (map fst ls) (short_fit _ Sl) Nl) as (v & -> & Iv & Mv). cbn [bind]. assert (in_short v) as Sv by (rewrite Forall_forall in Sl; auto). rewrite (to_short_id v Sv).
  set (votes := map (fun a => map snd (an_votes a)) bl) in *.
  assert (Forall (fun v => length v = Z.to_nat ncl /\ Forall (fun x => 0 <= x) v) votes) as Hv. { apply Forall_map. eapply Forall_impl; [|exact Hc]. intros a (A & _ & B). split; [rewrite map_length; unfold zlen in A; lia|]. apply Forall_map. eapply Forall_impl; [|exact B]. intros w []; auto. }
  assert (0 < zsum (concat votes)) as Pv.
  { assert (forall l x, In x l -> 0 < x -> Forall (fun y => 0 <= y) l -> 0 < zsum l) as Ps. { induction l as [|y l IH]; intros x I P0 Fl; [destruct I|]. inversion Fl as [|? ? F1 F2]; subst. pose proof (zsum_nonneg l F2). unfold zsum in *. cbn [fold_right]. destruct I as [<-|I]; [lia|]. specialize (IH x I P0 F2). lia. }
    assert (exists a, In a bl) as (a & Ia) by (destruct bl as [|a]; [cbn in Lb; lia|exists a; left; auto]). rewrite Forall_forall in Hc. destruct (Hc a Ia) as (_ & (w & Iw & Pw) & _). apply (Ps _ (snd w)); auto.
    - apply in_concat. exists (map snd (an_votes a)). split; [apply (in_map (fun a => map snd (an_votes a))); auto|now apply in_map].
    - apply Forall_forall. intros y I. apply in_concat in I. destruct I as (l & Il & I). rewrite Forall_forall in Hv. destruct (Hv l Il) as (_ & Q). rewrite Forall_forall in Q. auto. }
  destruct (probabilities_spec ncl votes ltac:(lia) Hv ltac:(lia)) as (p & -> & Lp & Gp & Sp). cbn [bind]. eexists. split; [rewrite S1; reflexivity|]. cbn [r_mlp r_mli r_rfp r_rfm].
  split; [exists (map fst ls); split; auto; split; auto|]. split; auto. exists p. split; auto. split; [unfold all_votes; fold votes; lia|]. split; [intros c x E; destruct (Gp c x E) as (A & B); rewrite <- col_sum_votes; unfold all_votes; fold votes; auto|]. split; auto. split; intros ->; auto.
Qed.
Theorem C101_forest_label cf mask exclude valid flat sets : ready mask exclude valid flat sets -> cf_regression cf = false -> cf_rfp cf || cf_rfm cf = true -> forest_ready flat sets ->
  exists rs, pixel cf mask exclude valid flat sets = Ret rs /\ length rs = length sets /\ forall s r, nth_error rs s = Some r ->
    (exists labels, Forall2 (fun a l => most_votes l (an_votes a)) (block (map fst sets) flat s) labels /\ most_frequent (r_mlp r) labels) /\ r_mli r = nth s (map fst sets) 0.
Proof.
  intros Rd Rg P Fr. destruct (forest_sets cf mask exclude valid flat sets Rd) as (rs & E & L & H); auto; [unfold rfprob; rewrite Rg, P; auto|]. exists rs. split; auto. split; auto. intros s r G. destruct (H s r G) as (A & B & _). auto.
Qed.

(** Models of a set with different classes: the number of columns of the last model is read from all of them. *)
Theorem C101_classes_differ_refuted : exists cf flat, cf_regression cf = false /\ cf_rfp cf = true /\ (forall a, In a flat -> has_columns (zlen (an_votes a)) a) /\ pixel cf None false [] flat [(2, 3)] = UB.
Proof.
  exists (mkConf false false true false 1 0 (-9999)), [mkAnswer 0 [(1, 5); (2, 5)]; mkAnswer 0 [(1, 5); (2, 5); (3, 0)]]. split; [reflexivity|]. split; [reflexivity|]. split; [|reflexivity].
  intros a [<-|[<-|[]]]; (split; [reflexivity|]; split; [exists (1, 5); cbn; split; [auto|lia]|]; repeat constructor; cbn; lia).
Qed.
Example C101_case : let flat := map (fun v => mkAnswer v []) [3; 1; 3; 2]%R in ready (Some true) false [false] flat [(3, 0); (1, 0)] /\ Forall (fun a => in_short (Ztrunc (an_value a))) flat /\ most_frequent 3 [3; 1; 3].
Proof.
  split; [split; [discriminate|split; [discriminate|split; [repeat constructor; cbn; lia|cbn; lia]]]|]. split.
  - repeat constructor; cbn [an_value]; rewrite Ztrunc_IZR; unfold in_short; lia.
  - split; [cbn; auto|]. intros w. unfold count. cbn [count_occ]. repeat destruct (Z.eq_dec _ _); lia.
Qed.
Example C101_forest_case : let flat := [mkAnswer 0 [(1, 7); (4, 3)]; mkAnswer 0 [(1, 2); (4, 8)]; mkAnswer 0 [(1, 0); (4, 10)]] in
  ready None false [] flat [(3, 2)] /\ forest_ready flat [(3, 2)] /\ most_votes 4 [(1, 2); (4, 8)] /\ most_frequent 4 [1; 4; 4].
Proof.
  split; [split; [discriminate|split; [discriminate|split; [repeat constructor; cbn; lia|cbn; lia]]]|]. split; [|split].
  - intros s nm ncl G. destruct s as [|s]; [|destruct s; discriminate]. injection G as <- <-. split; [lia|]. split; [|apply Z.leb_le; reflexivity]. cbn [map fst block start firstn zsum fold_right nth skipn Z.to_nat Pos.to_nat Pos.iter_op Nat.add]. repeat constructor; cbn; try lia; eexists; (split; [right; left; reflexivity|cbn; lia]) .
  - exists 8. split; [cbn; auto|]. intros w k [E|[E|[]]]; injection E as <- <-; lia.
  - split; [cbn; auto|]. intros w. unfold count. cbn [count_occ]. repeat destruct (Z.eq_dec _ _); lia.
Qed.

(** ** C102 Class probabilities and margin *)
Theorem C102_probability_partial cf mask exclude valid flat sets : ready mask exclude valid flat sets -> cf_regression cf = false -> cf_rfp cf = true -> forest_ready flat sets ->
  exists rs, pixel cf mask exclude valid flat sets = Ret rs /\ length rs = length sets /\ forall s r, nth_error rs s = Some r -> let bl := block (map fst sets) flat s in
    zlen (r_rfp r) = snd (nth s sets (0, 0)) /\ zsum (r_rfp r) <= 10000 /\ forall c x, nth_error (r_rfp r) c = Some x ->
      let q := 10000 * votes_of bl c in let n := all_votes bl in q / n - 1 <= x <= q / n /\ (q mod n <> 0 -> x = q / n).
Proof.
  intros Rd Rg P Fr. destruct (forest_sets cf mask exclude valid flat sets Rd) as (rs & E & L & H); auto; [unfold rfprob; rewrite Rg, P; auto|]. exists rs. split; auto. split; auto. intros s r G bl. destruct (H s r G) as (_ & _ & p & Lp & N & Gp & Sp & Ep & _). fold bl in N, Gp. rewrite (Ep P).
  assert (s < length sets)%nat as Ls by (rewrite <- L; apply nth_error_Some; congruence). destruct (nth_error sets s) as [[nm ncl]|] eqn:Gs; [|apply nth_error_None in Gs; lia]. destruct (Fr s nm ncl Gs) as (Nc & _). replace (nth s sets (0, 0)) with (nm, ncl) in * by (symmetry; now apply nth_error_nth). cbn [snd] in *.
  split; [unfold zlen; rewrite map_length, Lp; lia|]. split; auto. intros c x Gx. rewrite nth_error_map in Gx. destruct (nth_error p c) as [y|] eqn:Gy; [|discriminate]. injection Gx as <-. destruct (Gp c y Gy) as (-> & B). apply share_floor; lia.
Qed.
(** Unanimous trees: 9999 instead of 10000. *)
Theorem C102_unanimous_refuted : Ztrunc (share 3 3) = 9999.
Proof.
  unfold share. rewrite tenth_thousand.
  assert (rnd64 (IZR 3 * (IZR 7378697629483821 * bpow radix2 (-66))) = IZR 5534023222112866 * bpow radix2 (-64))%R as ->.
  { apply rnd64_near; [lia|lia|]. change (bpow radix2 (-66)) with (/ 73786976294838206464)%R. change (bpow radix2 (-64)) with (/ 18446744073709551616)%R. apply Rabs_lt. lra. }
  change (bpow radix2 (-64)) with (/ 18446744073709551616)%R. rewrite (rnd64_near 5497558138879999 (-39)).
  - change (bpow radix2 (-39)) with (/ 549755813888)%R. apply Ztrunc_unfold_case || (rewrite Ztrunc_floor by lra; apply Zfloor_imp; cbn; lra).
  - lia.
  - lia.
  - change (bpow radix2 (-39)) with (/ 549755813888)%R. apply Rabs_lt. lra.
Qed.
(** The margin, if the second class is clearly below the first. *)
Lemma share_le n v w : 0 < n <= 1000000000 -> 0 <= v <= w -> w <= n -> (share n v <= share n w)%R.
Proof.
  intros N V W. unfold share. apply rnd64_le. apply Rmult_le_compat_r; [|apply IZR_le; lia]. set (d := rnd64 (IZR n * rnd64 (1 / 10000))). assert (0 <= d)%R as D.
  { unfold d. rewrite <- rnd64_0. apply rnd64_le. apply Rmult_le_pos; [apply IZR_le; lia|]. rewrite <- rnd64_0. apply rnd64_le. lra. }
  destruct D as [D|<-]; [left; now apply Rinv_0_lt_compat|rewrite Rinv_0; lra].
Qed.
Lemma nth_error_same {A} (l k : list A) : length l = length k -> (forall i x, nth_error l i = Some x -> nth_error k i = Some x) -> l = k.
Proof.
  revert k. induction l as [|a l IH]; intros [|b k] L H; try discriminate; auto. specialize (H 0%nat a eq_refl) as H0. injection H0 as ->. f_equal. apply IH; [cbn in L; lia|]. intros i x E. apply (H (S i) x E).
Qed.
Definition class_votes (bl : list answer) (ncl : Z) : list Z := map (votes_of bl) (seq 0 (Z.to_nat ncl)).
Theorem C102_margin_partial cf mask exclude valid flat sets : ready mask exclude valid flat sets -> cf_regression cf = false -> cf_rfm cf = true -> forest_ready flat sets ->
  exists rs, pixel cf mask exclude valid flat sets = Ret rs /\ length rs = length sets /\ forall s r, nth_error rs s = Some r -> let bl := block (map fst sets) flat s in
    forall v w rest, Permutation (class_votes bl (snd (nth s sets (0, 0)))) (v :: w :: rest) -> w <= v -> Forall (fun x => x <= w) rest ->
    let n := all_votes bl in 10000 * w / n + 2 <= 10000 * v / n -> exists m, r_rfm r = Some m /\ Z.abs (m - (10000 * v / n - 10000 * w / n)) <= 1.
Proof.
  intros Rd Rg P Fr. destruct (forest_sets cf mask exclude valid flat sets Rd) as (rs & E & L & H); auto; [unfold rfprob; rewrite Rg, P, orb_true_r; auto|]. exists rs. split; auto. split; auto. intros s r G bl v w rest Pm Wv Fr' n Gap. destruct (H s r G) as (_ & _ & p & Lp & N & Gp & Sp & _ & Em). fold bl in N, Gp. fold n in N, Gp. rewrite (Em P). eexists. split; [reflexivity|].
  set (cv := class_votes bl (snd (nth s sets (0, 0)))) in *.
  assert (p = map (share n) cv) as Ep. { apply nth_error_same; [unfold cv, class_votes; rewrite !map_length, seq_length; auto|]. intros c x Gx. destruct (Gp c x Gx) as (-> & _). unfold cv, class_votes. rewrite !nth_error_map. rewrite (nth_error_nth' _ 0%nat) by (rewrite seq_length, <- Lp; apply nth_error_Some; congruence). rewrite seq_nth by (rewrite <- Lp; apply nth_error_Some; congruence). reflexivity. }
  assert (forall x, In x cv -> 0 <= x <= n) as Rg'. { intros x I. apply In_nth_error in I. destruct I as (c & I). assert (nth_error p c = Some (share n x)) as Gx by (rewrite Ep, nth_error_map, I; reflexivity). destruct (Gp c _ Gx) as (_ & B). unfold cv, class_votes in I. rewrite nth_error_map in I. assert (c < Z.to_nat (snd (nth s sets (0%Z, 0%Z))))%nat as Lc by (rewrite <- Lp; apply nth_error_Some; congruence). rewrite (nth_error_nth' _ 0%nat) in I by (rewrite seq_length; auto). rewrite seq_nth in I by auto. cbn in I. injection I as <-. auto. }
  assert (In v cv /\ In w cv) as [Iv Iw] by (split; apply (Permutation_in _ (Permutation_sym Pm)); [left|right; left]; auto).
  pose proof (Rg' v Iv) as Rv. pose proof (Rg' w Iw) as Rw.
  destruct (share_floor n v N Rv) as (Fv & _). destruct (share_floor n w N Rw) as (Fw & _). destruct (share_close n w N Rw) as (Pw & _).
  rewrite (margin_spec p (share n v) (share n w)); [lia| |auto| |].
  - exists (map (share n) rest). split; [rewrite Ep; change (share n v :: share n w :: map (share n) rest) with (map (share n) (v :: w :: rest)); now apply Permutation_map|]. split; [apply share_le; lia|]. apply Forall_map. apply Forall_forall. intros x I. rewrite Forall_forall in Fr'. specialize (Fr' x I). apply share_le; auto; [|lia]. split; auto. apply Rg'. apply (Permutation_in _ (Permutation_sym Pm)). right. right. auto.
  - apply Forall_forall. intros x I. rewrite Ep in I. apply in_map_iff in I. destruct I as (y & <- & I). apply share_close; auto.
  - assert (share n w < IZR (10000 * w / n + 1))%R as U. { pose proof (Zfloor_ub (share n w)) as Q. rewrite Ztrunc_floor in Fw by auto. eapply Rlt_le_trans; [exact Q|]. rewrite <- (plus_IZR _ 1). apply IZR_le. lia. }
    eapply Rlt_le_trans; [exact U|]. apply IZR_le. lia.
Qed.
(** Two classes with the same number of votes: the margin should be 0. *)
Lemma margin_tie x : (0 < x)%R -> Ztrunc x = 5000 -> (x <= 5000)%R -> margin [x; x] = 5000.
Proof.
  intros P T U. assert (IZR (Ztrunc x) <= x)%R as Lx by (rewrite Ztrunc_floor by lra; apply Zfloor_lb). unfold margin. cbn [fold_left]. rewrite T in *. rewrite (Rlt_bool_true 0 x) by auto. rewrite (Rlt_bool_false 5000 x) by lra. rewrite (Rlt_bool_false x 5000) by lra. rewrite !andb_false_r. reflexivity.
Qed.
Lemma half_share : share 10 5 = IZR 5000.
Proof.
  unfold share. rewrite tenth_thousand.
  assert (rnd64 (IZR 10 * (IZR 7378697629483821 * bpow radix2 (-66))) = IZR 4611686018427388 * bpow radix2 (-62))%R as ->.
  { apply rnd64_near; [lia|lia|]. change (bpow radix2 (-66)) with (/ 73786976294838206464)%R. change (bpow radix2 (-62)) with (/ 4611686018427387904)%R. apply Rabs_lt. lra. }
  assert (IZR 5000 = IZR 5497558138880000 * bpow radix2 (-40))%R as -> by (change (bpow radix2 (-40)) with (/ 1099511627776)%R; lra).
  apply rnd64_near; [lia|lia|]. change (bpow radix2 (-62)) with (/ 4611686018427387904)%R. change (bpow radix2 (-40)) with (/ 1099511627776)%R. apply Rabs_lt. lra.
Qed.
Theorem C102_tie_refuted : exists cf flat r, cf_rfm cf = true /\ pixel cf None false [] flat [(1, 2)] = Ret [r] /\ votes_of flat 0 = votes_of flat 1 /\ r_rfm r = Some 5000.
Proof.
  pose (cf := mkConf false false false true 1 0 (-9999)). pose (flat := [mkAnswer 0 [(1, 5); (2, 5)]]).
  exists cf, flat, (mkResult 1 1 None [] (Some (margin [share 10 5; share 10 5]))). split; [reflexivity|]. split; [reflexivity|]. split; [reflexivity|]. cbn [r_rfm]. f_equal. rewrite half_share. apply margin_tie; [lra|apply Ztrunc_IZR|lra].
Qed.
(** Models whose columns stand for different classes: a band mixes the votes of classes. *)
Definition label_votes (l : Z) (bl : list answer) : Z := zsum (map (fun w => if fst w =? l then snd w else 0) (concat (map an_votes bl))).
Theorem C102_labels_differ_refuted : exists cf flat r, cf_rfp cf = true /\ forest_ready flat [(2, 2)] /\ pixel cf None false [] flat [(2, 2)] = Ret [r] /\
  (forall l, 2 * label_votes l flat <= all_votes flat) /\ exists x, In x (r_rfp r) /\ 9999 <= x.
Proof.
  pose (cf := mkConf false false true false 1 0 (-9999)). pose (flat := [mkAnswer 0 [(1, 10); (2, 0)]; mkAnswer 0 [(2, 10); (3, 0)]]).
  destruct (share_floor 20 20 ltac:(lia) ltac:(lia)) as ((B & _) & _). change (10000 * 20 / 20 - 1) with 9999 in B.
  assert (exists v, pixel cf None false [] flat [(2, 2)] = Ret [mkResult v 2 None [Ztrunc (share 20 20); Ztrunc (share 20 0)] None]) as (v & E) by (eexists; reflexivity).
  exists cf, flat. eexists. split; [reflexivity|]. split; [|split; [exact E|]].
  - intros s nm ncl G. destruct s as [|s]; [|destruct s; discriminate]. injection G as <- <-. split; [lia|]. split; [|apply Z.leb_le; reflexivity]. cbn [map fst block start firstn zsum fold_right nth skipn Z.to_nat Pos.to_nat Pos.iter_op Nat.add]. repeat constructor; cbn; try lia; eexists; (split; [left; reflexivity|cbn; lia]).
  - split; [|exists (Ztrunc (share 20 20)); split; [left; reflexivity|auto]]. intros l. change (all_votes flat) with 20. unfold label_votes, flat. cbn [map concat an_votes app zsum fold_right fst snd]. destruct (1 =? l) eqn:L1; destruct (2 =? l) eqn:L2; destruct (3 =? l); lia.
Qed.
(** The probability is over all trees, not the mean of the models. *)
Theorem C102_pooled : exists bl, 10000 * votes_of bl 0 / all_votes bl = 9000 /\ (map (fun a => 10000 * snd (nth 0 (an_votes a) (0, 0)) / zsum (map snd (an_votes a))) bl) = [10000; 0].
Proof. exists [mkAnswer 0 [(1, 90); (2, 0)]; mkAnswer 0 [(1, 0); (2, 10)]]. split; reflexivity. Qed.
Example C102_case : let bl := [mkAnswer 0 [(1, 7); (4, 3)]; mkAnswer 0 [(1, 2); (4, 8)]] in class_votes bl 2 = [9; 11] /\ all_votes bl = 20 /\ 10000 * 9 / 20 + 2 <= 10000 * 11 / 20.
Proof. split; [reflexivity|]. split; [reflexivity|]. vm_compute. discriminate. Qed.

(** ** C103 Pixels without a prediction *)
Definition is_nodata (nd : Z) (ncl : Z) (r : result) : Prop := r_mlp r = nd /\ r_mli r = nd /\ r_mlu r = Some nd /\ r_rfm r = Some nd /\ zlen (r_rfp r) = ncl /\ Forall (fun x => x = nd) (r_rfp r).
Theorem C103_nodata cf mask exclude valid flat sets : Forall (fun s => 0 <= snd s) sets -> mask = Some false \/ (exclude = true /\ In false valid) ->
  exists rs, pixel cf mask exclude valid flat sets = Ret rs /\ Forall2 (fun s r => is_nodata (cf_nodata cf) (snd s) r) sets rs.
Proof.
  intros N H. exists (map (fun s => empty_set cf (snd s)) sets). split.
  - unfold pixel. replace (_ || _) with true; auto. symmetry. destruct H as [-> |(-> & I)]; auto. apply orb_true_iff. right. cbn [andb]. apply negb_true_iff. destruct (forallb (fun v => v) valid) eqn:Q; auto. rewrite forallb_forall in Q. specialize (Q _ I). discriminate.
  - induction N as [|s sets Hs N IH]; constructor; auto. unfold is_nodata, empty_set. cbn [r_mlp r_mli r_mlu r_rfm r_rfp]. repeat split; auto; [unfold zlen; rewrite repeat_length; lia|]. apply Forall_forall. intros x I. apply repeat_spec in I. auto.
Qed.
(** Otherwise the pixel is predicted, whatever the feature masks say; the number of models is positive. *)
Theorem C103_predicted cf mask exclude valid flat sets : ready mask exclude valid flat sets -> cf_regression cf = true -> cf_mlu cf = false ->
  exists rs, pixel cf mask exclude valid flat sets = Ret rs /\ length rs = length sets /\ forall s r, nth_error rs s = Some r -> 1 <= r_mli r <= nth s (map fst sets) 0.
Proof.
  intros Rd Rg U. destruct (C100_regression cf mask exclude valid flat sets Rd Rg (or_introl U)) as (rs & E & L & H). exists rs. split; auto. split; auto. intros s r G. destruct (H s r G) as (n & (S1 & S2 & S3) & _ & -> & _). destruct Rd as (_ & _ & F & Lf).
  assert (s < length sets)%nat as Ls by (rewrite <- L; apply nth_error_Some; congruence). destruct (nth_error sets s) as [[nm ncl]|] eqn:Gs; [|apply nth_error_None in Gs; lia]. destruct (set_facts sets flat s nm ncl F Lf Gs) as (Nm & S0 & N1 & S4 & Lb & _). rewrite map_length in *. rewrite Nm. unfold zlen in Lb.
  destruct (Nat.eq_dec n (length (block (map fst sets) flat s))); [lia|]. destruct S3 as (S3 & _); lia.
Qed.
(** Invalid features enter the prediction unless they are excluded. *)
Theorem C103_invalid_ignored cf mask valid valid' flat sets : pixel cf mask false valid flat sets = pixel cf mask false valid' flat sets.
Proof. reflexivity. Qed.
Example C103_case : let r := pixel sample_conf None true [true; false] [] [(3, 2)] in exists rs, r = Ret rs /\ Forall2 (fun s r => is_nodata (-9999) (snd s) r) [(3, 2)] rs.
Proof. apply (C103_nodata sample_conf); [repeat constructor; cbn; lia|]. right. split; auto. cbn. auto. Qed.

Print Assumptions C100_regression.
Print Assumptions C100_no_threshold.
Print Assumptions C100_stop_unique.
Print Assumptions C100_single_model_refuted.
Print Assumptions C101_label.
Print Assumptions C101_forest_label.
Print Assumptions C101_classes_differ_refuted.
Print Assumptions C102_probability_partial.
Print Assumptions C102_unanimous_refuted.
Print Assumptions C102_margin_partial.
Print Assumptions C102_tie_refuted.
Print Assumptions C102_labels_differ_refuted.
Print Assumptions C102_pooled.
Print Assumptions C103_nodata.
Print Assumptions C103_predicted.
Print Assumptions C103_invalid_ignored.
