(** Lemmas about weights, predictions and images of the spectral adjustment. *)
From Coq Require Import Reals Lra Lia ZifyBool.
From Flocq Require Import Core.
From Verif Require Import Base Loops BaseFacts LoopsFacts ParamProofs RoundModel RoundFacts L1Model L1Cal AdjModel AdjSpec AdjAngle AdjChoose.
#[local] Open Scope R_scope.

(** ** Weights *)
Lemma lit_close x : 0 <= x <= 1 -> Rabs (rnd64 x - x) <= / 1000000000000.
Proof. intros H. replace (/ 1000000000000) with (1 / 1000000000000) by lra. apply rnd64_err; [lra|]. rewrite Rabs_pos_eq; lra. Qed.
Lemma poor_val : 0.2617994 <= POOR <= 0.2617996.
Proof. unfold POOR. pose proof (lit_close (2617995 / 10000000) ltac:(lra)) as H. apply Rabs_le_inv in H. lra. Qed.
Lemma medi_val : 0.2094394 <= MEDI <= 0.2094396.
Proof. unfold MEDI. pose proof (lit_close (2094395 / 10000000) ltac:(lra)) as H. apply Rabs_le_inv in H. lra. Qed.
Lemma good_val : 0.0698131 <= GOOD <= 0.0698133.
Proof. unfold GOOD. pose proof (lit_close (698132 / 10000000) ltac:(lra)) as H. apply Rabs_le_inv in H. lra. Qed.

Lemma weight_at_anti a b : a <= b -> weight_at b <= weight_at a.
Proof.
  intros H. unfold weight_at. apply rnd64_le. assert (rnd64 (a / POOR) <= rnd64 (b / POOR)); [|lra]. apply rnd64_le. pose proof poor_val. unfold Rdiv. apply Rmult_le_compat_r; auto. left. apply Rinv_0_lt_compat. lra.
Qed.
Lemma weight_at_close a : 0 <= a <= 1 -> Rabs (weight_at a - (1 - a / POOR)) <= / 50000000000.
Proof.
  intros H. unfold weight_at. pose proof poor_val as P.
  assert (0 <= a / POOR <= 4) as Q.
  { split; [apply Rmult_le_reg_r with POOR|apply Rmult_le_reg_r with POOR]; try lra; unfold Rdiv; rewrite Rmult_assoc, Rinv_l by lra; lra. }
  pose proof (rnd64_err (a / POOR) 4 ltac:(lra) ltac:(rewrite Rabs_pos_eq; lra)) as E. apply Rabs_le_inv in E. set (r := rnd64 (a / POOR)) in *.
  pose proof (rnd64_err (1 - r) 5 ltac:(lra) ltac:(apply Rabs_le; lra)) as F. apply Rabs_le_inv in F. apply Rabs_le. lra.
Qed.
Lemma weight_at_apart a b : 0 <= a -> a + / 1000 <= b -> b <= 1 -> weight_at b < weight_at a.
Proof.
  intros A B C. pose proof (weight_at_close a ltac:(lra)) as E. pose proof (weight_at_close b ltac:(lra)) as F. apply Rabs_le_inv in E. apply Rabs_le_inv in F. pose proof poor_val as P.
  assert (a / POOR + / 1000 <= b / POOR); [|lra]. apply Rmult_le_reg_r with POOR; [lra|]. unfold Rdiv. rewrite Rmult_plus_distr_r, !Rmult_assoc, Rinv_l by lra. lra.
Qed.
Lemma med_pos : 0.18 <= MED_WEIGHT.
Proof.
  unfold MED_WEIGHT. pose proof medi_val as M. pose proof (weight_at_close MEDI ltac:(lra)) as E. apply Rabs_le_inv in E. pose proof poor_val as P.
  assert (MEDI / POOR <= 0.81); [|lra]. apply Rmult_le_reg_r with POOR; [lra|]. unfold Rdiv. rewrite Rmult_assoc, Rinv_l by lra. lra.
Qed.
Lemma med_min : MED_WEIGHT <= MIN_WEIGHT.
Proof. apply weight_at_anti. pose proof good_val. pose proof medi_val. lra. Qed.
Lemma small_weight : 0 <= rnd64 (1 / 100000) <= 0.1.
Proof. pose proof (lit_close (1 / 100000) ltac:(lra)) as H. apply Rabs_le_inv in H. lra. Qed.
Lemma weight_nonneg a : 0 <= weight a.
Proof.
  unfold weight. destruct (Rlt_bool_spec POOR a); [apply small_weight|]. unfold weight_at. apply rnd64_nonneg. pose proof poor_val as P.
  assert (rnd64 (a / POOR) <= 1); [|lra]. rewrite <- rnd64_1. apply rnd64_le. apply Rmult_le_reg_r with POOR; [lra|]. unfold Rdiv. rewrite Rmult_assoc, Rinv_l by lra. lra.
Qed.
Lemma weight_below a t : t <= POOR -> t <= MEDI -> weight_at t < weight a -> a < t.
Proof.
  intros T T' H. destruct (Rlt_or_le a t) as [L|L]; auto. exfalso. unfold weight in H. destruct (Rlt_bool_spec POOR a).
  - pose proof small_weight. pose proof med_pos. assert (MED_WEIGHT <= weight_at t) by (apply weight_at_anti; auto). lra.
  - pose proof (weight_at_anti t a L). lra.
Qed.
Lemma enough_similar a g : enough (weight g) (weight a) -> similar a g.
Proof.
  pose proof good_val as G. pose proof medi_val as M. pose proof poor_val as P. unfold enough, similar. intros [H|(H & K)].
  - left. apply weight_below in H; auto; lra.
  - apply weight_below in H; try lra. right. split; auto. destruct (Rlt_or_le a g) as [L|L]; auto. exfalso. unfold weight in K.
    destruct (Rlt_bool_spec POOR a); [lra|]. destruct (Rlt_bool_spec POOR g); [lra|]. pose proof (weight_at_anti g a L). lra.
Qed.

(** ** Weights of all clusters *)
Lemma center_spectrum table s : table6 table -> spectrum (center table s).
Proof.
  intros (L & F). unfold center. split; [rewrite map_length; auto|]. apply Forall_forall. intros v V. apply in_map_iff in V. destruct V as (r & <- & R).
  rewrite Forall_forall in F. specialize (F r R). destruct (nth_in_or_default s r 0%Z) as [I|E]; [|rewrite E; lia]. rewrite Forall_forall in F. apply F. auto.
Qed.
Lemma weights_ok table x : table6 table -> spectrum x -> weights table x = Ret (map (fun s => weight (angle_of table x s)) (seq 0 51)).
Proof.
  intros T X. unfold weights. change (seq 0 (S GLOBAL)) with (seq 0 51). generalize (seq 0 51). intros l.
  induction l as [|s l IH]; cbn [omap map]; auto. unfold angle_of at 1. rewrite angle_def by (auto; apply center_spectrum; auto). cbn [bind]. rewrite IH. reflexivity.
Qed.
Lemma all_length table x : length (all_weights table x) = 51%nat.
Proof. unfold all_weights. rewrite map_length, seq_length. reflexivity. Qed.
Lemma all_nonneg table x : Forall (Rle 0) (all_weights table x).
Proof. apply Forall_forall. intros v V. apply in_map_iff in V. destruct V as (s & <- & _). apply weight_nonneg. Qed.
Lemma all_nth table x s : (s < 51)%nat -> nth_weight (all_weights table x) s = weight (angle_of table x s).
Proof.
  intros S. unfold nth_weight, all_weights. rewrite (nth_indep _ 0 (weight (angle_of table x 0))) by (rewrite map_length, seq_length; auto).
  rewrite (map_nth (fun s => weight (angle_of table x s))), seq_nth by auto. reflexivity.
Qed.

(** ** The clusters used, in any case *)
Lemma choose_bounds : forall n w m, (length w = 51)%nat -> Forall (Rle 0) w -> (snd m < 51)%nat -> 
  let u := choose n w m in (length u <= n)%nat /\ ((0 < n)%nat -> u <> []) /\ Forall (fun p => (fst p <= 50)%nat /\ (0 <= snd p)) u.
Proof.
  pose proof med_pos as MP. pose proof med_min as MM.
  induction n as [|n IH]; intros w m L P S; cbn [choose]; [split; [auto|split; [lia|constructor]]|].
  destruct (_ || _) eqn:E.
  - apply enough_iff in E. assert (0 < fst m) as M0 by (apply enough_pos in E; lra).
    set (w' := list_set w (snd m) 0). assert (L' : length w' = 51%nat) by (unfold w'; rewrite list_set_length; auto). assert (P' : Forall (Rle 0) w') by (apply list_set_nonneg; auto).
    destruct (next_max w' (snd m) L' P') as (N1 & _). destruct (IH w' (next_best w' (snd m)) L' P' ltac:(lia)) as (A & B & C). cbn [length]. split; [lia|]. split; [discriminate|]. constructor; auto. cbn [fst snd]. split; [lia|lra].
  - cbn [length]. split; [lia|]. split; [discriminate|]. constructor; auto. cbn [fst snd]. split; [unfold GLOBAL; lia|]. rewrite Forall_forall in P. apply P. apply nth_In. unfold GLOBAL. lia.
Qed.
Lemma first_bound w : (length w = 51)%nat -> (snd (first_best w) < 51)%nat.
Proof.
  intros L. unfold first_best. destruct (best_ok (fun s => negb (Nat.eqb s (N_SIM - 1))) w 0 (-1) 0) as [(-> & _)|(i & E1 & E2 & _)]; [cbn; lia|].
  rewrite E2. cbn [Nat.add]. rewrite <- L. apply nth_error_Some. congruence.
Qed.

(** ** Predictions *)
Lemma terms_linear c x : terms c x 0 = linear c x.
Proof.
  unfold linear. assert (forall k, terms c x k = fold_right Rplus (c (k + length x)%nat) (map (fun i => c (k + i)%nat * IZR (nth i x 0%Z)) (seq 0 (length x)))) as H; [|apply (H 0%nat)].
  induction x as [|v x IH]; intros k; cbn [terms length seq map fold_right nth]; [rewrite Nat.add_0_r; auto|].
  rewrite Nat.add_0_r, IH. f_equal. rewrite <- seq_shift, map_map. replace (S k + length x)%nat with (k + S (length x))%nat by lia. f_equal. apply map_ext. intros i. cbn [nth]. replace (S k + i)%nat with (k + S i)%nat by lia. reflexivity.
Qed.
Lemma wsum_total u f : wsum u f = total (map (fun p => (snd p, f (fst p))) u).
Proof. induction u as [|(s, w) u IH]; cbn [wsum map total fst snd]; auto. rewrite IH. reflexivity. Qed.
Lemma total_votes coef x b u : total (map (fun p => (fst p, 1)) (votes coef x b u)) = wsum u (fun _ => 1).
Proof. rewrite wsum_total. unfold votes. rewrite map_map. reflexivity. Qed.
Lemma short_cut r v : short_of r = Ret v <-> cut16 r v.
Proof.
  unfold cut16, short_of, in_shortb. split.
  - match goal with |- (if ?b then _ else _) = _ -> _ => destruct b eqn:B end; [|discriminate]. intros H. assert (Ztrunc r = v) by congruence. lia.
  - intros (-> & B). match goal with |- (if ?b then _ else _) = _ => destruct b eqn:C end; [auto|lia].
Qed.
Lemma blended_ok coef x u b v : blended coef x u b = Ret v <-> total (map (fun p => (fst p, 1)) (votes coef x b u)) <> 0 /\ cut16 (mean (votes coef x b u)) v.
Proof.
  unfold blended, mean. rewrite total_votes. assert (wsum u (predict coef x b) = total (votes coef x b u)) as ->.
  { rewrite wsum_total. unfold votes. f_equal. apply map_ext. intros (s, w). cbn [fst snd]. unfold predict. rewrite terms_linear. reflexivity. }
  destruct (Req_bool_spec (wsum u (fun _ => 1)) 0) as [Z|Z]; [split; [discriminate|tauto]|]. rewrite short_cut. tauto.
Qed.
Lemma total_between l lo hi : Forall (fun p => 0 <= fst p /\ lo <= snd p <= hi) l -> lo * total (map (fun p => (fst p, 1)) l) <= total l <= hi * total (map (fun p => (fst p, 1)) l).
Proof. induction 1 as [|(w, v) l (W & V) F IH]; cbn [map total fst snd] in *; [lra|]. split; nra. Qed.
Lemma total_nonneg l : Forall (fun p : R * R => 0 <= fst p) l -> 0 <= total (map (fun p => (fst p, 1)) l).
Proof. induction 1 as [|(w, v) l W F IH]; cbn [map total fst snd] in *; lra. Qed.
Lemma mean_between l lo hi : Forall (fun p => 0 <= fst p /\ lo <= snd p <= hi) l -> total (map (fun p => (fst p, 1)) l) <> 0 -> lo <= mean l <= hi.
Proof.
  intros F N. pose proof (total_between l lo hi F) as B. assert (0 <= total (map (fun p => (fst p, 1)) l)) as T by (apply total_nonneg; eapply Forall_impl; [|apply F]; cbn; tauto).
  unfold mean. set (t := total (map _ l)) in *. assert (0 < t) by lra. split; apply Rmult_le_reg_r with t; auto; unfold Rdiv; rewrite Rmult_assoc, Rinv_l by lra; lra.
Qed.

(** ** Writing the bands *)
#[local] Open Scope Z_scope.
Lemma write_ok : forall dst bands vals out, length vals = length dst -> NoDup dst -> Forall (fun d => 0 <= d < zlen bands) dst ->
  write_bands bands dst vals = Ret out <->
  zlen out = zlen bands /\ (forall i d, nth_error dst i = Some d -> exists v, nth_error vals i = Some v /\ get_at out d = Some v) /\ (forall j, ~ In j dst -> get_at out j = get_at bands j).
Proof.
  induction dst as [|d dst IH]; intros bands vals out L ND F; destruct vals as [|v vals]; try discriminate; cbn [write_bands].
  - split.
    + intros H. assert (bands = out) by congruence. subst. split; auto. split; auto. intros [|i] d; discriminate.
    + intros (Z & _ & A). f_equal. apply get_at_ext; auto. intros i. rewrite A; auto.
  - inversion ND as [|? ? ND1 ND2]; subst. inversion F as [|? ? F1 F2]; subst.
    destruct (set_at bands d v) as [bands'|] eqn:E; [|exfalso; unfold set_at in E; unfold zlen in F1; match type of E with (if ?b then _ else _) = _ => destruct b eqn:B end; [lia|discriminate]].
    cbn [of_option bind]. assert (zlen bands' = zlen bands) as ZL.
    { unfold set_at in E. match type of E with (if ?b then _ else _) = _ => destruct b end; [discriminate|]. inversion E. unfold zlen. rewrite list_set_length. reflexivity. }
    assert (G1 : get_at bands' d = Some v) by (eapply get_set_same; eauto). assert (G2 : forall j, j <> d -> get_at bands' j = get_at bands j) by (intros j J; eapply get_set_other; [exact E|auto]).
    rewrite IH; [|injection L; auto|auto|rewrite ZL; auto]. rewrite ZL. split.
    + intros (A & B & C). split; auto. split.
      * intros [|i] e N; cbn [nth_error] in N |- *; [|apply B; auto]. injection N as <-. exists v. split; auto. rewrite C by auto. auto.
      * intros j J. cbn [In] in J. rewrite C by tauto. apply G2. intros ->. apply J. auto.
    + intros (A & B & C). split; auto. split.
      * intros i e N. apply (B (S i) e N).
      * intros j J. destruct (Z.eq_dec j d) as [->|Q]; [|rewrite G2 by exact Q; apply C; intros X; cbn [In] in X; destruct X as [X|X]; [apply Q; auto|contradiction]].
        destruct (B O d eq_refl) as (v' & V1 & V2). cbn [nth_error] in V1. congruence.
Qed.
