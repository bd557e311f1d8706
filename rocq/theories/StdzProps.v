(** C30: standardization of time series. *)
From Coq Require Import Reals Lra.
From Flocq Require Import Core.
From Verif Require Import Base BaseFacts StatsModel StatsSpec StatsProofs AggSpec AggProofs StdzModel StdzSpec StdzProofs.
#[local] Open Scope Z_scope.

(** Every valid value becomes the truncated, clamped standardized value, nodata
    stays.  Exact arithmetic.  Missing: normalising a constant series (refuted). *)
Theorem C30_standardize_partial : forall nodata m l, let vs := valid nodata l in
  2 <= zlen vs -> (m = STD_NORMAL -> exists a b, In a vs /\ In b vs /\ a <> b) ->
  standardize nodata m false l = Ret (map (fun v => if v =? nodata then v else standardized m vs v) l).
Proof. exact standardize_spec. Qed.
(** Fewer than two valid values, no method or a masked pixel: unchanged. *)
Theorem C30_unchanged : forall nodata m masked l,
  zlen (valid nodata l) < 2 \/ m = STD_NONE \/ masked = true -> standardize nodata m masked l = Ret l.
Proof.
  intros nodata m masked l H. unfold standardize. destruct m; auto; destruct masked; auto; rewrite std_fold;
    (destruct H as [H|[H|H]]; try discriminate H); replace (zlen (valid nodata l) <? 2) with true by lia; auto.
Qed.
(** The clamped result always fits. *)
Theorem C30_range : forall nodata m masked l out, Forall in_short l ->
  (m = STD_NORMAL -> exists a b, In a (valid nodata l) /\ In b (valid nodata l) /\ a <> b) ->
  standardize nodata m masked l = Ret out -> zlen out = zlen l /\ Forall in_short out.
Proof.
  intros nodata m masked l out I D E.
  destruct (Z_lt_dec (zlen (valid nodata l)) 2) as [L|L].
  { rewrite C30_unchanged in E by auto. inversion E; subst; auto. }
  destruct masked.
  { rewrite C30_unchanged in E by auto. inversion E; subst; auto. }
  rewrite C30_standardize_partial in E by (auto; lia). inversion E; subst. split.
  { unfold zlen. rewrite map_length. auto. }
  apply Forall_forall. intros v V. apply in_map_iff in V. destruct V as (u & <- & U).
  rewrite Forall_forall in I. destruct (u =? nodata); auto.
  destruct m; cbn [standardized]; auto; apply clip_range.
Qed.

(** Normalising a constant series converts NaN to short. *)
Theorem C30_constant_refuted : forall nodata v n, v <> nodata -> (2 <= n)%nat ->
  standardize nodata STD_NORMAL false (repeat v n) = UB.
Proof.
  intros nodata v n N L. unfold standardize. rewrite std_fold.
  assert (valid nodata (repeat v n) = repeat v n) as ->.
  { clear - N. induction n as [|n IH]; [reflexivity|]. unfold valid in *. cbn [repeat filter].
    replace (v =? nodata) with false by lia. cbn [negb]. now rewrite IH. }
  assert (zlen (repeat v n) = Z.of_nat n) as ZL by (unfold zlen; now rewrite repeat_length). rewrite ZL.
  replace (Z.of_nat n <? 2) with false by lia.
  destruct (run_var_moments (repeat v n)) as [_ ->]; [lia|].
  rewrite (dev2_const _ (IZR v));
    [|intros x I; apply in_map_iff in I; destruct I as (w & <- & I); apply repeat_spec in I; congruence
     |destruct n; [lia|discriminate]].
  unfold standdev, variance. replace (0 / (IZR (Z.of_nat n) - 1))%R with 0%R by (unfold Rdiv; ring).
  rewrite sqrt_0. destruct n as [|n]; [lia|]. cbn [repeat omap]. unfold std_value at 1.
  replace (v =? nodata) with false by lia. destruct (Req_EM_T _ _) as [|C]; [reflexivity|].
  exfalso. apply C. unfold Rdiv. ring.
Qed.

Example C30_example : standardize (-9999) STD_CENTER false [7; -9999; 2; 3] = Ret [3; -9999; -2; -1].
Proof.
  rewrite C30_standardize_partial; [|cbn; lia|discriminate]. change (valid (-9999) [7; -9999; 2; 3]) with [7; 2; 3].
  assert (mean (reals [7; 2; 3]) = 4%R) as M by (unfold mean, reals, size; cbn; lra).
  cbn [map Z.eqb Pos.eqb standardized]. rewrite M.
  assert (forall z, -1000 <= z <= 1000 -> Ztrunc (clip (IZR z)) = z) as C.
  { intros z [A B]. apply IZR_le in A, B. replace (clip (IZR z)) with (IZR z); [apply Ztrunc_IZR|].
    unfold clip, Rmax, Rmin. repeat destruct (Rle_dec _ _); lra. }
  rewrite <- !minus_IZR. rewrite !C by lia. reflexivity.
Qed.
Example C30_hypotheses : 2 <= zlen (valid (-9999) [7; -9999; 2; 3]) /\
  exists a b, In a (valid (-9999) [7; -9999; 2; 3]) /\ In b (valid (-9999) [7; -9999; 2; 3]) /\ a <> b.
Proof. change (valid (-9999) [7; -9999; 2; 3]) with [7; 2; 3]. split; [cbn; lia|]. exists 7, 2. cbn. lia. Qed.

Print Assumptions C30_standardize_partial.
Print Assumptions C30_unchanged.
Print Assumptions C30_range.
Print Assumptions C30_constant_refuted.
