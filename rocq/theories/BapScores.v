(** The score functions. *)
From Coq Require Import Reals Lra Lia.
From Flocq Require Import Core.
From Verif Require Import Base Loops BaseFacts StatsModel DateModel AggModel ChunkProofs BapModel BapSpec BapProofs.
#[local] Open Scope Z_scope.

Lemma chk_ok z : in_int z -> chk_int z = Ret z.
Proof. unfold chk_int, in_int, in_intb. intros H. replace ((-2147483648 <=? z) && (z <=? 2147483647)) with true by lia. reflexivity. Qed.

(** ** Gaussian tails *)
Lemma width_ok dist s s1 : (0 < s < s1)%R -> dist <> 0 ->
  exists w, tail_width dist s s1 = Fin w /\ (0 < w)%R /\ (w * w * (-2 * ln (s / s1)) = IZR dist * IZR dist)%R.
Proof.
  intros H D. unfold tail_width. rewrite (isnull_no s1), (isnull_no s) by lra.
  assert (ln (s / s1) < 0)%R as L.
  { rewrite <- ln_1. apply ln_increasing; [apply Rdiv_lt_0_compat; lra|]. apply Rmult_lt_reg_r with s1; [lra|]. unfold Rdiv. rewrite Rmult_assoc, Rinv_l; lra. }
  destruct (Rlt_dec 0 (ln (s / s1))); [lra|]. rewrite isnull_no by lra.
  exists (Rabs (IZR dist / sqrt (-2 * ln (s / s1)))). set (q := (-2 * ln (s / s1))%R). assert (0 < q)%R by (unfold q; lra). clearbody q.
  assert (0 < sqrt q)%R by (apply sqrt_lt_R0; auto). assert (IZR dist <> 0%R) by (apply not_0_IZR; auto). repeat split.
  - apply Rabs_pos_lt. apply Rmult_integral_contrapositive_currified; auto. apply Rinv_neq_0_compat. lra.
  - rewrite <- Rabs_mult. rewrite Rabs_pos_eq; [|apply Rle_0_sqr]. rewrite <- (sqrt_sqrt q) at 3 by lra. field. lra.
Qed.

Lemma gauss_val dist s s1 d2 : (0 < s < s1)%R -> dist <> 0 ->
  gauss s1 d2 (tail_width dist s s1) = Some (s1 * exp (IZR d2 / (IZR dist * IZR dist) * ln (s / s1)))%R.
Proof.
  intros H D. destruct (width_ok dist s s1 H D) as (w & -> & P & E). cbn [gauss]. rewrite isnull_no by lra.
  do 3 f_equal. assert (IZR dist <> 0%R) by (apply not_0_IZR; auto).
  rewrite <- E.
  assert (ln (s / s1) <> 0%R) as N. { intros N. rewrite N in E. assert (IZR dist * IZR dist <> 0)%R by (now apply Rmult_integral_contrapositive_currified). lra. }
  field. split; auto. lra.
Qed.

Section Tail.
Variables (dist : Z) (s s1 : R).
Hypotheses (S : (0 < s < s1)%R) (D : dist <> 0).
Lemma tail_ln : (ln (s / s1) < 0)%R.
Proof.
  rewrite <- ln_1. apply ln_increasing; [apply Rdiv_lt_0_compat; lra|]. apply Rmult_lt_reg_r with s1; [lra|]. unfold Rdiv. rewrite Rmult_assoc, Rinv_l; lra.
Qed.
Lemma tail_sqr : (0 < IZR dist * IZR dist)%R.
Proof. rewrite <- mult_IZR. apply IZR_lt. nia. Qed.
Lemma gauss_range d2 : 0 <= d2 -> exists g, gauss s1 d2 (tail_width dist s s1) = Some g /\ (0 < g <= s1)%R.
Proof.
  intros P. rewrite gauss_val by auto. eexists. split; [reflexivity|]. pose proof tail_ln as L. pose proof tail_sqr as Q.
  split; [apply Rmult_lt_0_compat; [lra|apply exp_pos]|]. apply Rle_trans with (s1 * 1)%R; [|lra]. apply Rmult_le_compat_l; [lra|]. rewrite <- exp_0.
  assert (IZR d2 / (IZR dist * IZR dist) * ln (s / s1) <= 0)%R as H.
  { assert (0 <= IZR d2 / (IZR dist * IZR dist))%R. { apply Rmult_le_pos; [now apply IZR_le|]. apply Rlt_le. now apply Rinv_0_lt_compat. } nra. }
  destruct H as [H|H]; [left; now apply exp_increasing|rewrite H; lra].
Qed.
Lemma gauss_zero : gauss s1 0 (tail_width dist s s1) = Some s1.
Proof. rewrite gauss_val by auto. unfold Rdiv. rewrite !Rmult_0_l, exp_0. f_equal. ring. Qed.
Lemma gauss_end : gauss s1 (dist * dist) (tail_width dist s s1) = Some s.
Proof.
  rewrite gauss_val by auto. pose proof tail_sqr as Q. rewrite mult_IZR. unfold Rdiv at 1. rewrite Rinv_r by lra. rewrite Rmult_1_l, exp_ln by (apply Rdiv_lt_0_compat; lra).
  f_equal. field. lra.
Qed.
Lemma gauss_decreases a b : a < b -> exists ga gb, gauss s1 a (tail_width dist s s1) = Some ga /\ gauss s1 b (tail_width dist s s1) = Some gb /\ (gb < ga)%R.
Proof.
  intros H. rewrite !gauss_val by auto. do 2 eexists. repeat split. pose proof tail_ln. pose proof tail_sqr. apply Rmult_lt_compat_l; [lra|]. apply exp_increasing.
  assert (IZR a / (IZR dist * IZR dist) < IZR b / (IZR dist * IZR dist))%R. { apply Rmult_lt_compat_r; [now apply Rinv_0_lt_compat|now apply IZR_lt]. } nra.
Qed.
End Tail.

(** ** Sigmoids and auxiliary scores *)
Lemma logit_range s e : (0 < s)%R -> (0 < s / (1 + exp e) < s)%R.
Proof.
  intros S. pose proof (exp_pos e). split; [apply Rdiv_lt_0_compat; lra|].
  apply Rmult_lt_reg_r with (1 + exp e)%R; [lra|]. unfold Rdiv. rewrite Rmult_assoc, Rinv_l by lra. nra.
Qed.
Lemma logit_decreases s a b : (0 < s)%R -> (a < b)%R -> (s / (1 + exp b) < s / (1 + exp a))%R.
Proof.
  intros S H. pose proof (exp_increasing _ _ H). pose proof (exp_pos a). pose proof (exp_pos b). unfold Rdiv. apply Rmult_lt_compat_l; auto.
  apply Rinv_lt_contravar; [|lra]. apply Rmult_lt_0_compat; lra.
Qed.
Lemma logit_half e : e = 0%R -> (1 / (1 + exp e) = 1 / 2)%R.
Proof. intros ->. rewrite exp_0. lra. Qed.

Lemma unit_scores b o cor : (0 <= cloud_score b o <= 1 /\ 0 <= haze_score b o <= 1 /\ 0 <= cor_score b cor <= 1 /\ 0 <= view_score b o <= 1)%R.
Proof.
  unfold cloud_score, haze_score, cor_score, view_score.
  assert (forall e, 0 <= 1 / (1 + exp e) <= 1)%R as U. { intros e. pose proof (logit_range 1 e ltac:(lra)). lra. }
  repeat split; repeat (match goal with |- context [if ?c then _ else _] => destruct c end); try apply U; lra.
Qed.

(** ** Total score *)
Lemma combine_none f w s t : positive w = false -> combine_with f w s t = t.
Proof. unfold combine_with. now intros ->. Qed.
Lemma combine_add w s t : (0 <= w)%R -> combine_with Rplus w (Some s) (Some t) = Some (t + w * s)%R.
Proof.
  intros H. unfold combine_with. destruct (positive w) eqn:E; [reflexivity|]. assert (w = 0%R) as ->; [|f_equal; ring].
  destruct (Rlt_dec 0 w) as [L|L]; [|lra]. apply positive_ok in L. congruence.
Qed.
Lemma pos_ok w : (0 <= w)%R -> pos w = w.
Proof. intros H. unfold pos. destruct (positive w) eqn:E; auto. destruct (Rlt_dec 0 w) as [L|L]; [|lra]. apply positive_ok in L. congruence. Qed.

Lemma total_add b t d y c h r v : weights_ok b -> b_mul b = false ->
  total b (mkScores t (Some d) (Some y) c h r v) =
    Some ((w_d b * d + w_y b * y + w_c b * c + w_h b * h + w_r b * r + w_v b * v) / (w_d b + w_y b + w_c b + w_h b + w_r b + w_v b))%R.
Proof.
  intros (W1 & W2 & W3 & W4 & W5 & W6 & W) M. unfold total. rewrite M. cbn [s_d s_y s_c s_h s_r s_v].
  rewrite !combine_add by lra. cbn [option_map]. unfold w_total. rewrite !pos_ok by lra. f_equal. f_equal; ring.
Qed.

Lemma combine_mul w s t : (0 <= w <= 1)%R -> (0 <= s <= 1)%R -> (0 <= t <= 1)%R ->
  exists u, combine_with Rmult w (Some s) (Some t) = Some u /\ (0 <= u <= t)%R.
Proof.
  intros W S T. unfold combine_with. destruct (positive w); [|exists t; split; auto; lra]. cbn [num_mul option_map num_op].
  exists (t * (w * s))%R. split; auto. assert (0 <= w * s <= 1)%R by nra. nra.
Qed.
Lemma total_mul b t d y c h r v : weights_ok b -> b_mul b = true ->
  (0 <= d <= 1)%R -> (0 <= y <= 1)%R -> (0 <= c <= 1)%R -> (0 <= h <= 1)%R -> (0 <= r <= 1)%R -> (0 <= v <= 1)%R ->
  exists x, total b (mkScores t (Some d) (Some y) c h r v) = Some x /\ (0 <= x <= 1)%R.
Proof.
  intros (W1 & W2 & W3 & W4 & W5 & W6 & W) M Hd Hy Hc Hh Hr Hv. unfold total. rewrite M. cbn [s_d s_y s_c s_h s_r s_v].
  destruct (combine_mul (w_d b) d 1) as (u1 & -> & U1); auto; try lra.
  destruct (combine_mul (w_y b) y u1) as (u2 & -> & U2); auto; try lra.
  destruct (combine_mul (w_c b) c u2) as (u3 & -> & U3); auto; try lra.
  destruct (combine_mul (w_h b) h u3) as (u4 & -> & U4); auto; try lra.
  destruct (combine_mul (w_r b) r u4) as (u5 & -> & U5); auto; try lra.
  destruct (combine_mul (w_v b) v u5) as (u6 & -> & U6); auto; try lra. exists u6. split; auto. lra.
Qed.

Lemma weighted_range a b1 c d e f x1 x2 x3 x4 x5 x6 : (0 <= a -> 0 <= b1 -> 0 <= c -> 0 <= d -> 0 <= e -> 0 <= f -> 0 < a + b1 + c + d + e + f ->
  0 <= x1 <= 1 -> 0 <= x2 <= 1 -> 0 <= x3 <= 1 -> 0 <= x4 <= 1 -> 0 <= x5 <= 1 -> 0 <= x6 <= 1 ->
  0 <= (a * x1 + b1 * x2 + c * x3 + d * x4 + e * x5 + f * x6) / (a + b1 + c + d + e + f) <= 1)%R.
Proof.
  intros A B C D E F W X1 X2 X3 X4 X5 X6.
  assert (forall w x, 0 <= w -> 0 <= x <= 1 -> 0 <= w * x <= w)%R as H by (intros; nra).
  pose proof (H _ _ A X1). pose proof (H _ _ B X2). pose proof (H _ _ C X3). pose proof (H _ _ D X4). pose proof (H _ _ E X5). pose proof (H _ _ F X6).
  split; [apply Rmult_le_pos; [lra|]; apply Rlt_le; now apply Rinv_0_lt_compat|].
  apply Rmult_le_reg_r with (a + b1 + c + d + e + f)%R; auto. unfold Rdiv. rewrite Rmult_assoc, Rinv_l by lra. lra.
Qed.

(** ** Slices of the years *)
Lemma slice_ok b days : 0 <= b_Yr b -> (1 <= b_Yf b)%R -> 0 <= days <= 2000 -> exists k, slice b days = Ret k /\ 0 <= k <= days.
Proof.
  intros Y F D. unfold slice. assert (1 <= IZR (b_Yr b + 1))%R by (apply (IZR_le 1); lia). set (q := (IZR (b_Yr b + 1) * b_Yf b)%R).
  assert (1 <= q)%R by (unfold q; nra). clearbody q. rewrite isnull_no by lra.
  assert (0 <= IZR days)%R by (apply (IZR_le 0); lia).
  assert (0 <= IZR days / q)%R as N by (apply Rmult_le_pos; auto; apply Rlt_le, Rinv_0_lt_compat; lra).
  assert (IZR days / q <= IZR days)%R.
  { apply Rmult_le_reg_r with q; [lra|]. unfold Rdiv. rewrite Rmult_assoc, Rinv_l by lra. nra. }
  assert (0 <= Ztrunc (IZR days / q) <= days) as K.
  { split; [apply Ztrunc_le in N; now rewrite (Ztrunc_IZR 0) in N|]. rewrite <- (Ztrunc_IZR days) at 2. now apply Ztrunc_le. }
  exists (Ztrunc (IZR days / q)). split; auto. unfold int_of_real. unfold in_intb.
  replace ((-2147483648 <=? Ztrunc (IZR days / q)) && (Ztrunc (IZR days / q) <=? 2147483647)) with true by lia. reflexivity.
Qed.
Lemma square_ok dy s : 0 <= dy -> 0 <= s -> dy * s <= 46340 -> square dy s = Ret (dy * s * dy * s) .
Proof.
  intros A B C. unfold square. assert (0 <= dy * s) by nia. rewrite chk_ok by (unfold in_int; lia). cbn [bind].
  destruct (Z.eq_dec s 0) as [->|N].
  - rewrite !Z.mul_0_r, !Z.mul_0_l. reflexivity.
  - assert (dy <= dy * s) by nia. set (m := dy * s) in *. assert (0 <= m * dy <= 46340 * 46340) by nia. rewrite chk_ok by (unfold in_int; lia). cbn [bind].
    replace (m * dy * s) with (m * m) by (unfold m; ring). rewrite chk_ok by (unfold in_int; nia). f_equal.
Qed.
