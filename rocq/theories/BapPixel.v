(** The scores of all observations of a pixel. *)
From Coq Require Import Reals Lra Lia.
From Flocq Require Import Core.
From Verif Require Import Base Loops BaseFacts LoopsFacts StatsModel StatsSpec DateModel QaiModel QaiSpec QaiProofs AggModel ChunkProofs CsoProofs BapModel BapSpec BapProofs BapScores BapTargets BapCor.
#[local] Open Scope Z_scope.

(** ** The functions *)
Lemma gauss_bell dist s s1 x : (0 < s < s1)%R -> dist <> 0 -> gauss s1 (x * x) (tail_width dist s s1) = Some (bell s1 s x dist).
Proof. intros H D. rewrite gauss_val by auto. unfold bell. now rewrite mult_IZR. Qed.
Lemma bell_sym s1 s x w : bell s1 s x (- w) = bell s1 s x w.
Proof. unfold bell. rewrite opp_IZR. do 4 f_equal. ring. Qed.
Lemma bell_neg s1 s x w : bell s1 s (- x) w = bell s1 s x w.
Proof. unfold bell. rewrite opp_IZR. do 3 f_equal. f_equal. ring. Qed.
Lemma bell_top s1 s w : bell s1 s 0 w = s1.
Proof. unfold bell, Rdiv. rewrite !Rmult_0_l, exp_0. ring. Qed.
Lemma bell_side s1 s w : (0 < s < s1)%R -> w <> 0 -> bell s1 s w w = s.
Proof. intros H W. pose proof (gauss_end w s s1 H W) as G. rewrite gauss_bell in G by auto. congruence. Qed.
Lemma bell_falls s1 s x x' w : (0 < s < s1)%R -> w <> 0 -> Z.abs x < Z.abs x' -> (bell s1 s x' w < bell s1 s x w)%R.
Proof.
  intros H W A. destruct (gauss_decreases w s s1 H W (x * x) (x' * x')) as (ga & gb & E1 & E2 & L); [nia|].
  rewrite gauss_bell in E1, E2 by auto. congruence.
Qed.
Lemma bell_range s1 s x w : (0 < s < s1)%R -> w <> 0 -> (0 < bell s1 s x w <= s1)%R.
Proof. intros H W. destruct (gauss_range w s s1 H W (x * x)) as (g & E & R); [nia|]. rewrite gauss_bell in E by auto. congruence. Qed.

Lemma sigmoid_half : sigmoid 0 = (1 / 2)%R.
Proof. unfold sigmoid. apply logit_half. ring. Qed.
Lemma sigmoid_rises a b : (a < b)%R -> (sigmoid a < sigmoid b)%R.
Proof. intros H. unfold sigmoid. apply logit_decreases; lra. Qed.
Lemma sigmoid_range a : (0 < sigmoid a < 1)%R.
Proof. unfold sigmoid. apply logit_range. lra. Qed.

Lemma cloud_ok b o : weights_ok b -> (1 <= b_dreq b)%R -> weighed (w_c b) (sigmoid (10 / b_dreq b * (IZR (o_dst o) - b_dreq b / 2))) (cloud_score b o).
Proof.
  intros W D. unfold cloud_score, weighed, sigmoid. destruct (positive (w_c b)) eqn:E.
  - apply positive_ok in E. split; intros; [lra|]. do 4 f_equal. field. lra.
  - split; auto. intros N. destruct (Rlt_dec 0 (w_c b)) as [L|L]; [apply positive_ok in L; congruence|]. unfold weights_ok in W. lra.
Qed.
Lemma haze_score_ok b o : weights_ok b -> weighed (w_h b) (sigmoid ((b_hreq b - IZR (o_hot o)) / 20)) (haze_score b o).
Proof.
  intros W. unfold haze_score, weighed, sigmoid. destruct (positive (w_h b)) eqn:E.
  - apply positive_ok in E. split; intros; [lra|]. do 4 f_equal. field.
  - split; auto. intros N. destruct (Rlt_dec 0 (w_h b)) as [L|L]; [apply positive_ok in L; congruence|]. unfold weights_ok in W. lra.
Qed.
Lemma cor_score_ok b c : weights_ok b -> weighed (w_r b) (sigmoid (30 * (c - 2 / 3))) (cor_score b c).
Proof.
  intros W. unfold cor_score, weighed, sigmoid. destruct (positive (w_r b)) eqn:E.
  - apply positive_ok in E. split; intros; [lra|]. do 4 f_equal. field.
  - split; auto. intros N. destruct (Rlt_dec 0 (w_r b)) as [L|L]; [apply positive_ok in L; congruence|]. unfold weights_ok in W. lra.
Qed.
Lemma view_ok b o : weights_ok b -> (1 <= b_vreq b)%R ->
  (0 <= o_vzn o <= 18000 -> weighed (w_v b) (sigmoid (10 / b_vreq b * (b_vreq b / 2 - IZR (o_vzn o) / 100))) (view_score b o)) /\
  (o_vzn o < 0 \/ 18000 < o_vzn o -> view_score b o = 0%R).
Proof.
  intros W D. unfold view_score, weighed, sigmoid.
  assert (forall a c : Z, a <= c -> (IZR a <= IZR c)%R) as LE by (intros; now apply IZR_le).
  assert (forall a c : Z, a < c -> (IZR a < IZR c)%R) as LT by (intros; now apply IZR_lt).
  destruct (positive (w_v b)) eqn:E.
  - apply positive_ok in E. split.
    + intros (A & B). apply LE in A, B. destruct (Rlt_dec (IZR (o_vzn o) / 100) 0); [lra|]. destruct (Rlt_dec 180 (IZR (o_vzn o) / 100)); [lra|]. cbn [orb].
      split; intros; [lra|]. do 4 f_equal. field. lra.
    + intros [A|A]; apply LT in A; [destruct (Rlt_dec (IZR (o_vzn o) / 100) 0); [reflexivity|lra]|].
      destruct (Rlt_dec 180 (IZR (o_vzn o) / 100)); [|lra]. now rewrite orb_true_r.
  - split; auto. intros _. split; auto. intros N. destruct (Rlt_dec 0 (w_v b)) as [L|L]; [apply positive_ok in L; congruence|]. unfold weights_ok in W. lra.
Qed.

Lemma combine_mul_ok w s t : (0 <= w)%R -> exists f, factor w s f /\ combine_with Rmult w (Some s) (Some t) = Some (t * f)%R.
Proof.
  intros W. destruct (Rlt_dec 0 w) as [L|L].
  - exists (w * s)%R. split; [split; intros; [lra|auto]|]. unfold combine_with. apply positive_ok in L. rewrite L. reflexivity.
  - exists 1%R. split; [split; intros; [auto|lra]|]. rewrite combine_none; [f_equal; ring|]. destruct (positive w) eqn:E; auto. apply positive_ok in E. lra.
Qed.
Lemma total_ok b t d y c h r v x : weights_ok b -> total b (mkScores t (Some d) (Some y) c h r v) = Some x -> total_score b d y c h r v x.
Proof.
  intros W E. split; intros M.
  - rewrite total_add in E by auto. injection E as <-. unfold sum_of_weights, weights_ok in *. field. lra.
  - unfold total in E. rewrite M in E. cbn [s_d s_y s_c s_h s_r s_v] in E. destruct W as (W1 & W2 & W3 & W4 & W5 & W6 & _).
    destruct (combine_mul_ok (w_d b) d 1 (proj1 W1)) as (f1 & F1 & E1). rewrite E1 in E.
    destruct (combine_mul_ok (w_y b) y (1 * f1) (proj1 W2)) as (f2 & F2 & E2). rewrite E2 in E.
    destruct (combine_mul_ok (w_c b) c (1 * f1 * f2) (proj1 W3)) as (f3 & F3 & E3). rewrite E3 in E.
    destruct (combine_mul_ok (w_h b) h (1 * f1 * f2 * f3) (proj1 W4)) as (f4 & F4 & E4). rewrite E4 in E.
    destruct (combine_mul_ok (w_r b) r (1 * f1 * f2 * f3 * f4) (proj1 W5)) as (f5 & F5 & E5). rewrite E5 in E.
    destruct (combine_mul_ok (w_v b) v (1 * f1 * f2 * f3 * f4 * f5) (proj1 W6)) as (f6 & F6 & E6). rewrite E6 in E.
    injection E as <-. exists f1, f2, f3, f4, f5, f6. repeat (split; [assumption|]). ring.
Qed.

Lemma slice_step b days : 0 <= b_Yr b -> (1 <= b_Yf b)%R -> 0 <= days <= 2000 -> exists k, slice b days = Ret k /\ 0 <= k <= days /\ year_step b days k.
Proof.
  intros Y F D. destruct (slice_ok b days Y F D) as (k & E & K). exists k. split; auto. split; auto. unfold slice in E. unfold year_step.
  assert (1 <= IZR (b_Yr b + 1))%R by (apply (IZR_le 1); lia). set (q := (IZR (b_Yr b + 1) * b_Yf b)%R) in *.
  assert (1 <= q)%R by (unfold q; nra). clearbody q. rewrite isnull_no in E by lra. unfold int_of_real in E.
  destruct (in_intb (Ztrunc (IZR days / q))); [|discriminate]. injection E as <-.
  assert (0 <= IZR days)%R by (apply (IZR_le 0); lia).
  assert (0 <= IZR days / q)%R as N by (apply Rmult_le_pos; auto; apply Rlt_le, Rinv_0_lt_compat; lra).
  rewrite Ztrunc_floor by auto. split; [apply Zfloor_lb|apply Zfloor_ub].
Qed.

(** ** Temporal scores *)
Section Sane.
Variable b : bap.
Hypothesis SN : sane b.

Lemma shape_type : (peak b -> score_type b = Gauss) /\ (decline b -> score_type b = Descending) /\ (rise b -> score_type b = Ascending).
Proof.
  unfold peak, decline, rise, score_type.
  destruct (Rlt_dec (b_Ds0 b) (b_Ds1 b)), (Rlt_dec (b_Ds2 b) (b_Ds1 b)), (Rlt_dec (b_Ds2 b) (b_Ds0 b)), (Rlt_dec (b_Ds0 b) (b_Ds2 b)); cbn [andb];
    repeat split; auto; intros; try lra; destruct H as (? & ? & _); lra.
Qed.

Lemma temporal_full o y : Z.abs (o_year o - b_Yt b) <= 100 -> 0 <= y <= 2 * b_Yr b -> Z.abs (o_ce o - t1 (static_target b y)) <= 36864 ->
  closest_target b (o_ce o) (static_target b y) ->
  exists d yr dist, temporal b (static_target b y) o = Ret (Some d, Some yr, dist) /\ (0 <= d <= 1)%R /\ (0 <= yr <= 1)%R /\ temporal_scores b o d yr dist /\
    Z.abs (dist - (o_ce o - t1 (static_target b y))) <= 364.
Proof.
  intros NY R AB CT. destruct (target_ok b SN y R) as (_ & T2 & T3 & T4 & T5 & _). pose proof (ac_num b (sn_accepted b SN)) as YR.
  pose proof (ac_scores b (sn_accepted b SN)) as (A0 & A1 & A2). pose proof (sn_factor b SN) as YF. pose proof (type_ok b SN) as TY. pose proof shape_type as (ST1 & ST2 & ST3).
  unfold temporal, temporal_scores. remember (static_target b y) as g eqn:EG.
  assert (t_a g = tail_width (t0 g - t1 g) (b_Ds0 b) (b_Ds1 b)) as WA by (now rewrite EG).
  assert (t_b g = tail_width (t2 g - t1 g) (b_Ds2 b) (b_Ds1 b)) as WB by (now rewrite EG). clear EG.
  destruct (slice_step b (t1 g - t0 g)) as (s & Es & Hs & Ys); try lia; auto.
  destruct (slice_step b (t2 g - t1 g)) as (s' & Es' & Hs' & Ys'); try lia; auto.
  assert (forall k, bell (b_Ds1 b) (b_Ds0 b) (Z.abs (o_year o - b_Yt b) * k) (t1 g - t0 g) = bell (b_Ds1 b) (b_Ds0 b) ((o_year o - b_Yt b) * k) (t1 g - t0 g)) as AB0.
  { intros k. destruct (Z.abs_eq_or_opp (o_year o - b_Yt b)) as [-> | ->]; auto. rewrite Z.mul_opp_l. apply bell_neg. }
  assert (forall k, bell (b_Ds1 b) (b_Ds2 b) (Z.abs (o_year o - b_Yt b) * k) (t2 g - t1 g) = bell (b_Ds1 b) (b_Ds2 b) ((o_year o - b_Yt b) * k) (t2 g - t1 g)) as AB2.
  { intros k. destruct (Z.abs_eq_or_opp (o_year o - b_Yt b)) as [-> | ->]; auto. rewrite Z.mul_opp_l. apply bell_neg. }
  set (dy := Z.abs (o_year o - b_Yt b)) in *. assert (0 <= dy) by (unfold dy; lia). clearbody dy.
  destruct (score_type b).
  - destruct TY as (P1 & P2 & P3 & P4). assert (t0 g - t1 g <> 0) by lia. assert (t2 g - t1 g <> 0) by lia.
    rewrite chk_ok by (unfold in_int; nia). cbn [bind]. destruct (Z.ltb_spec (o_ce o) (t1 g)) as [L|L].
    + rewrite Es. cbn [bind]. rewrite square_ok by nia. cbn [bind]. rewrite WA. replace (dy * s * dy * s) with ((dy * s) * (dy * s)) by ring. rewrite !gauss_bell by auto.
      replace (t0 g - t1 g) with (- (t1 g - t0 g)) by ring. rewrite !bell_sym. rewrite AB0.
      pose proof (bell_range (b_Ds1 b) (b_Ds0 b) (o_ce o - t1 g) (t1 g - t0 g) P1 ltac:(lia)). pose proof (bell_range (b_Ds1 b) (b_Ds0 b) ((o_year o - b_Yt b) * s) (t1 g - t0 g) P1 ltac:(lia)).
      do 3 eexists. split; [reflexivity|]. split; [lra|]. split; [lra|]. split; [|lia]. exists g. split; auto. split; [|split; intros Q; exfalso; [specialize (ST2 Q)|specialize (ST3 Q)]; discriminate].
      intros _. split; auto. split; [|lia]. intros _. exists s. auto.
    + rewrite Es'. cbn [bind]. rewrite square_ok by nia. cbn [bind]. rewrite WB. replace (dy * s' * dy * s') with ((dy * s') * (dy * s')) by ring. rewrite !gauss_bell by auto. rewrite AB2.
      pose proof (bell_range (b_Ds1 b) (b_Ds2 b) (o_ce o - t1 g) (t2 g - t1 g) P2 ltac:(lia)). pose proof (bell_range (b_Ds1 b) (b_Ds2 b) ((o_year o - b_Yt b) * s') (t2 g - t1 g) P2 ltac:(lia)).
      do 3 eexists. split; [reflexivity|]. split; [lra|]. split; [lra|]. split; [|lia]. exists g. split; auto. split; [|split; intros Q; exfalso; [specialize (ST2 Q)|specialize (ST3 Q)]; discriminate].
      intros _. split; auto. split; [lia|]. intros _. exists s'. auto.
  - destruct TY as (P1 & P2). assert (0 < b_Ds0 b)%R as H0 by lra. destruct (Z.ltb_spec (o_ce o) (t0 g)) as [L|L].
    + do 3 eexists. split; [reflexivity|]. split; [lra|]. split; [lra|]. split; [|lia]. exists g. split; auto. split; [intros Q; specialize (ST1 Q); discriminate|].
      split; [intros _; repeat split; auto; lia|intros Q; specialize (ST3 Q); discriminate].
    + rewrite Es. cbn [bind]. rewrite chk_ok by (unfold in_int; nia). cbn [bind]. unfold logistic.
      pose proof (logit_range (b_Ds0 b) (fst (t_fit g) * IZR (o_ce o - t1 g) + snd (t_fit g))%R H0).
      pose proof (logit_range (b_Ds0 b) (fst (t_fit g) * IZR (t0 g + dy * s - t1 g) + snd (t_fit g))%R H0).
      do 3 eexists. split; [reflexivity|]. split; [lra|]. split; [lra|]. split; [|lia]. exists g. split; auto. split; [intros Q; specialize (ST1 Q); discriminate|].
      split; [|intros Q; specialize (ST3 Q); discriminate]. intros _. split; auto. split; [lia|]. intros _. split; assumption.
  - destruct TY as (P1 & P2). assert (0 < b_Ds2 b)%R as H0 by lra. destruct (Z.gtb_spec (o_ce o) (t2 g)) as [L|L].
    + do 3 eexists. split; [reflexivity|]. split; [lra|]. split; [lra|]. split; [|lia]. exists g. split; auto. split; [intros Q; specialize (ST1 Q); discriminate|].
      split; [intros Q; specialize (ST2 Q); discriminate|intros _; repeat split; auto; lia].
    + rewrite Es'. cbn [bind]. rewrite chk_ok by (unfold in_int; nia). cbn [bind]. unfold logistic.
      pose proof (logit_range (b_Ds2 b) (fst (t_fit g) * IZR (o_ce o - t1 g) + snd (t_fit g))%R H0).
      pose proof (logit_range (b_Ds2 b) (fst (t_fit g) * IZR (t2 g - dy * s' - t1 g) + snd (t_fit g))%R H0).
      do 3 eexists. split; [reflexivity|]. split; [lra|]. split; [lra|]. split; [|lia]. exists g. split; auto. split; [intros Q; specialize (ST1 Q); discriminate|].
      split; [intros Q; specialize (ST2 Q); discriminate|]. intros _. split; auto. split; [lia|]. intros _. split; assumption.
Qed.

(** What the scores of a usable, valid observation are; they do not depend on the
    scores of the previous pixel. *)
Definition good_scores (o : obs) (c : R) (s : scores) (dist : Z) : Prop :=
  exists t d y d' y', s = mkScores (Some t) (Some d') (Some y') (cloud_score b o) (haze_score b o) (cor_score b c) (view_score b o) /\
    temporal_scores b o d y dist /\ weighed (w_d b) d d' /\ weighed (w_y b) y y' /\
    total_score b d' y' (cloud_score b o) (haze_score b o) (cor_score b c) (view_score b o) t /\
    (0 <= t <= 1)%R /\ (0 <= d' <= 1)%R /\ (0 <= y' <= 1)%R /\ in_short dist.

Lemma weighed_ok w x : weighed w x (if isnull w then 0 else x)%R.
Proof. split; intros E; [apply isnull_ok in E; now rewrite E|]. now rewrite isnull_no by auto. Qed.

Lemma score_full nb o c old : usable b nb o -> o_valid o = true ->
  exists s dist, score_one b (static_targets b) o c old = Ret (s, dist) /\ good_scores o c s dist /\
    forall old', score_one b (static_targets b) o c old' = Ret (s, dist).
Proof.
  intros U V. pose proof (us_year _ _ _ U) as UY. pose proof (us_day _ _ _ U) as UC. pose proof (us_doy _ _ _ U) as UD.
  assert (near b o) as N by (unfold near; lia).
  destruct (closest_static b SN o N) as (y & R & C & CT & AB).
  destruct (target_ok b SN y R) as (T1 & T2 & T3 & _ & _ & T6 & _).
  destruct (temporal_full o y ltac:(lia) R AB CT) as (d & yr & dist & E & D & Y & TS & DB).
  pose proof (ac_weights b (sn_accepted b SN)) as W. destruct (unit_scores b o c) as (U1 & U2 & U3 & U4).
  assert (exists t, total b (mkScores None (Some (if isnull (w_d b) then 0 else d)%R) (Some (if isnull (w_y b) then 0 else yr)%R) (cloud_score b o) (haze_score b o) (cor_score b c) (view_score b o)) = Some t /\ (0 <= t <= 1)%R) as (t & ET & RT).
  { assert (0 <= (if isnull (w_d b) then 0 else d) <= 1)%R by (destruct (isnull (w_d b)); lra).
    assert (0 <= (if isnull (w_y b) then 0 else yr) <= 1)%R by (destruct (isnull (w_y b)); lra).
    destruct (b_mul b) eqn:M; [apply total_mul; auto|]. rewrite total_add by auto. eexists. split; [reflexivity|].
    destruct W as (W1 & W2 & W3 & W4 & W5 & W6 & W). apply weighted_range; auto; lra. }
  exists (mkScores (Some t) (Some (if isnull (w_d b) then 0 else d)%R) (Some (if isnull (w_y b) then 0 else yr)%R) (cloud_score b o) (haze_score b o) (cor_score b c) (view_score b o)), dist.
  assert (forall old', score_one b (static_targets b) o c old' = Ret (mkScores (Some t) (Some (if isnull (w_d b) then 0 else d)%R) (Some (if isnull (w_y b) then 0 else yr)%R) (cloud_score b o) (haze_score b o) (cor_score b c) (view_score b o), dist)) as S.
  { intros old'. unfold score_one. rewrite V. cbn [negb]. rewrite C. cbn [of_option bind].
    replace ((t0 (static_target b y) <? 693500) || (t1 (static_target b y) <? 693500) || (t2 (static_target b y) <? 693500)) with false by lia.
    rewrite E. cbn [bind s_c s_h s_r s_v].
    replace (if isnull (w_d b) then Some 0%R else Some d) with (Some (if isnull (w_d b) then 0 else d)%R) by (now destruct (isnull (w_d b))).
    replace (if isnull (w_y b) then Some 0%R else Some yr) with (Some (if isnull (w_y b) then 0 else yr)%R) by (now destruct (isnull (w_y b))).
    rewrite ET. reflexivity. }
  split; [apply S|]. split; [|exact S].
  exists t, d, yr, (if isnull (w_d b) then 0 else d)%R, (if isnull (w_y b) then 0 else yr)%R. split; [reflexivity|].
  split; auto. split; [apply weighed_ok|]. split; [apply weighed_ok|]. split; [eapply total_ok; [exact W|exact ET]|]. split; auto.
  split; [destruct (isnull (w_d b)); lra|]. split; [destruct (isnull (w_y b)); lra|].
  destruct CT as (_ & CT & _). pose proof (ac_num b (sn_accepted b SN)) as YN. pose proof (CT 0 ltac:(lia)) as CT0. pose proof (ac_days b (sn_accepted b SN)) as (_ & D1 & _). unfold in_short. lia.
Qed.
End Sane.
