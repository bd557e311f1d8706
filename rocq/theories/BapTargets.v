(** The temporal target and the scores of an observation. *)
From Coq Require Import Reals Lra Lia.
From Flocq Require Import Core.
From Verif Require Import Base Loops BaseFacts LoopsFacts StatsModel DateModel AggModel ChunkProofs BapModel BapSpec BapProofs BapScores.
#[local] Open Scope Z_scope.

Lemma closest_ok ts ce : ts <> [] -> (forall g, In g ts -> Z.abs (ce - t1 g) < 2147483647) ->
  exists g, closest ts ce = Some g /\ In g ts /\ forall g', In g' ts -> Z.abs (ce - t1 g) <= Z.abs (ce - t1 g').
Proof.
  intros N B. unfold closest.
  assert (forall l m w, (forall g, In g l -> In g ts) -> match w with Some g => In g ts /\ m = Z.abs (ce - t1 g) | None => True end ->
    let r := fold_left (fun st g => if Z.abs (ce - t1 g) <? fst st then (Z.abs (ce - t1 g), Some g) else st) l (m, w) in
    fst r <= m /\ (forall g, In g l -> fst r <= Z.abs (ce - t1 g)) /\ (r = (m, w) \/ exists g, r = (Z.abs (ce - t1 g), Some g) /\ In g ts)) as F.
  { induction l as [|g l IH]; intros m w I W; cbn [fold_left].
    - cbn [fst]. repeat split; [lia|intros g []|auto].
    - destruct (Z.ltb_spec (Z.abs (ce - t1 g)) (fst (m, w))) as [L|L]; cbn [fst] in L.
      + destruct (IH (Z.abs (ce - t1 g)) (Some g)) as (I1 & I2 & I3).
        { intros x X. apply I. now right. } { split; auto. apply I. now left. }
        repeat split; [lia| |].
        * intros x [<- |X]; auto.
        * right. destruct I3 as [-> |(x & -> & X)]; [exists g|exists x]; split; auto. apply I. now left.
      + destruct (IH m w) as (I1 & I2 & I3); auto. { intros x X. apply I. now right. }
        repeat split; [lia| |auto]. intros x [<- |X]; auto. lia. }
  destruct ts as [|g0 ts]; [contradiction|].
  destruct (F (g0 :: ts) 2147483647 None ltac:(auto) I) as (F1 & F2 & F3). cbn [hd_error].
  assert (fold_left (fun st g => if Z.abs (ce - t1 g) <? fst st then (Z.abs (ce - t1 g), Some g) else st) (g0 :: ts) (2147483647, Some g0) =
          fold_left (fun st g => if Z.abs (ce - t1 g) <? fst st then (Z.abs (ce - t1 g), Some g) else st) (g0 :: ts) (2147483647, None)) as ->.
  { cbn [fold_left fst]. specialize (B g0 ltac:(now left)). now replace (Z.abs (ce - t1 g0) <? 2147483647) with true by lia. }
  destruct F3 as [F3|(g & F3 & I)].
  - specialize (F2 g0 ltac:(now left)). specialize (B g0 ltac:(now left)). rewrite F3 in F2. cbn [fst] in F2. lia.
  - rewrite F3 in *. cbn [fst snd] in *. exists g. auto.
Qed.

Lemma targets_In b g : In g (static_targets b) <-> exists y, 0 <= y <= 2 * b_Yr b /\ g = static_target b y.
Proof.
  unfold static_targets. rewrite in_map_iff. split.
  - intros (y & <- & I). unfold zupto in I. apply in_map_iff in I. destruct I as (k & <- & I). apply in_seq in I. exists (Z.of_nat k). split; auto. lia.
  - intros (y & R & ->). exists y. split; auto. unfold zupto. apply in_map_iff. exists (Z.to_nat y). split; [lia|]. apply in_seq. lia.
Qed.

Section Sane.
Variable b : bap.
Hypothesis SN : sane b.

Lemma target_ok y : 0 <= y <= 2 * b_Yr b -> let g := static_target b y in
  t1 g = (b_Yt b - b_Yr b + y) * 365 + b_Dt1 b /\ t1 g - 365 < t0 g <= t1 g /\ t1 g <= t2 g < t1 g + 365 /\
  (t0 g = t1 g -> b_Dt0 b = b_Dt1 b) /\ (t2 g = t1 g -> b_Dt2 b = b_Dt1 b) /\ 693500 < t0 g /\
  (t0 g - b_Dt0 b) mod 365 = 0 /\ (t2 g - b_Dt2 b) mod 365 = 0.
Proof.
  intros R. pose proof (ac_days b (sn_accepted b SN)) as (D0 & D1 & D2). pose proof (sn_first b SN) as F.
  unfold static_target, doy2ce. cbn [t0 t1 t2]. set (yr := b_Yt b - b_Yr b + y). assert (1901 <= yr) by (unfold yr; lia). clearbody yr.
  destruct (Z.gtb_spec (b_Dt0 b) (b_Dt1 b)); destruct (Z.ltb_spec (b_Dt2 b) (b_Dt1 b)); repeat split; try lia;
    first [ replace ((yr - 1) * 365 + b_Dt0 b - b_Dt0 b) with ((yr - 1) * 365) by lia; apply Z.mod_mul; lia
          | replace (yr * 365 + b_Dt0 b - b_Dt0 b) with (yr * 365) by lia; apply Z.mod_mul; lia
          | replace ((yr + 1) * 365 + b_Dt2 b - b_Dt2 b) with ((yr + 1) * 365) by lia; apply Z.mod_mul; lia
          | replace (yr * 365 + b_Dt2 b - b_Dt2 b) with (yr * 365) by lia; apply Z.mod_mul; lia ].
Qed.

Lemma closest_static o : near b o -> exists y, 0 <= y <= 2 * b_Yr b /\ closest (static_targets b) (o_ce o) = Some (static_target b y) /\
  closest_target b (o_ce o) (static_target b y) /\ Z.abs (o_ce o - t1 (static_target b y)) <= 36864.
Proof.
  intros (NY & NC). pose proof (ac_days b (sn_accepted b SN)) as (D0 & D1 & D2). pose proof (ac_num b (sn_accepted b SN)) as YR.
  pose proof (ac_year b (sn_accepted b SN)) as YT.
  destruct (closest_ok (static_targets b) (o_ce o)) as (g & E & I & M).
  - intros K. assert (In (static_target b 0) (static_targets b)) as J by (apply targets_In; exists 0; split; auto; lia). rewrite K in J. destruct J.
  - intros g I. apply targets_In in I. destruct I as (y & R & ->). destruct (target_ok y R) as (-> & _). lia.
  - apply targets_In in I. destruct I as (y & R & ->). exists y. split; auto. split; auto. destruct (target_ok y R) as (T1 & T2 & T3 & T4 & T5 & T6 & T7 & T8).
    assert (forall k, - b_Yr b <= k <= b_Yr b -> Z.abs (o_ce o - t1 (static_target b y)) <= Z.abs (o_ce o - ((b_Yt b + k) * 365 + b_Dt1 b))) as M'.
    { intros k K. specialize (M (static_target b (k + b_Yr b))). destruct (target_ok (k + b_Yr b)) as (T & _); [lia|]. rewrite T in M.
      replace (b_Yt b - b_Yr b + (k + b_Yr b)) with (b_Yt b + k) in M by lia. apply M. apply targets_In. exists (k + b_Yr b). split; auto. lia. }
    split.
    + split; [exists (y - b_Yr b); split; [lia|rewrite T1; f_equal; lia]|]. repeat split; auto; lia.
    + specialize (M' 0 ltac:(lia)). lia.
Qed.

Lemma type_ok : match score_type b with Gauss => peak b | Descending => decline b | Ascending => rise b end.
Proof.
  unfold score_type. pose proof (sn_shape b SN) as S. unfold shaped, peak, decline, rise in *.
  destruct (Rlt_dec (b_Ds0 b) (b_Ds1 b)), (Rlt_dec (b_Ds2 b) (b_Ds1 b)), (Rlt_dec (b_Ds2 b) (b_Ds0 b)), (Rlt_dec (b_Ds0 b) (b_Ds2 b)); cbn [andb];
    destruct S as [S|[S|S]]; try lra; try (repeat split; lra); destruct S as (S1 & S2 & S3 & S4); repeat split; auto; lra.
Qed.

(** The temporal scores are defined and between 0 and 1. *)
Lemma temporal_ok o y : near b o -> 0 <= y <= 2 * b_Yr b -> Z.abs (o_ce o - t1 (static_target b y)) <= 36864 ->
  exists d yr dist, temporal b (static_target b y) o = Ret (Some d, Some yr, dist) /\ (0 <= d <= 1)%R /\ (0 <= yr <= 1)%R.
Proof.
  intros (NY & _) R AB. destruct (target_ok y R) as (_ & T2 & T3 & T4 & T5 & _). pose proof (ac_num b (sn_accepted b SN)) as YR.
  pose proof (ac_scores b (sn_accepted b SN)) as (A0 & A1 & A2). pose proof (sn_factor b SN) as YF. pose proof type_ok as TY.
  unfold temporal. remember (static_target b y) as g eqn:EG. set (dy := Z.abs (o_year o - b_Yt b)) in *.
  assert (t_a g = tail_width (t0 g - t1 g) (b_Ds0 b) (b_Ds1 b)) as WA by (now rewrite EG).
  assert (t_b g = tail_width (t2 g - t1 g) (b_Ds2 b) (b_Ds1 b)) as WB by (now rewrite EG). clear EG.
  destruct (slice_ok b (t1 g - t0 g)) as (s & Es & Hs); try lia; auto.
  destruct (slice_ok b (t2 g - t1 g)) as (s' & Es' & Hs'); try lia; auto.
  assert (0 <= dy) by (unfold dy; lia). clearbody dy.
  destruct (score_type b).
  - destruct TY as (P1 & P2 & P3 & P4). assert (t0 g - t1 g <> 0) by lia. assert (t2 g - t1 g <> 0) by lia.
    rewrite chk_ok by (unfold in_int; nia). cbn [bind]. destruct (o_ce o <? t1 g).
    + rewrite Es. cbn [bind]. rewrite square_ok by nia. cbn [bind]. rewrite WA.
      destruct (gauss_range (t0 g - t1 g) (b_Ds0 b) (b_Ds1 b) P1 H0 ((o_ce o - t1 g) * (o_ce o - t1 g))) as (d & -> & D); [nia|].
      destruct (gauss_range (t0 g - t1 g) (b_Ds0 b) (b_Ds1 b) P1 H0 (dy * s * dy * s)) as (e & -> & E); [nia|].
      do 3 eexists. split; [reflexivity|]. split; lra.
    + rewrite Es'. cbn [bind]. rewrite square_ok by nia. cbn [bind]. rewrite WB.
      destruct (gauss_range (t2 g - t1 g) (b_Ds2 b) (b_Ds1 b) P2 H1 ((o_ce o - t1 g) * (o_ce o - t1 g))) as (d & -> & D); [nia|].
      destruct (gauss_range (t2 g - t1 g) (b_Ds2 b) (b_Ds1 b) P2 H1 (dy * s' * dy * s')) as (e & -> & E); [nia|].
      do 3 eexists. split; [reflexivity|]. split; lra.
  - destruct TY as (P1 & P2). assert (0 < b_Ds0 b)%R by lra. destruct (o_ce o <? t0 g).
    + do 3 eexists. split; [reflexivity|]. lra.
    + rewrite Es. cbn [bind]. rewrite chk_ok by (unfold in_int; nia). cbn [bind]. do 3 eexists. split; [reflexivity|]. unfold logistic.
      split; [pose proof (logit_range (b_Ds0 b) (fst (t_fit g) * IZR (o_ce o - t1 g) + snd (t_fit g))%R H0)|
              pose proof (logit_range (b_Ds0 b) (fst (t_fit g) * IZR (t0 g + dy * s - t1 g) + snd (t_fit g))%R H0)]; lra.
  - destruct TY as (P1 & P2). assert (0 < b_Ds2 b)%R by lra. destruct (o_ce o >? t2 g).
    + do 3 eexists. split; [reflexivity|]. lra.
    + rewrite Es'. cbn [bind]. rewrite chk_ok by (unfold in_int; nia). cbn [bind]. do 3 eexists. split; [reflexivity|]. unfold logistic.
      split; [pose proof (logit_range (b_Ds2 b) (fst (t_fit g) * IZR (o_ce o - t1 g) + snd (t_fit g))%R H0)|
              pose proof (logit_range (b_Ds2 b) (fst (t_fit g) * IZR (t2 g - dy * s' - t1 g) + snd (t_fit g))%R H0)]; lra.
Qed.

Definition unit_interval (x : R) : Prop := (0 <= x <= 1)%R.

(** The scores of a valid observation. *)
Lemma score_ok o cor old : near b o -> o_valid o = true ->
  exists t d yr dist, score_one b (static_targets b) o cor old =
      Ret (mkScores (Some t) (Some d) (Some yr) (cloud_score b o) (haze_score b o) (cor_score b cor) (view_score b o), dist) /\
    unit_interval t /\ unit_interval d /\ unit_interval yr /\
    (b_mul b = false -> (t * (w_d b + w_y b + w_c b + w_h b + w_r b + w_v b) =
       w_d b * d + w_y b * yr + w_c b * cloud_score b o + w_h b * haze_score b o + w_r b * cor_score b cor + w_v b * view_score b o)%R).
Proof.
  intros N V. unfold score_one. rewrite V. cbn [negb]. destruct (closest_static o N) as (y & R & C & _ & AB). rewrite C. cbn [of_option bind].
  destruct (target_ok y R) as (T1 & T2 & T3 & _ & _ & T6 & _).
  replace ((t0 (static_target b y) <? 693500) || (t1 (static_target b y) <? 693500) || (t2 (static_target b y) <? 693500)) with false by lia.
  destruct (temporal_ok o y N R AB) as (d & yr & dist & -> & D & Y). cbn [bind].
  assert (exists d', (if isnull (w_d b) then Some 0%R else Some d) = Some d' /\ unit_interval d') as (d' & -> & D').
  { destruct (isnull (w_d b)); eexists; (split; [reflexivity|]); auto. unfold unit_interval. lra. }
  assert (exists d', (if isnull (w_y b) then Some 0%R else Some yr) = Some d' /\ unit_interval d') as (y' & -> & Y').
  { destruct (isnull (w_y b)); eexists; (split; [reflexivity|]); auto. unfold unit_interval. lra. }
  cbn [s_c s_h s_r s_v]. pose proof (ac_weights b (sn_accepted b SN)) as W. destruct (unit_scores b o cor) as (U1 & U2 & U3 & U4).
  destruct (b_mul b) eqn:M.
  - destruct (total_mul b None d' y' (cloud_score b o) (haze_score b o) (cor_score b cor) (view_score b o)) as (t & -> & T); auto.
    exists t, d', y', dist. repeat split; auto; try apply T; try apply D'; try apply Y'; congruence.
  - rewrite total_add by auto. exists ((w_d b * d' + w_y b * y' + w_c b * cloud_score b o + w_h b * haze_score b o + w_r b * cor_score b cor + w_v b * view_score b o) /
      (w_d b + w_y b + w_c b + w_h b + w_r b + w_v b))%R, d', y', dist. split; [reflexivity|]. destruct W as (W1 & W2 & W3 & W4 & W5 & W6 & W).
    split; [apply weighted_range; auto; lra|]. split; auto. split; auto. intros _. field. lra.
Qed.
End Sane.
