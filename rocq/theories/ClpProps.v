(** C157: which pixels of a Landsat image become clouds. *)
From Coq Require Import Reals Lra Lia ZifyBool Sorted Permutation.
From Flocq Require Import Core.
From Verif Require Import Base BaseFacts RoundModel RoundFacts ClpModel ClpSpec ClpProofs.
#[local] Open Scope Z_scope.

(** The two temperatures that tell clear land apart are quantiles of the clear land, or of all clear pixels if land is rare; rounded to single precision. *)
Theorem C157_quantile npix img : (exists p, reference npix img p) ->
  exists l ql qh, (forall t, In t l <-> exists p, reference npix img p /\ t = IZR (x_temp p)) /\
    is_quantile l lo ql /\ is_quantile l hi qh /\ lowtemp npix img = rnd32 ql /\ hightemp npix img = rnd32 qh /\ (lowtemp npix img <= hightemp npix img)%R.
Proof.
  intros (p & I & P). pose proof lo_hi as LH. assert (E : forall t, In t (base npix img) <-> exists p, reference npix img p /\ t = IZR (x_temp p)).
  { intros t. unfold base, reference, count. rewrite Z.geb_leb, Z.leb_antisym. destruct (1000 * zlen (filter x_lnd img) <? npix) eqn:C; cbn [negb]; unfold temps; rewrite in_map_iff;
      (split; [intros (q & <- & J); apply filter_In in J as (J & K); exists q; auto|intros (q & (J & K) & ->); exists q; rewrite filter_In; auto]). }
  assert (N : base npix img <> []). { intros Z. assert (J : In (IZR (x_temp p)) (base npix img)) by (apply E; exists p; repeat split; auto). rewrite Z in J. contradiction. }
  exists (base npix img), (sorted_quantile (sort (base npix img)) lo), (sorted_quantile (sort (base npix img)) hi). split; [exact E|]. split; [apply quantile_is; auto; lra|]. split; [apply quantile_is; auto; lra|]. split; [reflexivity|]. split; [reflexivity|]. apply low_high.
Qed.
(** The temperature span that land probabilities are divided by is at least 1 (0.01 K): no division by zero, whatever the image. *)
Theorem C157_denominator npix img : (forall p, In p img -> stored p) -> (1 <= b_of (lowtemp npix img) (hightemp npix img))%R.
Proof.
  intros H. pose proof lo_hi. assert (T : forall p, In p img -> in_short (x_temp p)) by (intros p I; apply H; exact I). pose proof (base_range npix img lo ltac:(lra) T). pose proof (base_range npix img hi ltac:(lra) T).
  apply b_pos; [apply H1|apply low_high|apply H2].
Qed.
(** A larger tolerance never adds a cloud. *)
Theorem C157_monotone npix c d img p : (c <= d)%R -> cloud npix d img p = true -> cloud npix c img p = true.
Proof.
  intros L C. unfold cloud in *. cbv zeta in *. apply andb_prop in C as (C & ->). rewrite andb_true_r. apply orb_prop in C as [C| ->]; [|rewrite !orb_true_r; reflexivity]. apply orb_prop in C as [C| ->]; [|rewrite !orb_true_r; reflexivity].
  apply orb_prop in C as [C|C].
  - apply andb_prop in C as (-> & C). apply Rlt_t in C. assert (M : (lclr_max npix c img <= lclr_max npix d img)%R) by (apply rnd32_le; lra). rewrite (proj2 (Rlt_t _ _)) by lra. reflexivity.
  - apply andb_prop in C as (-> & C). apply Rlt_t in C. assert (M : (wclr_max c img <= wclr_max d img)%R). { unfold wclr_max. destruct (_ >? 0); [apply rnd32_le; lra|lra]. } rewrite (proj2 (Rlt_t (wclr_max c img) _)) by lra. cbn [andb]. rewrite !orb_true_r. reflexivity.
Qed.
(** On land a candidate that is colder than a cloud, and no less cloud-like in colour, is a cloud too. *)
Theorem C157_colder npix c img p q : (forall r, In r img -> stored r) -> In p img -> In q img ->
  x_off p = false -> x_off q = false -> x_water p = false -> x_water q = false -> x_sat p = false -> x_pcp q = true -> x_brt q = true ->
  x_temp q <= x_temp p -> x_var p <= x_var q -> cloud npix c img p = true -> cloud npix c img q = true.
Proof.
  intros H IP IQ OP OQ WP WQ SP PQ BQ T V C. unfold cloud in *. cbv zeta in *. rewrite WP, SP in C. rewrite WQ, PQ, BQ. cbn [andb negb] in *. rewrite andb_false_r in C. cbn [andb] in C. rewrite !orb_false_r in C. rewrite orb_false_r, andb_true_r. apply andb_prop in C as (C & _).
  assert (S : forall r, In r img -> in_short (x_temp r)) by (intros r I; apply H; exact I). destruct (H p IP) as (_ & _ & _ & VP). apply orb_prop in C as [C|C].
  - rewrite andb_true_r in C. apply andb_prop in C as (_ & C). apply Rlt_t in C. pose proof (landprob_mono npix img p q S OP OQ T ltac:(lia)). rewrite (proj2 (Rlt_t _ _)) by lra. reflexivity.
  - apply Rlt_t in C. apply IZR_le in T. rewrite (proj2 (Rlt_t (IZR (x_temp q)) _)) by lra. rewrite !orb_true_r. reflexivity.
Qed.
(** Land that is warmer than the span of probabilities is no cloud. *)
Lemma too_warm npix c img p : (forall r, In r img -> stored r) -> In p img -> x_water p = false -> x_sat p = false -> (0 <= c)%R ->
  (a_of (hightemp npix img) <= IZR (x_temp p))%R -> cloud npix c img p = false.
Proof.
  intros H I W S C T. assert (ST : forall r, In r img -> in_short (x_temp r)) by (intros r J; apply H; exact J). pose proof (C157_denominator npix img H) as B. pose proof lo_hi as LH. pose proof (low_high npix img) as O.
  pose proof (base_range npix img lo ltac:(lra) ST) as BL. pose proof (base_range npix img hi ltac:(lra) ST) as BH. fold (lowtemp npix img) in BL. fold (hightemp npix img) in BH.
  assert (Z : landprob (lowtemp npix img) (hightemp npix img) p = 0%R).
  { unfold landprob. destruct (x_off p); auto. cbv zeta. assert (N : (fdiv (fsub (a_of (hightemp npix img)) (IZR (x_temp p))) (b_of (lowtemp npix img) (hightemp npix img)) <= 0)%R).
    { unfold fdiv. rewrite <- rnd32_0. apply rnd32_le. assert (F : (fsub (a_of (hightemp npix img)) (IZR (x_temp p)) <= 0)%R) by (unfold fsub; rewrite <- rnd32_0; apply rnd32_le; lra). set (b := b_of (lowtemp npix img) (hightemp npix img)) in *. clearbody b. set (f := fsub _ _) in *. clearbody f. assert (K : (0 < / b)%R) by (apply Rinv_0_lt_compat; lra). unfold Rdiv. nra. }
    assert (E : (if Rlt' (fdiv (fsub (a_of (hightemp npix img)) (IZR (x_temp p))) (b_of (lowtemp npix img) (hightemp npix img))) 0 then 0 else fdiv (fsub (a_of (hightemp npix img)) (IZR (x_temp p))) (b_of (lowtemp npix img) (hightemp npix img)))%R = 0%R).
    { destruct (Rlt' _ 0) eqn:E; auto. apply Rlt_f in E. lra. } rewrite E, Rmult_0_l, rnd64_0, rnd32_0. reflexivity. }
  assert (M : (0 <= lclr_max npix c img)%R). { unfold lclr_max, fadd. rewrite <- rnd32_0. apply rnd32_le. apply Rplus_le_le_0_compat; [|exact C]. apply quantile_nonneg; [lra|]. apply Forall_forall. intros x J. apply in_map_iff in J as (q & <- & J). apply filter_In in J as (J & _). apply landprob_nonneg; auto. apply H. exact J. }
  unfold cloud. cbv zeta. rewrite W, S, Z. cbn [andb negb]. rewrite andb_false_r. cbn [andb]. rewrite (proj2 (Rlt_f _ 0)) by exact M. rewrite andb_false_r. cbn [orb]. rewrite orb_false_r.
  rewrite (proj2 (Rlt_f _ _)); [reflexivity|]. apply Rle_trans with (hightemp npix img).
  - apply Rle_trans with (lowtemp npix img); [|exact O]. assert (E : rnd32 (lowtemp npix img) = lowtemp npix img) by (unfold lowtemp, quantile; apply rnd32_idem). rewrite <- E at 2. apply rnd32_le. lra.
  - assert (E : rnd32 (hightemp npix img) = hightemp npix img) by (unfold hightemp, quantile; apply rnd32_idem). eapply Rle_trans; [|exact T]. unfold a_of. rewrite <- E at 1. apply rnd32_le.
    assert (E1 : (Rabs (rnd64 (hightemp npix img + 400) - (hightemp npix img + 400)) <= 1 / 1000000)%R) by (apply (rnd64_abs _ 40000); [lia|apply Rabs_le; lra]). apply Rabs_le_inv in E1. lra.
Qed.
(** Land that is 4.01 K warmer than the warm clear land is no cloud, unless saturated. *)
Theorem C157_warm npix c img p : (forall r, In r img -> stored r) -> In p img -> x_water p = false -> x_sat p = false -> (0 <= c)%R ->
  (hightemp npix img + 401 <= IZR (x_temp p))%R -> cloud npix c img p = false.
Proof.
  intros H I W S C T. apply too_warm; auto. eapply Rle_trans; [|exact T]. assert (ST : forall r, In r img -> in_short (x_temp r)) by (intros r J; apply H; exact J). pose proof lo_hi as LH. pose proof (base_range npix img hi ltac:(lra) ST) as BH. fold (hightemp npix img) in BH. unfold a_of.
  assert (E1 : (Rabs (rnd64 (hightemp npix img + 400) - (hightemp npix img + 400)) <= 1 / 1000000)%R) by (apply (rnd64_abs _ 40000); [lia|apply Rabs_le; lra]). apply Rabs_le_inv in E1. set (u := rnd64 _) in *. clearbody u.
  assert (E5 : (Rabs (rnd32 u - u) <= 40000 / 10000000)%R) by (apply (rnd32_abs _ 40000); [lia|apply Rabs_le; lra]). apply Rabs_le_inv in E5. lra.
Qed.
(** The probability over land follows the stated formula up to 0.02, for whatever values the image holds. *)
Theorem C157_land npix img p : (forall r, In r img -> stored r) -> In p img -> x_off p = false ->
  (Rabs (landprob (lowtemp npix img) (hightemp npix img) p - land_chance (lowtemp npix img) (hightemp npix img) p) <= 1 / 50)%R.
Proof.
  intros H I O. assert (ST : forall r, In r img -> in_short (x_temp r)) by (intros r J; apply H; exact J). pose proof lo_hi as LH. pose proof (base_range npix img lo ltac:(lra) ST) as BL. pose proof (base_range npix img hi ltac:(lra) ST) as BH.
  apply landprob_close; auto; [apply BL|apply low_high|apply BH].
Qed.
(** So does the one over water, wherever the image shows clear water. *)
Theorem C157_water img p : (forall r, In r img -> stored r) -> In p img -> x_off p = false -> 0 <= x_sw1 p -> (exists q, In q img /\ x_water q = true /\ x_sw2 q <= 300) ->
  exists w l, (forall t, In t l <-> exists q, In q img /\ x_water q = true /\ x_sw2 q <= 300 /\ t = IZR (x_temp q)) /\ is_quantile l hi w /\
    (Rabs (waterprob img p - water_chance (rnd32 w) p) <= 1 / 50)%R.
Proof.
  intros H I O S (q & J & W & C). pose proof lo_hi as LH. assert (ST : forall r, In r img -> in_short (x_temp r)) by (intros r K; apply H; exact K).
  assert (E : forall t, In t (temps clear_water img) <-> exists q, In q img /\ x_water q = true /\ x_sw2 q <= 300 /\ t = IZR (x_temp q)).
  { intros t. unfold temps. rewrite in_map_iff. split.
    - intros (r & <- & K). apply filter_In in K as (K & L). unfold clear_water in L. apply andb_prop in L as (L & L2). exists r. repeat split; auto; lia.
    - intros (r & K & L & L2 & ->). exists r. split; auto. apply filter_In. split; auto. unfold clear_water. rewrite L. cbn [andb]. lia. }
  exists (sorted_quantile (sort (temps clear_water img)) hi), (temps clear_water img). split; [exact E|]. split.
  - apply quantile_is; [|lra]. intros Z. assert (K : In (IZR (x_temp q)) (temps clear_water img)) by (apply E; exists q; auto). rewrite Z in K. contradiction.
  - apply (waterprob_close img p O (H p I)); auto; [|lia]. exists q. split; auto. unfold clear_water. rewrite W. cbn [andb]. lia.
Qed.
(** A bright candidate on land, neither saturated nor very cold, is a cloud exactly if its probability exceeds the quantile over clear land plus the tolerance. *)
Theorem C157_decision npix c img p : x_brt p = true -> x_pcp p = true -> x_water p = false -> x_sat p = false -> (fsub (lowtemp npix img) 3500 <= IZR (x_temp p))%R -> (exists q, In q img /\ x_lnd q = true) ->
  exists l k, (forall v, In v l <-> exists q, In q img /\ x_lnd q = true /\ v = landprob (lowtemp npix img) (hightemp npix img) q) /\ is_quantile l hi k /\
    (cloud npix c img p = true <-> (rnd32 (rnd32 k + c) < landprob (lowtemp npix img) (hightemp npix img) p)%R).
Proof.
  intros B P W S T (q & J & L). pose proof lo_hi as LH. set (f := landprob (lowtemp npix img) (hightemp npix img)). assert (E : forall v, In v (map f (filter x_lnd img)) <-> exists q, In q img /\ x_lnd q = true /\ v = f q).
  { intros v. rewrite in_map_iff. split; [intros (r & <- & K); apply filter_In in K as (K & M); exists r; auto|intros (r & K & M & ->); exists r; rewrite filter_In; auto]. }
  exists (map f (filter x_lnd img)), (sorted_quantile (sort (map f (filter x_lnd img))) hi). split; [exact E|]. split.
  - apply quantile_is; [|lra]. intros Z. assert (K : In (f q) (map f (filter x_lnd img))) by (apply E; exists q; auto). rewrite Z in K. contradiction.
  - unfold cloud. cbv zeta. rewrite B, P, W, S, (proj2 (Rlt_f _ _) T). cbn [andb negb]. rewrite !orb_false_r, andb_true_r. apply Rlt_t.
Qed.
(** Bright pixels that are saturated, or 35 K colder than the cold clear land, are clouds. *)
Theorem C157_sure npix c img p : x_brt p = true -> (x_sat p = true \/ (IZR (x_temp p) < fsub (lowtemp npix img) 3500)%R) -> cloud npix c img p = true.
Proof. intros B [S|T]; unfold cloud; cbv zeta; rewrite B; [rewrite S, !orb_true_r; reflexivity|]. apply Rlt_t in T. rewrite T, !orb_true_r. reflexivity. Qed.
(** Nothing else is a cloud: a cloud is bright, and a candidate, saturated or very cold. *)
Theorem C157_only npix c img p : cloud npix c img p = true -> x_brt p = true /\ (x_pcp p = true \/ x_sat p = true \/ (IZR (x_temp p) < fsub (lowtemp npix img) 3500)%R).
Proof.
  unfold cloud. cbv zeta. intros C. apply andb_prop in C as (C & B). split; auto. apply orb_prop in C as [C|C]; auto. apply orb_prop in C as [C|C]; [|apply Rlt_t in C; auto]. left. apply orb_prop in C as [C|C]; apply andb_prop in C as (C & _); apply andb_prop in C as (C & _); exact C.
Qed.
(** Without clear water the image gives no measure for water: candidates over water are no clouds, unless saturated or very cold. *)
Theorem C157_no_clear_water npix c img p : (forall q, In q img -> x_water q = true -> 300 < x_sw2 q) -> x_water p = true -> x_sat p = false -> (fsub (lowtemp npix img) 3500 <= IZR (x_temp p))%R -> cloud npix c img p = false.
Proof.
  intros H W S T. assert (Z : count clear_water img = 0). { unfold count, zlen. destruct (filter clear_water img) as [|q t] eqn:E; auto. assert (J : In q (filter clear_water img)) by (rewrite E; left; reflexivity). apply filter_In in J as (J & K). unfold clear_water in K. apply andb_prop in K as (K & L). specialize (H q J K). lia. }
  unfold cloud. cbv zeta. rewrite W, S, (proj2 (Rlt_f _ _) T). cbn [negb]. rewrite andb_false_r. cbn [andb orb]. unfold waterprob, wclr_max. rewrite Z. cbn [Z.gtb Z.compare]. rewrite (proj2 (Rlt_f 1 0)) by lra. rewrite andb_false_r. reflexivity.
Qed.
(** Without clear land the probability that land must exceed is the tolerance alone. *)
Theorem C157_no_land npix c img : (forall q, In q img -> x_lnd q = false) -> lclr_max npix c img = rnd32 c.
Proof.
  intros H. unfold lclr_max. assert (E : filter x_lnd img = []). { destruct (filter x_lnd img) as [|q t] eqn:E; auto. assert (J : In q (filter x_lnd img)) by (rewrite E; left; reflexivity). apply filter_In in J as (J & K). rewrite (H q J) in K. discriminate. }
  rewrite E. cbn [map]. unfold quantile. cbn. rewrite rnd32_0. unfold fadd. f_equal. lra.
Qed.
(** The mask judges every pixel as described if one thread is configured, or if OpenMP gives the two threads asked for. *)
Theorem C157_mask_partial nthread team npix c img : nthread = 1 \/ 2 <= team -> cloud_mask nthread team npix c img = Ret (map (cloud npix c img) img).
Proof. intros H. unfold cloud_mask. destruct H; replace ((nthread =? 1) || (team >=? 2)) with true by lia; reflexivity. Qed.
(** If OpenMP gives only one (thread limit of the system, nested regions), the water part is never computed and an uninitialised pointer is read. *)
Theorem C157_team_refuted : ~ forall nthread team npix c img, 1 <= nthread -> 1 <= team <= 2 -> exists m, cloud_mask nthread team npix c img = Ret m.
Proof. intros H. destruct (H 4 1 0 0%R [] ltac:(lia) ltac:(lia)) as (m & E). discriminate. Qed.

(** ** Cases *)
Definition land (t v : Z) (cand clear : bool) : px := mkPx false false false cand clear clear cand t 500 500 v.
Definition scene : list px := [land 29000 1000 false true; land 29100 1200 false true; land 26000 9000 true false; land 25000 9500 true false; land 31000 9500 true false].
Example scene_stored : forall p, In p scene -> stored p.
Proof. intros p I. unfold scene in I. cbn [In] in I. unfold stored, in_short. repeat (destruct I as [<-|I]; [cbn; lia|]). contradiction. Qed.
Example scene_reference : exists p, reference 5 scene p.
Proof. exists (land 29000 1000 false true). split; [left; reflexivity|]. reflexivity. Qed.
Example scene_temps : base 5 scene = [29000%R; 29100%R].
Proof. reflexivity. Qed.
Example scene_high : (29000 <= hightemp 5 scene <= 29100)%R.
Proof.
  unfold hightemp. rewrite scene_temps. unfold quantile. apply (rnd32_between 29000 29100); [lia|lia|]. pose proof lo_hi. apply (quantile_range [29000%R; 29100%R] hi (fun v => 29000 <= v <= 29100)%R); [intros; lra|discriminate|lra|]. repeat constructor; lra.
Qed.
(** The warm candidate is no cloud although bright and cloud-coloured; a saturated one would be. *)
Example scene_warm : cloud 5 (rnd32 (225 / 1000)) scene (land 31000 9500 true false) = false.
Proof.
  apply C157_warm; try reflexivity. { exact scene_stored. } { cbn; auto 10. } { rewrite <- rnd32_0. apply rnd32_le. lra. } pose proof scene_high as B. cbn [x_temp land]. lra.
Qed.
(** The two cold candidates exceed any tolerance up to 0.5: they are clouds. *)
Example scene_cold_chance : (3 / 2 <= land_chance (lowtemp 5 scene) (hightemp 5 scene) (land 26000 9000 true false))%R.
Proof.
  pose proof scene_high as B. assert (L : (29000 <= lowtemp 5 scene <= 29100)%R).
  { unfold lowtemp. rewrite scene_temps. unfold quantile. apply (rnd32_between 29000 29100); [lia|lia|]. pose proof lo_hi. apply (quantile_range [29000%R; 29100%R] lo (fun v => 29000 <= v <= 29100)%R); [intros; lra|discriminate|lra|]. repeat constructor; lra. }
  pose proof (low_high 5 scene). unfold land_chance. cbn [x_temp x_var land]. set (l := lowtemp 5 scene) in *. set (h := hightemp 5 scene) in *. clearbody l h. assert (K : (3 <= (h + 400 - 26000) / (h + 400 - (l - 400)))%R). { apply Rmult_le_reg_r with (h + 400 - (l - 400))%R; [lra|]. unfold Rdiv. rewrite Rmult_assoc, Rinv_l by lra. lra. }
  assert (M : (3 <= Rmax 0 ((h + 400 - 26000) / (h + 400 - (l - 400))))%R) by (eapply Rle_trans; [exact K|apply Rmax_r]). lra.
Qed.
Example scene_sure : cloud 5 (rnd32 (225 / 1000)) scene (mkPx false false true false false false true 29000 500 500 0) = true.
Proof. apply C157_sure; auto. Qed.

Print Assumptions C157_quantile.
Print Assumptions C157_colder.
Print Assumptions C157_warm.
Print Assumptions C157_land.
Print Assumptions C157_water.
Print Assumptions C157_decision.
Print Assumptions C157_mask_partial.
