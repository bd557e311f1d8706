From Coq Require Import Reals List ZArith Lra Lia.
From Flocq Require Import Core.Raux.
From Verif Require Import Base BaseFacts StatsModel StatsSpec StatsProofs TrendModel.
Import ListNotations.
Open Scope R_scope.

Lemma accumulate_feed : forall l k s, (1 <= k)%nat ->
  accumulate l k s = (feed (fun p => covar_recurrence (fst p) (snd p)) l k s, (k + length l)%nat).
Proof.
  induction l as [|p l IH]; intros k s K; cbn [accumulate feed length]; [now rewrite Nat.add_0_r|].
  replace (Nat.eqb (S k) 1) with false by (symmetry; apply Nat.eqb_neq; lia).
  rewrite IH by lia. f_equal. lia.
Qed.

Lemma accumulate_run l : accumulate l 0 (mkCovar 0 0 0 0 0) = (run_covar l, length l).
Proof.
  destruct l as [|p l]; [reflexivity|].
  cbn [accumulate Nat.eqb]. rewrite accumulate_feed by lia. unfold run_covar; cbn [feed length]. f_equal.
  f_equal. unfold covar_recurrence; cbn [c_mx c_my c_vx c_vy c_cv INR]. f_equal; field.
Qed.

Lemma residuals_gen mx b a l : forall r0, fold_left (fun a0 p =>
    let e := snd p - linreg_predict (fst p) b a in
    mkResid (ssqe a0 + e * e) (sae a0 + Rabs e) (sxsq a0 + (fst p - mx) * (fst p - mx))
            (if Rlt_dec (maxe a0) (Rabs e) then Rabs e else maxe a0)) l r0
  = mkResid (ssqe r0 + ssr a b l) (sae r0 + sum (fun p => Rabs (snd p - (a + b * fst p))) l)
            (sxsq r0 + sum (fun p => (fst p - mx) ^ 2) l)
            (fold_left (fun m p => Rmax m (Rabs (snd p - (a + b * fst p)))) l (maxe r0)).
Proof.
  induction l as [|p l IH]; intros r0; cbn [fold_left].
  - unfold ssr; cbn [sum]. destruct r0; cbn. f_equal; ring.
  - rewrite IH. cbv zeta. unfold ssr, linreg_predict. cbn [sum ssqe sae sxsq maxe]. f_equal; try ring.
    f_equal. unfold Rmax. destruct (Rlt_dec (maxe r0) _), (Rle_dec (maxe r0) _); auto; lra.
Qed.

Lemma fold_max_spec {A} (f : A -> R) l : forall m,
  m <= fold_left (fun m p => Rmax m (f p)) l m /\
  (forall p, In p l -> f p <= fold_left (fun m p => Rmax m (f p)) l m) /\
  (fold_left (fun m p => Rmax m (f p)) l m = m \/ exists p, In p l /\ fold_left (fun m p => Rmax m (f p)) l m = f p).
Proof.
  induction l as [|q l IH]; intros m; cbn [fold_left].
  - split; [lra|]. split; [intros p []|auto].
  - destruct (IH (Rmax m (f q))) as (H1 & H2 & H3).
    pose proof (Rmax_l m (f q)). pose proof (Rmax_r m (f q)).
    split; [lra|]. split.
    + intros p [<-|I]; [lra|auto].
    + destruct H3 as [H3|(p & I & H3)]; [|right; exists p; cbn; auto].
      destruct (Rle_dec m (f q)) as [L|L].
      * right; exists q; split; [cbn; auto|]. rewrite H3; apply Rmax_right; auto.
      * left. rewrite H3; apply Rmax_left; lra.
Qed.

Lemma short_of_inv x z : short_of (Some x) = Ret z -> z = Ztrunc x.
Proof. unfold short_of. destruct (in_shortb _); congruence. Qed.

Lemma bind_ret_inv {A B} (x : outcome A) (f : A -> outcome B) b : bind x f = Ret b -> exists a, x = Ret a /\ f a = Ret b.
Proof. destruct x; cbn; try discriminate. eauto. Qed.

Lemma slope_scaled c v k : (3 <= k)%nat -> v <> 0 ->
  rdiv (covariance c (INR k)) (variance v (INR k)) = Some (c / v).
Proof.
  intros K V. apply le_INR in K. cbn [INR] in K. unfold rdiv, covariance, variance.
  destruct (Req_EM_T (v / (INR k - 1)) 0) as [E|E].
  - exfalso. apply V. replace v with (v / (INR k - 1) * (INR k - 1)) by (field; lra). rewrite E. ring.
  - f_equal. field. split; lra.
Qed.

Lemma rsq_scaled c v w k : (3 <= k)%nat -> v <> 0 -> w <> 0 ->
  rdiv (covariance c (INR k) * covariance c (INR k)) (variance v (INR k) * variance w (INR k))
  = Some (linreg_rsquared c v w).
Proof.
  intros K V W. apply le_INR in K. cbn [INR] in K. unfold rdiv, covariance, variance, linreg_rsquared.
  destruct (Req_EM_T _ 0) as [E|E].
  - exfalso. apply Rmult_integral in E. destruct E as [E|E].
    + apply V. replace v with (v / (INR k - 1) * (INR k - 1)) by (field; lra). rewrite E. ring.
    + apply W. replace w with (w / (INR k - 1) * (INR k - 1)) by (field; lra). rewrite E. ring.
  - f_equal. field. repeat split; lra.
Qed.

Lemma rsq_undefined c v k : rdiv (covariance c k * covariance c k) (variance v k * variance 0 k) = None.
Proof.
  unfold rdiv, variance. destruct (Req_EM_T _ 0) as [E|E]; auto. exfalso; apply E. unfold Rdiv; ring.
Qed.

Section T.
Context (sig : nat -> R -> option R -> Z) (nodata : Z) (s : series).
Let l := valid nodata s.
Let b := codev l / dev 2 (map fst l).
Let a := mean (map snd l) - b * mean (map fst l).

Lemma trend_least_squares : (3 <= length l)%nat -> dev 2 (map fst l) <> 0 ->
  forall a' b', ssr a b l <= ssr a' b' l.
Proof.
  intros K V. assert (l <> []) as NE by (destruct l; cbn in K; [lia|congruence]).
  pose proof (linreg_best l NE V) as B. cbv zeta in B.
  unfold linreg_coefs, linreg_slope, linreg_intercept in B; cbn [fst snd] in B.
  destruct (run_covar_spec l NE) as (E1 & E2 & E3 & _ & E5). rewrite E1, E2, E3, E5 in B. exact B.
Qed.

Lemma trend_values t : (3 <= length l)%nat -> dev 2 (map fst l) <> 0 ->
  trend_pixel sig nodata false s = Ret t ->
  t_mean t = Ztrunc (mean (map snd l)) /\ t_offset t = Ztrunc a /\ t_slope t = Ztrunc b /\
  t_rsq t = Ztrunc ((1 - ssr a b l / dev 2 (map snd l)) * 10000) /\
  t_rmse t = Ztrunc (sqrt (ssr a b l / size l)) /\
  t_mae t = Ztrunc (sum (fun p => Rabs (snd p - (a + b * fst p))) l / size l) /\
  (exists p, In p l /\ t_maxe t = Ztrunc (Rabs (snd p - (a + b * fst p))) /\
     forall q, In q l -> Rabs (snd q - (a + b * fst q)) <= Rabs (snd p - (a + b * fst p))) /\
  t_num t = to_short (zlen l) /\ t_len t = to_short (zlen s).
Proof.
  intros K V E. assert (l <> []) as NE by (destruct l; cbn in K; [lia|congruence]).
  unfold trend_pixel in E. fold l in E. rewrite accumulate_run in E.
  replace (length l <? 3)%nat with false in E by (symmetry; apply Nat.ltb_ge; lia).
  destruct (run_covar_spec l NE) as (E1 & E2 & E3 & E4 & E5). cbv zeta in *.
  rewrite E1, E2, E3, E4, E5 in E. rewrite slope_scaled in E by auto. fold b in E.
  unfold linreg_intercept in E. fold a in E.
  unfold residuals in E. rewrite residuals_gen in E. cbn [ssqe sae sxsq maxe] in E.
  destruct (Req_EM_T (dev 2 (map snd l)) 0) as [VY|VY].
  { exfalso. rewrite VY in E. rewrite rsq_undefined in E. cbn [short_of] in E.
    repeat match type of E with bind ?x _ = _ => destruct x; cbn [bind] in E; try discriminate E end. }
  rewrite rsq_scaled in E by auto.
  pose proof (linreg_rsq l NE V VY) as RS. cbv zeta in RS.
  rewrite E1, E2, E3, E4, E5 in RS. unfold linreg_coefs, linreg_slope, linreg_intercept in RS; cbn [fst snd] in RS.
  fold b in RS. fold a in RS. destruct RS as (_ & RS). rewrite RS in E.
  repeat match type of E with bind (short_of _) _ = _ =>
    let z := fresh "z" in let H := fresh "H" in apply bind_ret_inv in E; destruct E as (z & H & E); apply short_of_inv in H
  | bind _ _ = _ => let z := fresh "z" in let H := fresh "H" in apply bind_ret_inv in E; destruct E as (z & H & E) end.
  inversion E; subst t; cbn [t_mean t_offset t_slope t_prc t_abs t_rsq t_sig t_rmse t_mae t_maxe t_num t_len]. clear E.
  rewrite !Rplus_0_l in *.
  repeat match goal with |- _ /\ _ => split end; auto.
  match goal with H : ?z = Ztrunc (fold_left _ l _) |- _ => rewrite H end.
  destruct (fold_max_spec (fun p => Rabs (snd p - (a + b * fst p))) l (-32768)) as (F1 & F2 & F3).
  destruct F3 as [F3|(p & I & F3)].
  - exfalso. destruct l as [|q l0]; [congruence|]. specialize (F2 q (or_introl eq_refl)). rewrite F3 in F2.
    pose proof (Rabs_pos (snd q - (a + b * fst q))). lra.
  - exists p. rewrite F3. split; auto. split; auto. intros q Q. rewrite <- F3. auto.
Qed.

Lemma trend_few : (length l < 3)%nat -> forall in_ce,
  trend_pixel sig nodata in_ce s =
  Ret (mkTrd nodata nodata nodata nodata nodata nodata nodata nodata nodata nodata nodata nodata).
Proof.
  intros K ce. unfold trend_pixel. fold l. rewrite accumulate_run.
  replace (length l <? 3)%nat with true by (symmetry; apply Nat.ltb_lt; lia). reflexivity.
Qed.

Lemma dev2_const c : (forall p, In p l -> snd p = c) -> l <> [] -> dev 2 (map snd l) = 0.
Proof.
  clearbody l. clear b a. intros H NE.
  assert (forall m : list (R * R), (forall p, In p m -> snd p = c) -> sum (fun x => x) (map snd m) = size m * c) as S1.
  { induction m as [|p m IH]; intros Hm; cbn [map sum]; [unfold size; cbn; ring|].
    rewrite IH, size_cons by (intros; apply Hm; cbn; auto). rewrite (Hm p) by (cbn; auto). ring. }
  pose proof (size_pos l NE) as SP. unfold dev, mean. rewrite size_map, (S1 l H).
  replace (size l * c / size l) with c by (field; lra).
  clear NE SP S1.
  assert (forall m : list (R * R), (forall p, In p m -> snd p = c) -> sum (fun x => (x - c) ^ 2) (map snd m) = 0) as S2.
  { induction m as [|p m IH]; intros Hm; cbn [map sum]; auto.
    rewrite IH by (intros; apply Hm; cbn; auto). rewrite (Hm p) by (cbn; auto). ring. }
  auto.
Qed.

(** A constant series: R-squared is 0/0. *)
Lemma trend_constant c : (forall p, In p l -> snd p = c) -> (3 <= length l)%nat -> forall in_ce,
  trend_pixel sig nodata in_ce s = UB.
Proof.
  intros H K ce. assert (l <> []) as NE by (destruct l; cbn in K; [lia|congruence]).
  unfold trend_pixel. fold l. rewrite accumulate_run.
  replace (length l <? 3)%nat with false by (symmetry; apply Nat.ltb_ge; lia).
  destruct (run_covar_spec l NE) as (E1 & E2 & E3 & E4 & E5). cbv zeta in *.
  rewrite E4, (dev2_const c H NE), rsq_undefined.
  destruct (rdiv _ _); auto. cbn [short_of bind].
  assert (forall x, short_of x <> Exit) as NX by (intros [x|]; cbn; [destruct (in_shortb _)|]; congruence).
  repeat match goal with
  | |- bind (if ?c then ?x else ?y) _ = _ => destruct c
  | |- bind (short_of ?x) _ = _ => let E := fresh in pose proof (NX x); destruct (short_of x) eqn:E; cbn [bind]; try congruence
  | |- bind (if ?c then _ else UB) _ = _ => destruct c; cbn [bind]
  | |- bind UB _ = UB => reflexivity
  | |- bind (Ret _) _ = _ => cbn [bind]
  | |- UB = UB => reflexivity
  end.
Qed.
End T.
