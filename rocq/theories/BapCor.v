(** The mean correlation of an observation with the others. *)
From Coq Require Import Reals Lra Lia.
From Flocq Require Import Core.
From Verif Require Import Base Loops BaseFacts LoopsFacts StatsModel StatsSpec StatsProofs ChunkProofs BapModel BapSpec BapProofs.
#[local] Open Scope Z_scope.

Lemma sum_fold {A} (f : A -> R) l : forall a, fold_left (fun a p => (a + f p)%R) l a = (a + sum f l)%R.
Proof. induction l as [|x l IH]; intros a; cbn [fold_left sum]; [ring|]. rewrite IH. ring. Qed.
Lemma sum_map {A B} (g : A -> B) (f : B -> R) l : sum f (map g l) = sum (fun x => f (g x)) l.
Proof. induction l as [|x l IH]; cbn [map sum]; congruence. Qed.
Lemma sum_ext {A} (f g : A -> R) l : (forall x, In x l -> f x = g x) -> sum f l = sum g l.
Proof. induction l as [|x l IH]; intros H; cbn [sum]; auto. rewrite H by (now left). rewrite IH; auto. intros y I. apply H. now right. Qed.

Lemma combine_fst {A B} (x : list A) : forall (y : list B), length x = length y -> map fst (combine x y) = x.
Proof. induction x as [|a x IH]; intros [|b y] L; cbn in *; auto; try discriminate. rewrite IH; auto. Qed.
Lemma combine_snd {A B} (x : list A) : forall (y : list B), length x = length y -> map snd (combine x y) = y.
Proof. induction x as [|a x IH]; intros [|b y] L; cbn in *; auto; try discriminate. rewrite IH; auto. Qed.

Section Pair.
Variables x y : list Z.
Hypothesis L : length x = length y.
Let l : list (R * R) := map (fun p => (IZR (fst p), IZR (snd p))) (combine x y).
Lemma l_fst : map fst l = map IZR x.
Proof. unfold l. rewrite map_map. cbn [fst]. rewrite <- (map_map fst IZR). now rewrite combine_fst. Qed.
Lemma l_snd : map snd l = map IZR y.
Proof. unfold l. rewrite map_map. cbn [snd]. rewrite <- (map_map snd IZR). now rewrite combine_snd. Qed.
Lemma dsum_ok f : dsum f x y = sum (fun p => f (fst p) (snd p)) (combine x y).
Proof. unfold dsum. rewrite (sum_fold (fun p => f (fst p) (snd p))). ring. Qed.
Lemma mean_x : (dsum (fun a _ => IZR a) x y / IZR (zlen x) = mean (map IZR x))%R.
Proof.
  rewrite dsum_ok. unfold mean, size. rewrite map_length. unfold zlen. rewrite <- INR_IZR_INZ. f_equal.
  rewrite sum_map. rewrite <- (combine_fst x y L) at 2. now rewrite sum_map.
Qed.
Lemma mean_y : (dsum (fun _ a => IZR a) x y / IZR (zlen x) = mean (map IZR y))%R.
Proof.
  rewrite dsum_ok. unfold mean, size. rewrite map_length. unfold zlen. rewrite L. rewrite <- INR_IZR_INZ. f_equal.
  rewrite sum_map. rewrite <- (combine_snd x y L) at 2. now rewrite sum_map.
Qed.
Lemma pair_ok : pair_cor x y = if isnull (sqrt (dev 2 (map IZR x) * dev 2 (map IZR y))) then no_cor else pearson l.
Proof.
  unfold pair_cor. rewrite mean_x, mean_y.
  assert (dsum (fun a c => (IZR a - mean (map IZR x)) * (IZR c - mean (map IZR y)))%R x y = codev l) as ->.
  { rewrite dsum_ok. unfold codev. rewrite l_fst, l_snd. unfold l. rewrite sum_map. reflexivity. }
  assert (dsum (fun a _ => (IZR a - mean (map IZR x)) * (IZR a - mean (map IZR x)))%R x y = dev 2 (map IZR x)) as ->.
  { rewrite dsum_ok. unfold dev. rewrite sum_map. replace (sum (fun v => (IZR v - mean (map IZR x)) ^ 2)%R x) with (sum (fun v => (IZR v - mean (map IZR x)) ^ 2)%R (map fst (combine x y))) by (now rewrite combine_fst). rewrite sum_map. apply sum_ext. intros; cbn [pow]; ring. }
  assert (dsum (fun _ a => (IZR a - mean (map IZR y)) * (IZR a - mean (map IZR y)))%R x y = dev 2 (map IZR y)) as ->.
  { rewrite dsum_ok. unfold dev. rewrite sum_map. replace (sum (fun v => (IZR v - mean (map IZR y)) ^ 2)%R y) with (sum (fun v => (IZR v - mean (map IZR y)) ^ 2)%R (map snd (combine x y))) by (now rewrite combine_snd). rewrite sum_map. apply sum_ext. intros; cbn [pow]; ring. }
  unfold pearson. now rewrite l_fst, l_snd.
Qed.
End Pair.

Lemma sum_nonneg {A} (f : A -> R) l : (forall a, In a l -> 0 <= f a)%R -> (0 <= sum f l)%R.
Proof. induction l as [|x l IH]; intros H; cbn [sum]; [lra|]. pose proof (H x ltac:(now left)). assert (0 <= sum f l)%R by (apply IH; intros; apply H; now right). lra. Qed.
Lemma dev_nonneg l : (0 <= dev 2 l)%R.
Proof. unfold dev. apply sum_nonneg. intros. apply pow2_ge_0. Qed.
Lemma sum_lin {A} (f g h : A -> R) a b c l : sum (fun x => a * f x + b * g x + c * h x)%R l = (a * sum f l + b * sum g l + c * sum h l)%R.
Proof. induction l as [|x l IH]; cbn [sum]; [ring|]. rewrite IH. ring. Qed.

(** Cauchy-Schwarz. *)
Lemma cauchy {A} (u v : A -> R) l : (sum (fun x => u x * v x) l * sum (fun x => u x * v x) l <= sum (fun x => u x ^ 2) l * sum (fun x => v x ^ 2) l)%R.
Proof.
  set (uv := sum (fun x => u x * v x)%R l). set (uu := sum (fun x => u x ^ 2)%R l). set (vv := sum (fun x => v x ^ 2)%R l).
  assert (forall a b, 0 <= a * a * uu + (-(2 * a * b)) * uv + b * b * vv)%R as Q.
  { intros a b. unfold uu, uv, vv. rewrite <- (sum_lin (fun x => u x ^ 2)%R (fun x => u x * v x)%R (fun x => v x ^ 2)%R). apply sum_nonneg. intros x _.
    replace (a * a * u x ^ 2 + - (2 * a * b) * (u x * v x) + b * b * v x ^ 2)%R with ((a * u x - b * v x) * (a * u x - b * v x))%R by ring. apply Rle_0_sqr. }
  assert (0 <= vv)%R by (unfold vv; apply sum_nonneg; intros; apply pow2_ge_0).
  assert (0 <= uu)%R by (unfold uu; apply sum_nonneg; intros; apply pow2_ge_0).
  destruct (Req_dec vv 0) as [Z|Z].
  - rewrite Z in *. rewrite Rmult_0_r. pose proof (Q uv (1 + uu / 2 * uv * uv)%R) as P. 
    assert (uv = 0 \/ uv <> 0)%R as [-> |N] by apply Req_dec; [lra|]. exfalso.
    pose proof (Q 1 ((uu + 1) / (2 * uv)))%R as P'. replace (1 * 1 * uu + - (2 * 1 * ((uu + 1) / (2 * uv))) * uv + (uu + 1) / (2 * uv) * ((uu + 1) / (2 * uv)) * 0)%R with (-1)%R in P' by (field; auto). lra.
  - pose proof (Q vv uv) as P. replace (vv * vv * uu + - (2 * vv * uv) * uv + uv * uv * vv)%R with (vv * (uu * vv - uv * uv))%R in P by ring.
    destruct (Rle_lt_dec (uv * uv) (uu * vv)) as [G|G]; auto. assert (0 < vv)%R by lra. nra.
Qed.

Lemma pearson_range l : (0 < dev 2 (map fst l) * dev 2 (map snd l))%R -> (Rabs (pearson l) <= 1)%R.
Proof.
  intros P. unfold pearson. set (q := (dev 2 (map fst l) * dev 2 (map snd l))%R) in *.
  assert (codev l * codev l <= q)%R as C.
  { unfold q, codev, dev. rewrite !sum_map. apply (cauchy (fun p => fst p - mean (map fst l))%R (fun p => snd p - mean (map snd l))%R l). }
  clearbody q. assert (0 < sqrt q)%R by (now apply sqrt_lt_R0). unfold Rdiv. rewrite Rabs_mult, (Rabs_pos_eq (/ sqrt q)) by (apply Rlt_le; now apply Rinv_0_lt_compat).
  apply Rmult_le_reg_r with (sqrt q); auto. rewrite Rmult_assoc, Rinv_l, Rmult_1_r, Rmult_1_l by lra.
  rewrite <- (Rabs_pos_eq (sqrt q)) by lra. apply Rsqr_le_abs_0. unfold Rsqr. rewrite sqrt_sqrt; lra.
Qed.

Lemma pearson_sym x y : length x = length y ->
  pearson (map (fun p => (IZR (fst p), IZR (snd p))) (combine x y)) = pearson (map (fun p => (IZR (fst p), IZR (snd p))) (combine y x)).
Proof.
  intros L. unfold pearson, codev. rewrite !l_fst, !l_snd by auto. f_equal; [|now rewrite Rmult_comm]. rewrite !sum_map. cbn [fst snd].
  set (mx := mean (map IZR x)). set (my := mean (map IZR y)). clearbody mx my. revert y L. induction x as [|a x IH]; intros [|c y] L; cbn [combine sum fst snd] in *; auto; try discriminate.
  rewrite IH by (cbn [length] in L; lia). ring.
Qed.

Section Mean.
Variables (os : list obs) (nb : nat).
Hypothesis NB : Forall (fun o => length (o_dat o) = nb) os.

(** What a cell says. *)
Lemma cell_ok t u a o : In a os -> In o os -> t <> u ->
  (comparable a o -> cor_cell t u a o = pearson (spectra a o) /\ cor_cell t u a o <> no_cor /\ (Rabs (cor_cell t u a o) <= 1)%R) /\ (~ comparable a o -> cor_cell t u a o = no_cor).
Proof.
  intros Ia Io N. rewrite Forall_forall in NB. assert (length (o_dat a) = length (o_dat o)) as L by (rewrite !NB; auto).
  unfold cor_cell. replace (t =? u) with false by lia. unfold comparable, varies.
  destruct (o_valid a), (o_valid o); cbn [andb]; try (split; [intros (? & ? & _); discriminate|auto]; fail).
  pose proof (dev_nonneg (map IZR (o_dat a))) as Da. pose proof (dev_nonneg (map IZR (o_dat o))) as Do.
  assert ((if t <? u then pair_cor (o_dat a) (o_dat o) else pair_cor (o_dat o) (o_dat a)) =
    if isnull (sqrt (dev 2 (map IZR (o_dat a)) * dev 2 (map IZR (o_dat o)))) then no_cor else pearson (spectra a o)) as ->.
  { destruct (t <? u); rewrite pair_ok by auto; auto. rewrite Rmult_comm. unfold spectra. rewrite pearson_sym by auto. reflexivity. }
  split.
  - intros (_ & _ & Va & Vo). assert (0 < dev 2 (map IZR (o_dat a)) * dev 2 (map IZR (o_dat o)))%R as P by (apply Rmult_lt_0_compat; lra).
    rewrite isnull_no by (apply Rgt_not_eq; now apply sqrt_lt_R0). split; auto.
    assert (Rabs (pearson (spectra a o)) <= 1)%R as Q. { apply pearson_range. unfold spectra. rewrite l_fst, l_snd; auto. }
    split; auto. intros E. rewrite E in Q. unfold no_cor in Q. rewrite Rabs_left in Q; lra.
  - intros C. assert (isnull (sqrt (dev 2 (map IZR (o_dat a)) * dev 2 (map IZR (o_dat o)))) = true) as ->; auto. apply isnull_ok.
    destruct (Req_dec (dev 2 (map IZR (o_dat a))) 0) as [-> |Na]; [now rewrite Rmult_0_l, sqrt_0|].
    destruct (Req_dec (dev 2 (map IZR (o_dat o))) 0) as [-> |No]; [now rewrite Rmult_0_r, sqrt_0|]. destruct C; auto.
Qed.

Lemma comparable_dec a o : comparable a o \/ ~ comparable a o.
Proof.
  unfold comparable, varies. destruct (o_valid a), (o_valid o); try (right; intros (? & ? & _); discriminate).
  destruct (Req_dec (dev 2 (map IZR (o_dat a))) 0); [right; tauto|]. destruct (Req_dec (dev 2 (map IZR (o_dat o))) 0); [right; tauto|left; tauto].
Qed.

(** Columns of other observations. *)
Lemma block_ok t a : In a os -> forall l2 off row xm ym, 0 <= off -> 0 < zlen row -> (0 <= ym)%R ->
  (forall u o, get_at l2 u = Some o -> off + u <> t /\ In o os /\ get_at row (off + u) = Some (cor_cell t (off + u) a o)) ->
  exists row' l, partners a l2 l /\
    ofold (mean_step t) (zrange off (off + zlen l2 - 1)) (row, xm, ym) = Ret (row', (xm + sum (fun r => r) l)%R, (ym + size l)%R) /\
    (l = [] -> row' = row) /\ (l <> [] -> get_at row' 0 = Some ((xm + sum (fun r => r) l) / (ym + size l))%R) /\
    zlen row' = zlen row /\ (forall k, k <> 0 -> get_at row' k = get_at row k).
Proof.
  intros Ia. induction l2 as [|o l2 IH]; intros off row xm ym O W Y HR.
  - exists row, []. unfold zlen at 1. cbn [length]. rewrite zrange_nil by lia. cbn [ofold sum size length INR].
    split; [constructor|]. split; [do 2 f_equal; [f_equal|]; unfold size; cbn; ring|]. split; auto. split; [congruence|]. split; auto.
  - rewrite zlen_c. rewrite zrange_cons by (pose proof (zlen_nonneg l2); lia). cbn [ofold].
    destruct (HR 0 o (get_cons_0 _ _)) as (N & Io & G). rewrite Z.add_0_r in N, G. unfold mean_step at 1. rewrite G. cbn [of_option bind].
    replace (t =? off) with false by lia. cbn [orb].
    destruct (cell_ok t off a o Ia Io ltac:(lia)) as (CY & CN).
    replace (off + (zlen l2 + 1) - 1) with (off + 1 + zlen l2 - 1) by lia.
    assert (forall row2, (forall k, k <> 0 -> get_at row2 k = get_at row k) ->
      forall u o', get_at l2 u = Some o' -> off + 1 + u <> t /\ In o' os /\ get_at row2 (off + 1 + u) = Some (cor_cell t (off + 1 + u) a o')) as NX.
    { intros row2 E u o' Gu. assert (0 <= u) by (apply get_at_inv in Gu; lia). replace (off + 1 + u) with (off + (u + 1)) by lia.
      rewrite E by lia. apply HR. rewrite get_cons_S by lia. replace (u + 1 - 1) with u by lia. exact Gu. }
    destruct (comparable_dec a o) as [C|C].
    + destruct (CY C) as (E1 & E2 & _). destruct (Req_EM_T (cor_cell t off a o) no_cor) as [?|_]; [contradiction|].
      rewrite (set_at_some row 0) by lia. cbn [of_option bind].
      set (x1 := (xm + Rabs (cor_cell t off a o))%R). set (y1 := (ym + 1)%R).
      assert (get_at (list_set row (Z.to_nat 0) (x1 / y1)%R) 0 = Some (x1 / y1)%R /\ zlen (list_set row (Z.to_nat 0) (x1 / y1)%R) = zlen row /\
         forall k, k <> 0 -> get_at (list_set row (Z.to_nat 0) (x1 / y1)%R) k = get_at row k) as (S0 & SL & SO).
      { pose proof (set_at_some row 0 (x1 / y1)%R ltac:(lia)) as SE. split; [eapply get_set_same; exact SE|]. split; [unfold zlen; now rewrite length_list_set|].
        intros k K. eapply get_set_other; [exact SE|lia]. }
      destruct (IH (off + 1) (list_set row (Z.to_nat 0) (x1 / y1)%R) x1 y1 ltac:(lia) ltac:(lia) ltac:(unfold y1; lra) (NX _ SO)) as (row' & l & P & F & R0 & R1 & LR & RO).
      exists row', (Rabs (pearson (spectra a o)) :: l). split; [now constructor|]. rewrite F.
      assert (xm + sum (fun r => r) (Rabs (pearson (spectra a o)) :: l) = x1 + sum (fun r => r) l)%R as -> by (unfold x1; cbn [sum]; rewrite E1; ring).
      assert (ym + size (Rabs (pearson (spectra a o)) :: l) = y1 + size l)%R as -> by (unfold y1, size; cbn [length]; rewrite S_INR; ring).
      split; [reflexivity|]. split; [discriminate|]. split; [|split; [congruence|intros k K; rewrite RO, SO by auto; auto]].
      intros _. destruct l as [|r l]; [|apply R1; discriminate]. rewrite R0 by auto. rewrite S0. unfold size. cbn [sum length INR]. do 2 f_equal; ring.
    + rewrite (CN C). destruct (Req_EM_T no_cor no_cor) as [_|?]; [|contradiction].
      destruct (IH (off + 1) row xm ym ltac:(lia) W Y (NX _ ltac:(auto))) as (row' & l & P & F & R). exists row', l. split; [now constructor|]. split; [exact F|exact R].
Qed.
End Mean.

Lemma get_combine {A B} (x : list A) : forall (y : list B) k, get_at (combine x y) k = match get_at x k, get_at y k with Some a, Some b => Some (a, b) | _, _ => None end.
Proof.
  induction x as [|a x IH]; intros [|b y] k; cbn [combine].
  - rewrite (proj2 (get_at_none [] k)); [|unfold zlen; cbn; lia]. destruct (get_at (@nil A) k) eqn:E; auto. apply get_at_inv in E. unfold zlen in E; cbn in E; lia.
  - destruct (get_at (@nil (A * B)) k) eqn:E; [apply get_at_inv in E; unfold zlen in E; cbn in E; lia|]. destruct (get_at (@nil A) k) eqn:E2; auto. apply get_at_inv in E2; unfold zlen in E2; cbn in E2; lia.
  - destruct (get_at (@nil (A * B)) k) eqn:E; [apply get_at_inv in E; unfold zlen in E; cbn in E; lia|]. destruct (get_at (@nil B) k) eqn:E2; [apply get_at_inv in E2; unfold zlen in E2; cbn in E2; lia|]. now destruct (get_at (a :: x) k).
  - destruct (Z.eq_dec k 0) as [-> |K]; [now rewrite !get_cons_0|]. destruct (Z.lt_ge_cases k 0) as [L|L].
    + rewrite !(proj2 (get_at_none _ k)); auto; lia.
    + rewrite !get_cons_S by lia. apply IH.
Qed.

Lemma cor_mean_ok before a after nb : Forall (fun o => length (o_dat o) = nb) (before ++ a :: after) ->
  exists l, partners a (before ++ after) l /\
    cor_mean (before ++ a :: after) (zlen before) a =
      Ret (match l with [] => match before with [] => 0%R | _ => no_cor end | _ => (sum (fun r => r) l / size l)%R end).
Proof.
  set (os := before ++ a :: after). intros NB. unfold cor_mean. set (t := zlen before).
  assert (Ia : In a os) by (apply in_elt).
  set (row := map _ _).
  assert (RL : zlen row = zlen os).
  { unfold row. rewrite zlen_map. unfold zlen. rewrite combine_length, zupto_length. unfold zlen. lia. }
  assert (ZO : zlen os = t + 1 + zlen after) by (unfold os, t; rewrite zlen_a, zlen_c; lia).
  pose proof (zlen_nonneg before) as T0. fold t in T0. pose proof (zlen_nonneg after) as A0.
  assert (RG : forall u o, get_at os u = Some o -> get_at row u = Some (cor_cell t u a o)).
  { intros u o G. unfold row. rewrite get_map, get_combine, G. apply get_at_inv in G. rewrite get_zupto by lia. reflexivity. }
  rewrite zupto_zrange, (zrange_app 0 t (zlen os - 1)) by lia. rewrite (zrange_cons t) by lia.
  rewrite ofold_app.
  destruct (block_ok os nb NB t a Ia before 0 row 0%R 0%R ltac:(lia) ltac:(lia) ltac:(lra)) as (row1 & l1 & P1 & F1 & R1 & S1 & L1 & O1).
  { intros u o G. pose proof G as G'. apply get_at_inv in G'. cbn [Z.add]. assert (get_at os u = Some o) as GO by (unfold os; rewrite get_app_l by (fold t; lia); exact G).
    split; [fold t in G'; lia|]. split; [eapply get_at_In; exact GO|]. apply RG, GO. }
  cbn [Z.add] in F1. fold t in F1. rewrite F1. cbn [bind ofold].
  assert (get_at os t = Some a) as GA by (unfold os; rewrite get_app_r by (fold t; lia); fold t; rewrite Z.sub_diag; apply get_cons_0).
  assert (exists c, get_at row1 t = Some c) as (c & GC) by (apply get_at_some; lia).
  unfold mean_step at 1. rewrite GC. cbn [of_option bind]. rewrite Z.eqb_refl. cbn [orb bind].
  destruct (block_ok os nb NB t a Ia after (t + 1) row1 (0 + sum (fun r => r) l1)%R (0 + size l1)%R ltac:(lia) ltac:(lia) ltac:(unfold size; rewrite Rplus_0_l; apply pos_INR)) as (row2 & l2 & P2 & F2 & R2 & S2 & L2 & O2).
  { intros u o G. pose proof G as G'. apply get_at_inv in G'. assert (get_at os (t + 1 + u) = Some o) as GO.
    { unfold os. rewrite get_app_r by (fold t; lia). fold t. rewrite get_cons_S by lia. replace (t + 1 + u - t - 1) with u by lia. exact G. }
    split; [lia|]. split; [eapply get_at_In; exact GO|]. rewrite O1 by lia. apply RG, GO. }
  replace (zlen os - 1) with (t + 1 + zlen after - 1) by lia. rewrite F2. cbn [bind fst].
  exists (l1 ++ l2). split.
  { clear -P1 P2. induction P1; cbn [app]; auto; constructor; auto. }
  assert (SA : forall l l', sum (fun r : R => r) (l ++ l') = (sum (fun r => r) l + sum (fun r => r) l')%R).
  { clear. induction l as [|r l IH]; intros l'; cbn [app sum]; [ring|rewrite IH; ring]. }
  assert (LA : forall l l' : list R, size (l ++ l') = (size l + size l')%R) by (intros; unfold size; rewrite app_length, plus_INR; reflexivity).
  destruct l2 as [|r l2].
  - rewrite R2 by auto. rewrite app_nil_r. destruct l1 as [|r l1].
    + rewrite R1 by auto. destruct before as [|o before].
      * rewrite (RG 0 a) by exact GA. unfold cor_cell, t, zlen. cbn. reflexivity.
      * assert (get_at os 0 = Some o) as G0 by (unfold os; apply get_cons_0). rewrite (RG 0 o G0).
        assert (t <> 0) by (unfold t; rewrite zlen_c; pose proof (zlen_nonneg before); lia).
        destruct (cell_ok os nb NB t 0 a o Ia ltac:(eapply get_at_In; exact G0) ltac:(auto)) as (_ & CN). rewrite CN; [reflexivity|].
        clear -P1. inversion P1; subst; auto.
    + rewrite S1 by discriminate. cbn [of_option]. rewrite !Rplus_0_l. reflexivity.
  - rewrite S2 by discriminate. cbn [of_option]. rewrite !Rplus_0_l, <- SA, <- LA. destruct l1; reflexivity.
Qed.

(** The mean of absolute correlations is one. *)
Lemma partners_range a os nb : length (o_dat a) = nb -> Forall (fun o => length (o_dat o) = nb) os -> forall l, partners a os l -> Forall (fun r => 0 <= r <= 1)%R l.
Proof.
  intros La Ho l P. induction P as [|o os l C P IH|o os l C P IH]; inversion Ho; subst; auto. constructor; auto.
  destruct (cell_ok [a; o] (length (o_dat a)) ltac:(repeat constructor; auto) 0 1 a o ltac:(cbn; auto) ltac:(cbn; auto) ltac:(lia)) as (CY & _).
  destruct (CY C) as (E1 & _ & B). rewrite E1 in B. split; [apply Rabs_pos|exact B].
Qed.
Lemma mean_unit l : Forall (fun r => 0 <= r <= 1)%R l -> l <> [] -> (0 <= sum (fun r => r) l / size l <= 1)%R.
Proof.
  intros F N. assert (0 <= sum (fun r => r) l <= size l)%R.
  { clear N. induction F as [|r l A F IH]; unfold size in *; cbn [sum length]; [cbn; lra|]. rewrite S_INR. lra. }
  assert (0 < size l)%R. { unfold size. apply lt_0_INR. destruct l; [congruence|cbn; lia]. }
  split; [apply Rmult_le_pos; [lra|apply Rlt_le; now apply Rinv_0_lt_compat]|]. apply Rmult_le_reg_r with (size l); auto. unfold Rdiv. rewrite Rmult_assoc, Rinv_l by lra. lra.
Qed.
