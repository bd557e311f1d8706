(** Proofs about seasonal averages and the focal filter. *)
From Coq Require Import Reals Lra Lia ZifyBool ZifyNat Psatz Sorting.Sorted.
From Flocq Require Import Core.
From Verif Require Import Base BaseFacts Loops LoopsFacts StatsModel StatsSpec StatsProofs AggProofs CsoProofs ChunkProofs LsmProofs ImpModel ImpSpec ImpPredict.
From Verif Require LsmModel.

(** ** Seasonal averages *)
#[local] Open Scope Z_scope.
Definition year_ok (ywin y : Z) : Prop := ywin < 0 \/ y = ywin.
Lemma in_window_any a c y doy ywin : ywin < 0 -> in_window a c y doy ywin = true <-> in_season a c doy.
Proof. intros N. unfold in_window, in_season. lia. Qed.
Lemma in_window_asc a c y doy ywin : a < c -> in_window a c y doy ywin = true <-> in_season a c doy /\ year_ok ywin y.
Proof. intros N. unfold in_window, in_season, year_ok. lia. Qed.
Definition pair_at (dwin : list Z) (v a c : Z) : Prop := get_at dwin v = Some a /\ get_at dwin (v + 1) = Some c.
Lemma find_window_spec y doy ywin : forall dwin w0,
  match find_window dwin w0 y doy ywin with
  | Some v => w0 <= v /\ (exists a c, pair_at dwin (v - w0) a c /\ in_window a c y doy ywin = true) /\
              forall u a c, 0 <= u < v - w0 -> pair_at dwin u a c -> in_window a c y doy ywin = false
  | None => forall u a c, 0 <= u -> pair_at dwin u a c -> in_window a c y doy ywin = false
  end.
Proof.
  induction dwin as [|a dwin IH]; intros w0; cbn [find_window].
  - intros u x z U (G & _). apply get_at_inv in G. unfold zlen in G. cbn in G. lia.
  - destruct dwin as [|c dwin].
    + intros u x z U (_ & G). apply get_at_inv in G. unfold zlen in G. cbn in G. lia.
    + destruct (in_window a c y doy ywin) eqn:W.
      * split; [lia|]. replace (w0 - w0) with 0 by lia. split; [|intros; lia]. exists a, c. split; auto. split; reflexivity.
      * specialize (IH (w0 + 1)).
        assert (forall u x z, 0 < u -> pair_at (a :: c :: dwin) u x z -> pair_at (c :: dwin) (u - 1) x z) as Sh.
        { intros u x z U (G1 & G2). unfold pair_at. rewrite get_cons_S in G1, G2 by lia. replace (u - 1 + 1) with (u + 1 - 1) by lia. auto. }
        assert (forall x z, pair_at (a :: c :: dwin) 0 x z -> x = a /\ z = c) as S0. { intros x z (G1 & G2). injection G1 as <-. injection G2 as <-. auto. }
        destruct (find_window (c :: dwin) (w0 + 1) y doy ywin) as [v|].
        -- destruct IH as (L & (x & z & (G1 & G2) & E) & F). split; [lia|]. split.
           ++ exists x, z. split; auto. unfold pair_at. rewrite (get_cons_S a _ (v - w0)), (get_cons_S a _ (v - w0 + 1)) by lia. replace (v - w0 - 1) with (v - (w0 + 1)) by lia. replace (v - w0 + 1 - 1) with (v - (w0 + 1) + 1) by lia. auto.
           ++ intros u x' z' U P. destruct (Z.eq_dec u 0) as [-> |N]; [apply S0 in P; destruct P as (-> & ->); auto|]. apply (F (u - 1)); [lia|]. apply Sh; auto; lia.
        -- intros u x' z' U P. destruct (Z.eq_dec u 0) as [-> |N]; [apply S0 in P; destruct P as (-> & ->); auto|]. apply (IH (u - 1)); [lia|]. apply Sh; auto; lia.
Qed.
(** Breakpoints for which the code does what is documented: all years, or no season crossing the turn of the year. *)
Definition simple_windows (dwin : list Z) (ywin : Z) : Prop := ywin < 0 \/ ascending dwin.
Lemma asc_pair dwin v a c : ascending dwin -> pair_at dwin v a c -> a < c.
Proof.
  unfold ascending. intros S. revert v. induction S as [|x l S IH F]; intros v (G1 & G2); [apply get_at_inv in G1; unfold zlen in G1; cbn in G1; lia|].
  pose proof (get_at_inv _ _ _ G1) as R. destruct (Z.eq_dec v 0) as [-> |N].
  - cbn in G1. injection G1 as <-. rewrite get_cons_S in G2 by lia. apply get_at_In in G2. rewrite Forall_forall in F. auto.
  - apply (IH (v - 1)). unfold pair_at. rewrite get_cons_S in G1, G2 by lia. replace (v - 1 + 1) with (v + 1 - 1) by lia. auto.
Qed.
Lemma simple_in dwin ywin v a c y doy : simple_windows dwin ywin -> pair_at dwin v a c -> in_window a c y doy ywin = true <-> in_season a c doy /\ year_ok ywin y.
Proof.
  intros [N|A] P; [rewrite in_window_any by auto; unfold year_ok; tauto|]. apply in_window_asc. eapply asc_pair; eauto.
Qed.
Definition counted (dwin : list Z) (ywin w : Z) (o : observation) : Prop := o_msk o = true /\ year_ok ywin (o_year o) /\ counts_for dwin w (o_doy o).
Lemma window_of_spec dwin ywin o w : simple_windows dwin ywin -> window_of dwin ywin o = Some w <-> 0 <= w /\ counted dwin ywin w o.
Proof.
  intros S. unfold window_of, counted. destruct (o_msk o); [|split; [discriminate|intros (_ & E & _); discriminate]].
  pose proof (find_window_spec (o_year o) (o_doy o) ywin dwin 0) as F. split.
  - intros E. rewrite E in F. rewrite Z.sub_0_r in F. destruct F as (W & (a & c & P & In) & B). rewrite (simple_in dwin ywin w a c) in In by auto. destruct In as (Is & Y). split; auto. split; auto. split; auto.
    split; [destruct P; exists a, c; auto|]. intros v V (a' & c' & G1 & G2 & Is'). assert (pair_at dwin v a' c') as P' by (split; auto). specialize (B v a' c' V P').
    assert (in_window a' c' (o_year o) (o_doy o) ywin = true) by (apply (simple_in dwin ywin v); auto). congruence.
  - intros (W & _ & Y & (a & c & G1 & G2 & Is) & B). assert (pair_at dwin w a c) as P by (split; auto).
    assert (in_window a c (o_year o) (o_doy o) ywin = true) as In by (apply (simple_in dwin ywin w); auto).
    destruct (find_window dwin 0 (o_year o) (o_doy o) ywin) as [v|].
    + rewrite Z.sub_0_r in F. destruct F as (V & (a' & c' & P' & In') & B'). f_equal. destruct (Z.lt_trichotomy v w) as [L|[E|L]]; auto.
      * exfalso. apply (B v); [lia|]. exists a', c'. destruct P'. rewrite (simple_in dwin ywin v a' c') in In' by (auto; split; auto). tauto.
      * exfalso. rewrite (B' w a c) in In by (auto; lia). discriminate.
    + rewrite (F w a c) in In by auto. discriminate.
Qed.
Lemma of_window_spec dwin ywin w obs : simple_windows dwin ywin -> 0 <= w -> selected (counted dwin ywin w) obs (of_window dwin ywin w obs).
Proof.
  intros S W. eexists. split; [|reflexivity]. intros o _. cbv beta. pose proof (window_of_spec dwin ywin o w S) as H. destruct (window_of dwin ywin o) as [v|] eqn:E.
  - split; [intros Q; assert (v = w) as -> by lia; tauto|intros C]. assert (Some v = Some w) as Q by tauto. injection Q as ->. lia.
  - split; [discriminate|]. intros C. assert (None = Some w) by tauto. discriminate.
Qed.
Lemma of_any_spec dwin ywin obs : simple_windows dwin ywin -> selected (fun o => exists w, 0 <= w /\ counted dwin ywin w o) obs (of_any dwin ywin obs).
Proof.
  intros S. eexists. split; [|reflexivity]. intros o _. cbv beta. destruct (window_of dwin ywin o) as [v|] eqn:E.
  - split; auto. intros _. exists v. now apply window_of_spec.
  - split; [discriminate|]. intros (w & C). apply window_of_spec in C; auto. congruence.
Qed.
Lemma mean_of_spec l b : l <> [] -> (forall o, In o l -> 0 <= b < zlen (o_val o)) -> exists v, mean_of l b = Ret v /\ whole_mean (map (fun o => zval (o_val o) b) l) v.
Proof.
  intros NE B. unfold mean_of.
  assert (omap (fun o => of_option (get_at (o_val o) b)) l = Ret (map (fun o => zval (o_val o) b) l)) as ->.
  { clear NE. induction l as [|o l IH]; cbn [omap map]; auto. rewrite get_zval by (apply B; left; auto). cbn [of_option bind]. rewrite IH by (intros; apply B; right; auto). reflexivity. }
  cbn [bind]. eexists. split; [reflexivity|]. split; [destruct l; cbn; congruence|]. set (vs := map _ l).
  assert (zlen vs = zlen l) as Lv by apply zlen_map. assert (0 < zlen l) as P by (destruct l; [congruence|unfold zlen; cbn; lia]).
  rewrite <- Ztrunc_div by lia. f_equal. unfold mean, size. rewrite map_length, INR_IZR_INZ. unfold zlen in *. rewrite <- Lv. f_equal.
  assert (forall a, IZR (fold_left Z.add vs a) = (IZR a + sum (fun x => x) (map IZR vs))%R) as G.
  { clear. induction vs as [|v vs IH]; intros a; cbn [fold_left map sum]; [lra|]. rewrite IH, plus_IZR. lra. }
  rewrite G. lra.
Qed.
(** What is written for season [w], band [b]. *)
Definition season_result (dwin : list Z) (ywin nodata : Z) (obs : list observation) (w b v : Z) : Prop :=
  exists mine all, selected (counted dwin ywin w) obs mine /\ selected (fun o => exists u, 0 <= u /\ counted dwin ywin u o) obs all /\
    (mine <> [] -> whole_mean (map (fun o => zval (o_val o) b) mine) v) /\
    (mine = [] -> all <> [] -> whole_mean (map (fun o => zval (o_val o) b) all) v) /\
    (all = [] -> v = nodata).
Lemma season_value_spec dwin ywin nodata obs w b : simple_windows dwin ywin -> 0 <= w -> (forall o, In o obs -> 0 <= b < zlen (o_val o)) ->
  exists v, season_value dwin ywin nodata obs w b = Ret v /\ season_result dwin ywin nodata obs w b v.
Proof.
  intros S W B. unfold season_value, season_result. pose proof (of_window_spec dwin ywin w obs S W) as M. pose proof (of_any_spec dwin ywin obs S) as A.
  assert (forall o, In o (of_window dwin ywin w obs) -> In o (of_any dwin ywin obs)) as Sub.
  { intros o. unfold of_window, of_any. rewrite !filter_In. intros (I & C). split; auto. now destruct (window_of dwin ywin o). }
  assert (forall o, In o (of_any dwin ywin obs) -> 0 <= b < zlen (o_val o)) as Ba. { intros o. unfold of_any. rewrite filter_In. intros (I & _). auto. }
  set (mine := of_window dwin ywin w obs) in *. set (all := of_any dwin ywin obs) in *.
  assert (forall {X} (l : list X), (zlen l =? 0) = match l with [] => true | _ => false end) as Z0 by (intros X []; unfold zlen; cbn; lia).
  assert (0 <? zlen mine = match mine with [] => false | _ => true end) as -> by (destruct mine; unfold zlen; cbn; lia). rewrite Z0.
  destruct all as [|o all'] eqn:Ea.
  - exists nodata. split; auto. exists mine, []. split; auto. split; auto. repeat split; auto; try congruence; destruct mine as [|o m]; try congruence; exfalso; apply (Sub o); left; auto.
  - destruct mine as [|o1 m] eqn:Em.
    + destruct (mean_of_spec (o :: all') b) as (v & -> & Wv); [congruence|auto|]. exists v. split; auto. exists [], (o :: all'). repeat split; auto; try congruence; apply Wv.
    + destruct (mean_of_spec (o1 :: m) b) as (v & -> & Wv); [congruence|auto|]. exists v. split; auto. exists (o1 :: m), (o :: all'). repeat split; auto; try congruence; apply Wv.
Qed.
Lemma get_flat {A} (g : Z -> list A) n : forall l k w b, (forall x, zlen (g x) = n) -> 0 <= b < n -> get_at l k = Some w -> get_at (flat_map g l) (k * n + b) = get_at (g w) b.
Proof.
  induction l as [|x l IH]; intros k w b L B G; [apply get_at_inv in G; unfold zlen in G; cbn in G; lia|]. pose proof (get_at_inv _ _ _ G) as R. cbn [flat_map].
  assert (0 <= n) by lia. destruct (Z.eq_dec k 0) as [-> |N].
  - cbn in G. injection G as <-. change (0 * n + b) with b. unfold get_at. replace (b <? 0) with false by lia. apply nth_error_app1. specialize (L x). unfold zlen in L. lia.
  - rewrite get_cons_S in G by lia. rewrite <- (IH (k - 1) w b L B G). specialize (L x). unfold zlen in L.
    unfold get_at. assert (n <= k * n) by nia. replace (k * n + b <? 0) with false by lia. replace ((k - 1) * n + b <? 0) with false by nia.
    rewrite nth_error_app2 by lia. f_equal. lia.
Qed.
Lemma zlen_zupto n : 0 <= n -> zlen (zupto n) = n.
Proof. intros. unfold zlen. rewrite zupto_zrange, zrange_length. lia. Qed.

(** ** Standard deviations *)
#[local] Open Scope R_scope.
Lemma sum_perm {A} (f : A -> R) l l' : Permutation.Permutation l l' -> sum f l = sum f l'.
Proof. induction 1; cbn [sum]; lra. Qed.
Lemma sample_sd_perm l l' : Permutation.Permutation l l' -> sample_sd l = sample_sd l'.
Proof.
  intros P. assert (size l = size l') as S by (unfold size; f_equal; now apply Permutation.Permutation_length). unfold sample_sd, dev.
  assert (mean l = mean l') as M by (unfold mean; rewrite S; f_equal; now apply sum_perm). rewrite S, M, (sum_perm _ l l' P). reflexivity.
Qed.
Lemma sd_of_spec l : sd_of l = if (zlen l <? 2)%Z then None else Some (sample_sd l).
Proof.
  unfold sd_of. destruct (zlen l <? 2)%Z eqn:L; auto. f_equal. unfold standdev, sample_sd. f_equal. rewrite <- (variance_spec l) by (unfold zlen in L; lia).
  unfold size, zlen. now rewrite INR_IZR_INZ.
Qed.
Lemma kernel_once r : NoDup (LsmModel.kernel r).
Proof.
  pose proof (kernel_sorted r) as S. induction S as [|a l S IH F]; constructor; auto. intros In. rewrite Forall_forall in F. specialize (F a In). unfold lexlt in F. lia.
Qed.
Section Window.
Context (nodata : R) (h nx ny i j : Z) (NX : (0 < nx)%Z) (NY : (0 < ny)%Z) (H : (0 <= h)%Z).
Let pos (d : Z * Z) : Z := ((i + fst d) * nx + (j + snd d))%Z.
Let inb (d : Z * Z) : bool := ((0 <=? i + fst d) && (0 <=? j + snd d) && (i + fst d <? ny) && (j + snd d <? nx))%Z.
Let ok band (d : Z * Z) : bool := inb d && negb (Req_bool (rval band (pos d)) nodata).
Lemma wpos_ok d : inb d = true -> (0 <= pos d < nx * ny)%Z /\ (pos d / nx = i + fst d)%Z /\ (pos d mod nx = j + snd d)%Z.
Proof. intros B. unfold inb in B. unfold pos. split; [apply pos_range; lia|]. rewrite at_row, at_col by lia. auto. Qed.
Lemma window_values_eq band : zlen band = (nx * ny)%Z -> window_values nodata h nx ny i j band = Ret (map (fun d => rval band (pos d)) (filter (ok band) (LsmModel.kernel h))).
Proof.
  intros L. unfold window_values.
  assert (forall l acc, ofold (fun acc d => let ni := (i + fst d)%Z in let nj := (j + snd d)%Z in
    if ((ni <? 0) || (nj <? 0) || (ni >=? ny) || (nj >=? nx))%Z then Ret acc
    else x <- of_option (get_at band (ni * nx + nj)%Z) ;; Ret (if Req_bool x nodata then acc else acc ++ [x])) l acc = Ret (acc ++ map (fun d => rval band (pos d)) (filter (ok band) l))) as G.
  { induction l as [|d l IH]; intros acc; cbn [ofold filter map]; [now rewrite app_nil_r|]. cbv zeta in IH |- *.
    assert (((i + fst d <? 0) || (j + snd d <? 0) || (i + fst d >=? ny) || (j + snd d >=? nx))%Z = negb (inb d)) as -> by (unfold inb; lia).
    unfold ok at 1. destruct (inb d) eqn:B; cbn [negb andb]; [|cbn [bind]; apply IH].
    destruct (wpos_ok d B) as (R & _). fold (pos d). rewrite get_rval by lia. cbn [of_option bind]. destruct (Req_bool (rval band (pos d)) nodata); cbn [negb]; rewrite IH; auto.
    cbn [map]. now rewrite <- app_assoc. }
  apply G.
Qed.
Lemma window_values_spec band : zlen band = (nx * ny)%Z -> exists vs, window_values nodata h nx ny i j band = Ret vs /\ square_values nodata nx ny h i j band vs.
Proof.
  intros L. rewrite window_values_eq by auto. eexists. split; [reflexivity|].
  exists (map pos (filter (ok band) (LsmModel.kernel h))). split; [|split; [|now rewrite map_map]].
  - assert (NoDup (filter (ok band) (LsmModel.kernel h))) as N by apply NoDup_filter, kernel_once.
    assert (forall d, In d (filter (ok band) (LsmModel.kernel h)) -> inb d = true) as B. { intros d Id. apply filter_In in Id. destruct Id as (_ & C). unfold ok in C. destruct (inb d); auto. }
    induction N as [|d l Nd N IH]; cbn [map]; constructor; [|apply IH; intros; apply B; right; auto].
    rewrite in_map_iff. intros (d' & E & Id). apply Nd. destruct (wpos_ok d (B d ltac:(left; auto))) as (_ & E1 & E2), (wpos_ok d' (B d' ltac:(right; auto))) as (_ & E1' & E2').
    rewrite E in E1', E2'. replace d with d'; auto. destruct d, d'; cbn in *. f_equal; lia.
  - intros q. rewrite in_map_iff. split.
    + intros (d & <- & Id). apply filter_In in Id. destruct Id as (K & C). unfold ok in C. apply andb_prop in C. destruct C as (B & V). destruct (wpos_ok d B) as (R & E1 & E2).
      destruct d as (a, b). apply kernel_In in K. cbn [fst snd] in *. rewrite E1, E2. split; auto. split; [lia|]. split; [lia|]. intros E. rewrite Req_bool_true in V by auto. discriminate V.
    + intros (R & A1 & A2 & V). pose proof (row_range nx ny q NX R) as (Rr & Rc). exists (q / nx - i, q mod nx - j)%Z.
      assert (pos (q / nx - i, q mod nx - j)%Z = q) as E. { unfold pos. cbn [fst snd]. pose proof (at_pos nx q NX). replace (i + (q / nx - i))%Z with (q / nx)%Z by lia. lia. }
      split; auto. apply filter_In. split; [apply kernel_In; lia|]. unfold ok. rewrite E, Req_bool_false by auto. unfold inb. cbn [fst snd]. lia.
Qed.
Lemma square_values_perm band vs vs' : square_values nodata nx ny h i j band vs -> square_values nodata nx ny h i j band vs' -> Permutation.Permutation vs vs'.
Proof.
  intros (qs & N & S & ->) (qs' & N' & S' & ->). apply Permutation.Permutation_map. apply Permutation.NoDup_Permutation; auto. intros q. rewrite S, S'. tauto.
Qed.
Lemma focal_fold : forall bands m, Forall (fun b => zlen b = nx * ny)%Z bands -> exists r,
  ofold (fun m band => vs <- window_values nodata h nx ny i j band ;; Ret (match sd_of vs with Some s => if Rlt_bool m s then s else m | None => m end)) bands m = Ret r /\
  m <= r /\ (forall b vs, In b bands -> square_values nodata nx ny h i j b vs -> (2 <= zlen vs)%Z -> sample_sd vs <= r) /\
  (r = m \/ exists b vs, In b bands /\ square_values nodata nx ny h i j b vs /\ (2 <= zlen vs)%Z /\ r = sample_sd vs).
Proof.
  induction bands as [|b bands IH]; intros m F; cbn [ofold].
  - exists m. split; auto. split; [lra|]. split; [intros ? ? []|auto].
  - apply Forall_cons_iff in F. destruct F as (L & F). destruct (window_values_spec b L) as (vs & -> & Sq). cbn [bind]. rewrite sd_of_spec.
    assert (forall vs', square_values nodata nx ny h i j b vs' -> zlen vs' = zlen vs /\ sample_sd vs' = sample_sd vs) as P.
    { intros vs' Sq'. pose proof (square_values_perm b vs' vs Sq' Sq) as P. split; [unfold zlen; f_equal; now apply Permutation.Permutation_length|now apply sample_sd_perm]. }
    destruct (zlen vs <? 2)%Z eqn:C.
    + destruct (IH m F) as (r & E & B & A & R). exists r. split; auto. split; auto. split.
      * intros b' vs' [<-|I] Sq' L'; [destruct (P vs' Sq'); lia|eauto].
      * destruct R as [->|(b' & vs' & I & Q)]; [auto|]. right. exists b', vs'. cbn. tauto.
    + destruct (Rlt_bool_spec m (sample_sd vs)) as [G|G].
      * destruct (IH (sample_sd vs) F) as (r & E & B & A & R). exists r. split; auto. split; [lra|]. split.
        -- intros b' vs' [<-|I] Sq' L'; [destruct (P vs' Sq') as (_ & ->); lra|eauto].
        -- destruct R as [->|(b' & vs' & I & Q)]; right; [exists b, vs; cbn; repeat split; auto; lia|exists b', vs'; cbn; tauto].
      * destruct (IH m F) as (r & E & B & A & R). exists r. split; auto. split; auto. split.
        -- intros b' vs' [<-|I] Sq' L'; [destruct (P vs' Sq') as (_ & ->); lra|eauto].
        -- destruct R as [->|(b' & vs' & I & Q)]; [auto|]. right. exists b', vs'. cbn. tauto.
Qed.
End Window.
Lemma sample_sd_nonneg l : 0 <= sample_sd l.
Proof. apply sqrt_pos. Qed.
Lemma sample_sd_const l c : (forall x, In x l -> x = c) -> sample_sd l = 0.
Proof.
  intros E. unfold sample_sd. destruct l as [|x l]; [unfold dev; cbn; unfold Rdiv; rewrite Rmult_0_l; apply sqrt_0|].
  rewrite (dev2_const (x :: l) c) by (auto; congruence). unfold Rdiv. rewrite Rmult_0_l. apply sqrt_0.
Qed.
Lemma sample_sd_pos l x y : In x l -> In y l -> x <> y -> 0 < sample_sd l /\ (2 <= length l)%nat.
Proof.
  intros Ix Iy N. assert (2 <= length l)%nat as L by (destruct l as [|a [|b l]]; cbn in *; try lia; intuition congruence). split; auto.
  unfold sample_sd. apply sqrt_lt_R0. assert (1 < size l) as S by (unfold size; change 1 with (INR 1); apply lt_INR; lia). apply Rdiv_lt_0_compat; [|lra].
  destruct (Rle_lt_or_eq_dec _ _ (dev2_nonneg l)) as [|E]; auto. exfalso. apply N. now apply (dev2_zero_const l).
Qed.
(** Centred and scaled values. *)
Lemma sum_lin a b (l : list R) : sum (fun x => x) (map (fun x => (x - a) / b) l) = (sum (fun x => x) l - size l * a) / b.
Proof. induction l as [|x l IH]; cbn [map sum]; [unfold size; cbn; unfold Rdiv; ring|]. rewrite IH, size_cons. unfold Rdiv. ring. Qed.
Lemma standard_mean l : l <> [] -> mean (map (fun x => (x - mean l) / sample_sd l) l) = 0.
Proof.
  intros NE. unfold mean at 1. rewrite sum_lin. pose proof (size_pos l NE). unfold mean. replace (sum (fun x => x) l - size l * (sum (fun x => x) l / size l)) with 0 by (field; lra). unfold Rdiv. ring.
Qed.
Lemma standard_sd l x y : In x l -> In y l -> x <> y -> sample_sd (map (fun x => (x - mean l) / sample_sd l) l) = 1.
Proof.
  intros Ix Iy N. destruct (sample_sd_pos l x y Ix Iy N) as (P & L2). assert (l <> []) as NE by (intros ->; destruct Ix).
  assert (1 < size l) as S by (unfold size; change 1 with (INR 1); apply lt_INR; lia).
  unfold sample_sd at 1. rewrite size_map. unfold dev at 1. rewrite standard_mean by auto. rewrite sum_map.
  assert (sum (fun x => ((x - mean l) / sample_sd l - 0) ^ 2) l = dev 2 l / (sample_sd l * sample_sd l)) as ->.
  { unfold dev. generalize (mean l). intros m. clear -P. generalize dependent (sample_sd l). intros s P. induction l as [|a l IH]; cbn [sum]; [unfold Rdiv; ring|]. rewrite IH. field. lra. }
  assert (sample_sd l * sample_sd l = dev 2 l / (size l - 1)) as Q. { unfold sample_sd. apply sqrt_sqrt. apply Rmult_le_pos; [apply dev2_nonneg|]. left. apply Rinv_0_lt_compat. lra. }
  assert (0 < dev 2 l) as D. { assert (0 < dev 2 l / (size l - 1)) as D by (rewrite <- Q; nra). apply Rmult_lt_reg_r with (/ (size l - 1)); [apply Rinv_0_lt_compat; lra|]. rewrite Rmult_0_l. exact D. }
  rewrite Q. replace (dev 2 l / (dev 2 l / (size l - 1)) / (size l - 1)) with 1 by (field; lra). apply sqrt_1.
Qed.
