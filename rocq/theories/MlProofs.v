(** Lemmas on machine learning predictions. *)
From Coq Require Import Reals Lra Sorting.Permutation.
From Flocq Require Import Core.
From Verif Require Import Base BaseFacts Loops LoopsFacts ChunkProofs RoundModel RoundFacts StatsModel StatsSpec StatsProofs StatsProps ModeModel ModeSpec ModeProofs MlModel MlSpec CsoProofs BapComposite.
#[local] Open Scope Z_scope.

(** ** Blocks *)
Lemma get_skipn {A} : forall n (l : list A) i, 0 <= i -> get_at (skipn n l) i = get_at l (Z.of_nat n + i).
Proof.
  induction n as [|n IH]; intros l i I; [cbn; f_equal; lia|]. destruct l as [|x l]; cbn [skipn].
  - unfold get_at. destruct (i <? 0), (Z.of_nat (S n) + i <? 0); auto; destruct (Z.to_nat i), (Z.to_nat (Z.of_nat (S n) + i)); auto.
  - rewrite IH by auto. rewrite get_cons_S by lia. f_equal. lia.
Qed.
Lemma get_firstn {A} : forall n (l : list A) i, i < Z.of_nat n -> get_at (firstn n l) i = get_at l i.
Proof.
  induction n as [|n IH]; intros l i I; [unfold get_at; replace (i <? 0) with true by lia; auto|]. destruct l as [|x l]; cbn [firstn]; auto.
  destruct (Z.eq_dec i 0) as [-> |N]; [reflexivity|]. destruct (Z.ltb_spec i 0) as [L|L]; [unfold get_at; replace (i <? 0) with true by lia; auto|]. rewrite !get_cons_S by lia. apply IH. lia.
Qed.
Lemma firstn_snoc {A} : forall n (l : list A) x, get_at l (Z.of_nat n) = Some x -> firstn (S n) l = firstn n l ++ [x].
Proof.
  induction n as [|n IH]; intros l x G; destruct l as [|y l]; try (rewrite get_at_nat in G; discriminate).
  - cbn in G. injection G as ->. reflexivity.
  - cbn [firstn app]. f_equal. apply IH. rewrite get_cons_S in G by lia. rewrite <- G. f_equal. lia.
Qed.
Lemma zsum_firstn sizes : forall s, (s < length sizes)%nat -> start sizes (S s) = start sizes s + nth s sizes 0.
Proof. unfold start. induction sizes as [|x l IH]; intros s H; [cbn in H; lia|]. cbn in H. destruct s as [|s]; [cbn; lia|]. specialize (IH s ltac:(lia)). cbn [firstn nth] in *. unfold zsum in *. cbn [fold_right]. lia. Qed.
Lemma block_get {A} sizes (flat : list A) s i : 0 <= start sizes s -> 0 <= i < nth s sizes 0 -> get_at (block sizes flat s) i = get_at flat (start sizes s + i).
Proof. intros S I. unfold block. rewrite get_firstn by lia. rewrite get_skipn by lia. f_equal. lia. Qed.
Lemma block_length {A} sizes (flat : list A) s : 0 <= start sizes s -> 0 <= nth s sizes 0 -> start sizes s + nth s sizes 0 <= zlen flat -> zlen (block sizes flat s) = nth s sizes 0.
Proof. intros A1 A2 A3. unfold block, zlen in *. rewrite firstn_length, skipn_length. lia. Qed.

(** ** Regression *)
Lemma run_var_nil : run_var [] = mkVar 0 0.
Proof. reflexivity. Qed.
Lemma run_var_snoc l x : run_var (l ++ [x]) = var_recurrence x (run_var l) (INR (length l) + 1).
Proof. unfold run_var. rewrite feed_snoc. reflexivity. Qed.
Lemma run_var_mean l : l <> [] -> r_mx (run_var l) = mean l.
Proof. intros N. apply (C20_mean_variance l N). Qed.
Lemma firstn_ne {A} n (l : list A) : (0 < n <= length l)%nat -> firstn n l <> [].
Proof. intros H E. apply (f_equal (@length A)) in E. rewrite firstn_length in E. cbn in E. lia. Qed.
Lemma blend_spec cf flat nm k0 preds : 0 <= k0 -> 0 <= nm -> zlen preds = nm -> (forall i, 0 <= i < nm -> exists a, get_at flat (k0 + i) = Some a /\ get_at preds i = Some (an_value a)) ->
  forall fuel m, (m + fuel)%nat = length preds -> (forall i, (3 <= i <= m)%nat -> (cf_converge cf <= change preds i)%R) ->
  exists n, blend cf flat nm fuel (Z.of_nat m) (k0 + Z.of_nat m) (run_var (firstn m preds)) (r_mx (run_var (firstn m preds))) = Ret (run_var (firstn n preds), Z.of_nat n, k0 + nm) /\ stops (cf_converge cf) preds n /\ (m <= n)%nat.
Proof.
  intros K N Lp H. induction fuel as [|f IH]; intros m E C.
  - exists m. cbn [blend]. split; [repeat f_equal; unfold zlen in Lp; lia|]. split; [|lia]. split; [lia|]. split; [intros i I; apply C; lia|lia].
  - cbn [blend]. destruct (H (Z.of_nat m)) as (a & Ga & Gp); [unfold zlen in Lp; lia|]. rewrite Ga. cbn [of_option bind].
    assert (run_var (firstn (S m) preds) = (if Z.of_nat m =? 0 then mkVar (an_value a) (r_vx (run_var (firstn m preds))) else var_recurrence (an_value a) (run_var (firstn m preds)) (IZR (Z.of_nat m + 1)))) as St.
    { rewrite (firstn_snoc m preds (an_value a) Gp), run_var_snoc. destruct m as [|m].
      - cbn [firstn length INR Z.of_nat Z.eqb]. rewrite run_var_nil. unfold var_recurrence. cbn [r_mx r_vx]. f_equal; field.
      - replace (Z.of_nat (S m) =? 0) with false by lia. f_equal. rewrite firstn_length, Nat.min_l by lia. rewrite plus_IZR, <- INR_IZR_INZ. reflexivity. }
    rewrite <- St. clear St Ga Gp.
    destruct ((1 <? Z.of_nat m) && Rlt_bool (Rabs (r_mx (run_var (firstn (S m) preds)) - r_mx (run_var (firstn m preds)))) (cf_converge cf)) eqn:B.
    + apply andb_prop in B. destruct B as [B1 B2]. exists (S m). split; [f_equal; f_equal; [f_equal; lia|lia]|]. split; [|lia]. split; [lia|]. split; [intros i I; apply C; lia|].
      intros L. split; [lia|]. unfold change, mean_of. replace (S m - 1)%nat with m by lia. rewrite !run_var_mean in B2 by (apply firstn_ne; lia). destruct (Rlt_bool_spec (Rabs (mean (firstn (S m) preds) - mean (firstn m preds))) (cf_converge cf)); [auto|discriminate].
    + destruct (IH (S m)) as (n & En & Sn & Ln); [lia| |].
      * intros i I. destruct (Nat.eq_dec i (S m)) as [-> |Ne]; [|apply C; lia]. unfold change, mean_of. replace (S m - 1)%nat with m by lia. rewrite !run_var_mean in B by (apply firstn_ne; lia). replace (1 <? Z.of_nat m) with true in B by lia. cbn [andb] in B.
        destruct (Rlt_bool_spec (Rabs (mean (firstn (S m) preds) - mean (firstn m preds))) (cf_converge cf)); [discriminate|auto].
      * exists n. split; [|split; auto; lia]. rewrite <- En. f_equal; lia.
Qed.
Lemma limit_range x : limit x = to_range x.
Proof.
  unfold limit, to_range. destruct (Rlt_bool_spec 32767 x) as [A|A].
  - rewrite Rmin_left by lra. rewrite Rlt_bool_false by lra. rewrite Rmax_right by lra. auto.
  - rewrite Rmin_right by lra. destruct (Rlt_bool_spec x (-32768)); [rewrite Rmax_left|rewrite Rmax_right]; lra.
Qed.

(** ** Classification *)
Lemma winner_spec : forall cols w, In w cols -> 0 < snd w -> exists n, In (winner cols, n) cols /\ forall l k, In (l, k) cols -> k <= n.
Proof.
  assert (forall cols acc, let r := fold_left (fun (w : Z * Z) (lv : Z * Z) => if snd lv >? snd w then lv else w) cols acc in (r = acc \/ In r cols) /\ snd acc <= snd r /\ forall l k, In (l, k) cols -> k <= snd r) as G.
  { induction cols as [|[l0 k0] cols IH]; intros acc r; [subst r; cbn; split; auto; split; [lia|intros ? ? []]|]. cbn [fold_left] in r. specialize (IH (if snd (l0, k0) >? snd acc then (l0, k0) else acc)). cbv zeta in IH. fold r in IH. destruct IH as (A & B & C). cbn [snd] in *.
    destruct (k0 >? snd acc) eqn:E; cbn [snd] in *.
    - split; [right; destruct A as [-> |A]; [left; auto|right; auto]|]. split; [lia|]. intros l k [Q|I]; [injection Q as <- <-; lia|eauto].
    - split; [destruct A as [-> |A]; [auto|right; right; auto]|]. split; [lia|]. intros l k [Q|I]; [injection Q as <- <-; lia|eauto]. }
  intros cols w I P. unfold winner. destruct (G cols (0, 0)) as (A & B & C). destruct (fold_left _ cols (0, 0)) as [l n]. cbn [fst snd] in *. exists n. destruct A as [Q|A]; [|split; auto]. injection Q as -> ->. destruct w as [lw kw]. specialize (C _ _ I). cbn in P. lia.
Qed.

(** ** All sets *)
Lemma all_sets_spec cf flat (P : nat -> result -> Prop) : forall sets k,
  (forall s nm ncl, nth_error sets s = Some (nm, ncl) -> exists r, one_set cf flat nm ncl (k + start (map fst sets) s) = Ret (r, k + start (map fst sets) (S s)) /\ P s r) ->
  exists rs, all_sets cf flat sets k = Ret rs /\ length rs = length sets /\ forall s r, nth_error rs s = Some r -> P s r.
Proof.
  intros sets. revert P. induction sets as [|[nm ncl] sets IH]; intros P k H; cbn [all_sets]; [exists []; repeat split; auto; intros [|s] r E; discriminate|].
  destruct (H O nm ncl eq_refl) as (r & E & Pr). change (start (map fst ((nm, ncl) :: sets)) 0) with 0 in E. rewrite Z.add_0_r in E. rewrite E. cbn [bind].
  replace (start (map fst ((nm, ncl) :: sets)) 1) with nm by (unfold start; cbn; lia).
  destruct (IH (fun s => P (S s)) (k + nm)) as (rs & -> & L & Q).
  - intros s nm' ncl' G. destruct (H (S s) nm' ncl' G) as (r' & E' & P'). exists r'. split; auto.
    assert (forall j, start (map fst ((nm, ncl) :: sets)) (S j) = nm + start (map fst sets) j) as A by (intros j; unfold start; cbn; reflexivity). rewrite !A in E'. rewrite !Z.add_assoc in E'. exact E'.
  - cbn [bind]. exists (r :: rs). split; auto. split; [cbn; lia|]. intros [|s] x G; cbn in G; [injection G as <-; auto|apply Q; auto].
Qed.
Lemma zsum_app a b : zsum (a ++ b) = zsum a + zsum b.
Proof. unfold zsum. induction a as [|x a IH]; cbn [app fold_right]; lia. Qed.
Lemma zsum_nonneg l : Forall (fun x => 0 <= x) l -> 0 <= zsum l.
Proof. unfold zsum. induction 1; cbn [fold_right]; lia. Qed.
Lemma start_bounds sizes s : Forall (fun x => 0 <= x) sizes -> (s < length sizes)%nat -> 0 <= start sizes s /\ 0 <= nth s sizes 0 /\ start sizes s + nth s sizes 0 <= zsum sizes.
Proof.
  intros F L. assert (0 <= start sizes s) as A. { apply zsum_nonneg. rewrite Forall_forall in *. intros x I. apply F. rewrite <- (firstn_skipn s sizes). apply in_or_app. auto. }
  split; auto. split; [rewrite Forall_forall in F; apply F; now apply nth_In|]. rewrite <- zsum_firstn by auto. unfold start. rewrite <- (firstn_skipn (S s) sizes) at 2. rewrite zsum_app.
  assert (0 <= zsum (skipn (S s) sizes)); [|lia]. apply zsum_nonneg. rewrite Forall_forall in *. intros x I. apply F. rewrite <- (firstn_skipn (S s) sizes). apply in_or_app. auto.
Qed.
Lemma set_facts {A} (sets : list (Z * Z)) (flat : list A) s nm ncl : Forall (fun x => 1 <= fst x) sets -> zsum (map fst sets) <= zlen flat -> nth_error sets s = Some (nm, ncl) ->
  nth s (map fst sets) 0 = nm /\ 0 <= start (map fst sets) s /\ 1 <= nm /\ start (map fst sets) (S s) = start (map fst sets) s + nm /\ zlen (block (map fst sets) flat s) = nm /\
  (forall i, 0 <= i < nm -> get_at (block (map fst sets) flat s) i = get_at flat (start (map fst sets) s + i)) /\ start (map fst sets) s + nm <= zlen flat.
Proof.
  intros F L G. assert (s < length sets)%nat as Ls by (apply nth_error_Some; congruence). assert (nth s (map fst sets) 0 = nm) as Nm by (erewrite nth_error_nth; [reflexivity|]; rewrite nth_error_map, G; reflexivity).
  assert (Forall (fun x => 0 <= x) (map fst sets)) as F' by (rewrite Forall_forall in *; intros x I; apply in_map_iff in I; destruct I as (y & <- & I); specialize (F y I); lia).
  destruct (start_bounds (map fst sets) s F') as (A1 & B & C); [now rewrite map_length|]. rewrite Nm in *. assert (1 <= nm) as N1 by (apply nth_error_In in G; rewrite Forall_forall in F; apply (F _ G)).
  split; auto. split; auto. split; auto. split; [rewrite zsum_firstn by (now rewrite map_length); now rewrite Nm|]. split; [rewrite block_length; rewrite ?Nm; auto; lia|]. split; [|lia]. intros i I. apply block_get; auto. now rewrite Nm.
Qed.
Lemma one_set_regression cf flat nm ncl k preds : cf_regression cf = true -> 0 <= k -> 1 <= nm -> zlen preds = nm -> (forall i, 0 <= i < nm -> exists a, get_at flat (k + i) = Some a /\ get_at preds i = Some (an_value a)) ->
  cf_mlu cf = false \/ 2 <= nm -> exists r n, one_set cf flat nm ncl k = Ret (r, k + nm) /\ stops (cf_converge cf) preds n /\ r_mlp r = Ztrunc (to_range (mean_of preds n * cf_scale cf)) /\ r_mli r = Z.of_nat n /\
    r_mlu r = (if cf_mlu cf then Some (Ztrunc (Rmin 32767 (sample_sd (firstn n preds) * 10000))) else None).
Proof.
  intros Rg K N Lp H U. unfold one_set. rewrite Rg. destruct (blend_spec cf flat nm k preds K ltac:(lia) Lp H (Z.to_nat nm) 0) as (n & E & S & _).
  - unfold zlen in Lp. lia.
  - intros i I. lia.
  - cbn [firstn] in E. rewrite run_var_nil in E. cbn [r_mx] in E. change (Z.of_nat 0) with 0 in E. rewrite Z.add_0_r in E. rewrite E. cbn [bind].
    assert (1 <= n <= length preds)%nat as Ln by (destruct S as (S1 & _ & S3); unfold zlen in Lp; split; [|lia]; destruct (Nat.eq_dec n (length preds)); [lia|destruct S3; lia]).
    assert (firstn n preds <> []) as Nf by (apply firstn_ne; lia). destruct (C20_mean_variance _ Nf) as (Mx & Vx). unfold mean_of.
    destruct (cf_mlu cf).
    + destruct U as [U|U]; [discriminate|]. assert (2 <= n)%nat as Ln2 by (destruct S as (S1 & _ & S3); unfold zlen in Lp; destruct (Nat.eq_dec n (length preds)); [lia|destruct S3; lia]).
      unfold uncertainty. replace (Z.of_nat n =? 1) with false by lia. cbn [bind]. eexists _, n. split; [reflexivity|]. split; auto. cbn [r_mlp r_mli r_mlu]. rewrite limit_range, Mx. split; auto. split; auto. do 2 f_equal.
      unfold standdev, variance, sample_sd. rewrite Vx. unfold size. rewrite firstn_length, Nat.min_l by lia. rewrite <- INR_IZR_INZ. set (q := (sqrt _ * 10000)%R). destruct (Rlt_bool_spec 32767 q); [rewrite Rmin_left|rewrite Rmin_right]; lra.
    + cbn [bind]. eexists _, n. split; [reflexivity|]. split; auto. cbn [r_mlp r_mli r_mlu]. rewrite limit_range, Mx. auto.
Qed.

(** ** Class probabilities *)
#[local] Open Scope R_scope.
Lemma tenth_thousand : rnd64 (1 / 10000) = IZR 7378697629483821 * bpow radix2 (-66).
Proof.
  apply rnd64_near; [lia|lia|]. change (bpow radix2 (-66)) with (/ 73786976294838206464). apply Rabs_lt. lra.
Qed.
Lemma share_close n v : (0 < n <= 1000000000)%Z -> (0 <= v <= n)%Z -> 0 <= share n v /\ Rabs (share n v - 10000 * IZR v / IZR n) <= / 100000000000.
Proof.
  intros [N1 N2] [V1 V2]. assert (1 <= IZR n <= 1000000000) as [Hn1 Hn2] by (split; apply IZR_le; lia). apply IZR_le in V2.
  unfold share. rewrite tenth_thousand. change (bpow radix2 (-66)) with (/ 73786976294838206464). set (d := IZR 7378697629483821 * / 73786976294838206464).
  assert (/ 10000 <= d <= / 10000 + / 100000000000000000000) as Hd by (unfold d; lra). clearbody d.
  assert (IZR n / 10000 <= IZR n * d <= IZR n / 10000 + IZR n / 100000000000000000000) as Hx by nra.
  assert (bpow radix2 (-1000) <= / 10000000) as Tiny by (apply Rle_trans with (bpow radix2 (-30)); [apply bpow_le; lia|change (bpow radix2 (-30)) with (/ 1073741824); lra]).
  set (x := IZR n * d) in *. pose proof (rnd64_rel x) as Rx. rewrite (Rabs_pos_eq x) in Rx by lra. specialize (Rx ltac:(lra)). apply Rabs_le_inv in Rx. set (D := rnd64 x) in *.
  assert (IZR n / 10000 * (1 - 3 / 10000000000000000) <= D <= IZR n / 10000 * (1 + 3 / 10000000000000000)) as HD by lra. clearbody D x. clear Rx Hx Hd d.
  destruct (Z.eq_dec v 0) as [-> |Nv].
  { unfold Rdiv. rewrite Rmult_0_l, rnd64_0, Rmult_0_r, Rmult_0_l. rewrite Rminus_0_r, Rabs_R0. lra. }
  assert (1 <= IZR v) as Hv by (apply IZR_le; lia). set (q := 10000 * IZR v / IZR n).
  assert (q * IZR n = 10000 * IZR v) as Hq by (unfold q; field; lra).
  assert (/ 100000 <= q <= 10000) as [Q1 Q2] by (split; nra).
  set (w := IZR v / D). assert (w * D = IZR v) as Hw by (unfold w; field; lra).
  assert (0 < D) as PD by lra.
  assert (q * (1 - 4 / 10000000000000000) <= w <= q * (1 + 4 / 10000000000000000)) as HW.
  { split; apply Rmult_le_reg_r with D; auto; rewrite Hw; nra. }
  pose proof (rnd64_rel w) as Rw. rewrite (Rabs_pos_eq w) in Rw by nra. specialize (Rw ltac:(nra)). apply Rabs_le_inv in Rw.
  assert (Rabs (rnd64 w - q) <= / 100000000000) as A by (apply Rabs_le; nra). split; auto. apply Rabs_le_inv in A. nra.
Qed.
Lemma share_floor n v : (0 < n <= 1000000000)%Z -> (0 <= v <= n)%Z ->
  (10000 * v / n - 1 <= Ztrunc (share n v) <= 10000 * v / n)%Z /\ ((10000 * v mod n)%Z <> 0%Z -> Ztrunc (share n v) = (10000 * v / n)%Z).
Proof.
  intros N V. destruct (share_close n v N V) as (P & C). apply Rabs_le_inv in C. assert (1 <= IZR n <= 1000000000) as [Hn1 Hn2] by (split; apply IZR_le; lia).
  rewrite Ztrunc_floor by auto. pose proof (Z.div_mod (10000 * v) n ltac:(lia)) as DM. pose proof (Z.mod_pos_bound (10000 * v) n ltac:(lia)) as MB. set (Q := (10000 * v / n)%Z) in *. set (r := (10000 * v mod n)%Z) in *.
  set (q := 10000 * IZR v / IZR n) in *. assert (q * IZR n = 10000 * IZR v) as Hq by (unfold q; field; lra). rewrite <- mult_IZR, DM, plus_IZR, mult_IZR in Hq.
  assert (0 <= IZR r <= IZR n - 1) as [R1 R2] by (split; [apply IZR_le; lia|rewrite <- (minus_IZR n 1); apply IZR_le; lia]).
  set (s := share n v) in *. clearbody s. pose proof (Zfloor_lb s) as F1. pose proof (Zfloor_ub s) as F2.
  assert (IZR Q - / 100000000000 <= s) as L1 by nra.
  assert (s < IZR Q + 1) as L2. { assert (q <= IZR Q + 1 - / 1000000000); [|lra]. apply Rmult_le_reg_r with (IZR n); [lra|]. rewrite Hq. nra. }
  assert (Zfloor s <= Q)%Z as U by (apply Zlt_succ_le, lt_IZR; unfold Z.succ; rewrite plus_IZR; lra).
  split; [split; auto; apply Zlt_succ_le, lt_IZR; unfold Z.succ; rewrite plus_IZR, minus_IZR; lra|].
  intros Nr. assert (1 <= IZR r) as R3 by (apply IZR_le; lia). apply Z.le_antisymm; auto. apply Zfloor_lub. assert (IZR Q + / 1000000000 <= q); [|lra]. apply Rmult_le_reg_r with (IZR n); [lra|]. rewrite Hq. nra.
Qed.
#[local] Open Scope Z_scope.
Lemma add_votes_get : forall a b, length a = length b -> length (add_votes a b) = length a /\ forall i, nth i (add_votes a b) 0 = nth i a 0 + nth i b 0.
Proof.
  induction a as [|x a IH]; intros [|y b] L; try discriminate; [split; auto; intros [|i]; reflexivity|]. injection L as L. destruct (IH b L) as (A & B). cbn [add_votes length]. split; [lia|]. intros [|i]; cbn [nth]; auto.
Qed.
Definition col_sum (votes : list (list Z)) (i : nat) : Z := zsum (map (fun v => nth i v 0) votes).
Lemma total_spec ncl : forall votes acc, length acc = ncl -> Forall (fun v => length v = ncl) votes -> length (fold_left add_votes votes acc) = ncl /\ forall i, nth i (fold_left add_votes votes acc) 0 = nth i acc 0 + col_sum votes i.
Proof.
  induction votes as [|v votes IH]; intros acc L F; cbn [fold_left]; [split; auto; intros i; unfold col_sum; cbn; lia|]. inversion F as [|? ? Lv F']; subst. destruct (add_votes_get acc v) as (A & B); [lia|]. destruct (IH (add_votes acc v)) as (C & D); [lia|auto|]. split; [lia|]. intros i. rewrite D, B. unfold col_sum. cbn. unfold zsum. lia.
Qed.
Lemma fold_add : forall l a, fold_left Z.add l a = a + zsum l.
Proof. unfold zsum. induction l as [|x l IH]; intros a; cbn [fold_left fold_right]; [lia|]. rewrite IH. lia. Qed.
Lemma zsum_concat ls : zsum (concat ls) = zsum (map zsum ls).
Proof. induction ls as [|l ls IH]; [reflexivity|]. cbn [concat map]. rewrite zsum_app, IH. reflexivity. Qed.
Lemma zsum_add_votes : forall a b, length a = length b -> zsum (add_votes a b) = zsum a + zsum b.
Proof. unfold zsum. induction a as [|x a IH]; intros [|y b] L; try discriminate; [reflexivity|]. injection L as L. cbn [add_votes fold_right]. rewrite IH by auto. lia. Qed.
Lemma total_sum ncl : forall votes acc, length acc = ncl -> Forall (fun v => length v = ncl) votes -> zsum (fold_left add_votes votes acc) = zsum acc + zsum (concat votes).
Proof.
  induction votes as [|v votes IH]; intros acc L F; cbn [fold_left concat]; [cbn; lia|]. inversion F as [|? ? Lv F']; subst. rewrite IH; auto; [|destruct (add_votes_get acc v); lia]. rewrite zsum_add_votes, zsum_app by lia. lia.
Qed.
Lemma zsum_repeat0 n : zsum (repeat 0 n) = 0.
Proof. unfold zsum. induction n; cbn [repeat fold_right]; lia. Qed.
Lemma nth_repeat0 n i : nth i (repeat 0 n) 0 = 0.
Proof. revert i. induction n as [|n IH]; intros [|i]; cbn [repeat nth]; auto. Qed.
Lemma nth_le_zsum : forall l i, Forall (fun x => 0 <= x) l -> 0 <= nth i l 0 <= zsum l.
Proof. unfold zsum. induction l as [|x l IH]; intros i F; [destruct i; cbn; lia|]. inversion F; subst. pose proof (zsum_nonneg l). unfold zsum in *. destruct i as [|i]; cbn [nth fold_right]; [|specialize (IH i)]; intuition lia. Qed.
(** The list of shares. *)
Lemma probabilities_spec ncl votes : 0 <= ncl -> Forall (fun v => length v = Z.to_nat ncl /\ Forall (fun x => 0 <= x) v) votes -> 0 < zsum (concat votes) <= 1000000000 ->
  exists p, probabilities ncl votes = Ret p /\ length p = Z.to_nat ncl /\ (forall i x, nth_error p i = Some x -> x = share (zsum (concat votes)) (col_sum votes i) /\ 0 <= col_sum votes i <= zsum (concat votes)) /\ zsum (map Ztrunc p) <= 10000.
Proof.
  intros Nc F N. unfold probabilities. rewrite fold_add, Z.add_0_l. set (n := zsum (concat votes)) in *. replace (n =? 0) with false by lia.
  assert (Forall (fun v => length v = Z.to_nat ncl) votes) as F1 by (eapply Forall_impl; [|exact F]; intros v []; auto).
  destruct (total_spec (Z.to_nat ncl) votes (repeat 0 (Z.to_nat ncl)) (repeat_length _ _) F1) as (L & G). pose proof (total_sum (Z.to_nat ncl) votes (repeat 0 (Z.to_nat ncl)) (repeat_length _ _) F1) as TS. rewrite zsum_repeat0, Z.add_0_l in TS. fold n in TS.
  set (tot := fold_left add_votes votes (repeat 0 (Z.to_nat ncl))) in *.
  assert (forall i, nth i tot 0 = col_sum votes i) as G' by (intros i; rewrite G, nth_repeat0; lia).
  assert (Forall (fun x => 0 <= x) tot) as Nn.
  { apply Forall_forall. intros x I. apply In_nth with (d := 0) in I. destruct I as (i & _ & <-). rewrite G'. apply zsum_nonneg. apply Forall_forall. intros y J. apply in_map_iff in J. destruct J as (v & <- & J). rewrite Forall_forall in F. destruct (F v J) as (_ & P). destruct (nth_le_zsum v i P). auto. }
  exists (map (share n) tot). split; auto. split; [now rewrite map_length|]. split.
  - intros i x E. rewrite nth_error_map in E. destruct (nth_error tot i) as [t|] eqn:T; [|discriminate]. injection E as <-. pose proof (nth_le_zsum tot i Nn). rewrite TS in H. rewrite <- G'. split; auto. f_equal. symmetry. now apply nth_error_nth.
  - rewrite map_map. assert (forall l, Forall (fun x => 0 <= x <= n) l -> n * zsum (map (fun x => Ztrunc (share n x)) l) <= 10000 * zsum l) as S.
    { induction 1 as [|x l Hx _ IH]; [cbn; lia|]. cbn [map]. unfold zsum in *. cbn [fold_right]. destruct (share_floor n x ltac:(lia) Hx) as ((_ & U) & _). pose proof (Z.mul_div_le (10000 * x) n ltac:(lia)). nia. }
    assert (Forall (fun x => 0 <= x <= n) tot) as B by (apply Forall_forall; intros x I; apply In_nth with (d := 0) in I; destruct I as (i & _ & <-); rewrite <- TS; now apply nth_le_zsum). specialize (S tot B). rewrite TS in S. nia.
Qed.

(** ** Margin *)
#[local] Open Scope R_scope.
Lemma fold_trunc (P : R -> bool) : forall l acc, (0 <= acc)%Z -> Forall (fun x => 0 <= x) l -> let m := fold_left (fun m x => if Rlt_bool (IZR m) x && P x then Ztrunc x else m) l acc in
  (acc <= m)%Z /\ (forall x, In x l -> P x = true -> (Ztrunc x <= m)%Z) /\ (m = acc \/ exists x, In x l /\ P x = true /\ m = Ztrunc x).
Proof.
  induction l as [|x l IH]; intros acc A F; cbn [fold_left]; [cbv zeta; split; [lia|split; [intros ? []|auto]]|]. inversion F as [|? ? Fx Fl]; subst.
  set (acc' := if Rlt_bool (IZR acc) x && P x then Ztrunc x else acc). assert (acc <= acc' /\ (P x = true -> Ztrunc x <= acc'))%Z as [A1 A2].
  { unfold acc'. destruct (Rlt_bool_spec (IZR acc) x) as [L|L]; cbn [andb]; [destruct (P x) eqn:Px|].
    - split; [|lia]. rewrite Ztrunc_floor by auto. apply Zfloor_lub. lra.
    - split; [lia|discriminate].
    - split; [lia|]. intros _. rewrite Ztrunc_floor by auto. apply le_IZR. apply Rle_trans with x; auto. apply Zfloor_lb. }
  destruct (IH acc' ltac:(lia) Fl) as (B1 & B2 & B3). cbv zeta. split; [lia|]. split; [intros y [<-|I] Py; [specialize (A2 Py); lia|auto]|].
  destruct B3 as [B3|(y & I & Py & B3)]; [|right; exists y; split; [right|]; auto]. rewrite B3. unfold acc'. destruct (Rlt_bool (IZR acc) x); cbn [andb]; auto. destruct (P x) eqn:Px; auto. right. exists x. split; [left|]; auto.
Qed.
Lemma margin_spec p a b : two_largest p a b -> 0 <= b -> Forall (fun x => 0 <= x) p -> b < IZR (Ztrunc a) -> margin p = (Ztrunc a - Ztrunc b)%Z.
Proof.
  intros (r & Pm & Ba & Fr) B0 F Lt. unfold margin.
  assert (forall x, In x p -> x <= a) as Ma. { intros x I. apply (Permutation_in _ Pm) in I. destruct I as [<-|[<-|I]]; [lra|auto|]. rewrite Forall_forall in Fr. specialize (Fr x I). lra. }
  assert (In a p /\ In b p) as [Ia Ib] by (split; apply (Permutation_in _ (Permutation_sym Pm)); [left|right; left]; auto).
  destruct (fold_trunc (fun _ => true) p 0 ltac:(lia) F) as (A1 & A2 & A3).
  replace (fold_left (fun m x => if Rlt_bool (IZR m) x then Ztrunc x else m) p 0%Z) with (fold_left (fun m x => if Rlt_bool (IZR m) x && true then Ztrunc x else m) p 0%Z) by (generalize 0%Z; clear; induction p as [|x p IH]; intros z; cbn [fold_left]; auto; rewrite andb_true_r; apply IH).
  set (m1 := fold_left (fun m x => if Rlt_bool (IZR m) x && true then Ztrunc x else m) p 0%Z) in *.
  assert (m1 = Ztrunc a) as M1. { apply Z.le_antisymm; [|now apply A2]. destruct A3 as [-> |(x & I & _ & ->)]; [rewrite <- (Ztrunc_IZR 0); apply Ztrunc_le; lra|apply Ztrunc_le; auto]. }
  destruct (fold_trunc (fun x => Rlt_bool x (IZR m1)) p 0 ltac:(lia) F) as (C1 & C2 & C3). set (m2 := fold_left (fun m x => if Rlt_bool (IZR m) x && Rlt_bool x (IZR m1) then Ztrunc x else m) p 0%Z) in *.
  assert (m2 = Ztrunc b) as M2; [|lia]. apply Z.le_antisymm; [|apply C2; auto; apply Rlt_bool_true; rewrite M1; auto].
  destruct C3 as [-> |(x & I & Px & ->)]; [rewrite <- (Ztrunc_IZR 0); apply Ztrunc_le; lra|]. apply Ztrunc_le. destruct (Rlt_bool_spec x (IZR m1)) as [Lx|]; [|discriminate].
  apply (Permutation_in _ Pm) in I. destruct I as [<-|[<-|I]]; [|lra|rewrite Forall_forall in Fr; auto]. rewrite M1 in Lx. assert (IZR (Ztrunc a) <= a); [|lra]. rewrite Ztrunc_floor by (rewrite Forall_forall in F; auto). apply Zfloor_lb.
Qed.
#[local] Open Scope Z_scope.
Lemma zupto_len n : 0 <= n -> zlen (zupto n) = n.
Proof. intros N. unfold zlen. rewrite zupto_length. lia. Qed.
Lemma omap_range {A} (f : Z -> outcome A) n l : 0 <= n -> zlen l = n -> (forall i, 0 <= i < n -> f i = of_option (get_at l i)) -> omap f (zupto n) = Ret l.
Proof.
  intros N L H. destruct (omap_get f (fun i y => get_at l i = Some y) (zupto n)) as (ys & E & Ly & G).
  - intros i a Ga. pose proof (get_at_inv _ _ _ Ga) as B. rewrite zupto_len in B by auto. rewrite get_zupto in Ga by lia. injection Ga as <-. destruct (get_at_some l i) as (y & Gy); [lia|]. exists y. rewrite H, Gy by lia. auto.
  - rewrite E. f_equal. rewrite zupto_len in Ly by auto. apply get_at_ext; [lia|]. intros i I. destruct (G i i) as (y & G1 & G2); [apply get_zupto; lia|]. congruence.
Qed.
Lemma labels_spec cf ncl ans : rfprob cf = true -> 0 <= ncl -> Forall (fun a => zlen (an_votes a) = ncl /\ exists w, In w (an_votes a) /\ 0 < snd w) ans ->
  exists ls, omap (label cf ncl) ans = Ret ls /\ map snd ls = map (fun a => map snd (an_votes a)) ans /\ Forall2 (fun a l => most_votes l (an_votes a)) ans (map fst ls).
Proof.
  intros Rf N. induction 1 as [|a ans (La & w & Iw & Pw) F IH]; cbn [omap]; [exists []; split; [reflexivity|split; [reflexivity|constructor]]|]. assert (label cf ncl a = Ret (winner (an_votes a), map snd (an_votes a))) as -> by (unfold label; rewrite Rf, (omap_range (column a) ncl (an_votes a)) by (auto; intros i I; reflexivity); reflexivity). cbn [bind].
  destruct IH as (ls & -> & E & F2). cbn [bind]. eexists. split; [reflexivity|]. cbn [map fst snd]. split; [f_equal; auto|]. constructor; auto. destruct (winner_spec _ w Iw Pw) as (n & A & B). exists n. auto.
Qed.
Lemma values_spec cf ncl ans : rfprob cf = false -> Forall (fun a => in_int (Ztrunc (an_value a))) ans -> exists ls, omap (label cf ncl) ans = Ret ls /\ map fst ls = map (fun a => Ztrunc (an_value a)) ans.
Proof.
  intros Rf. induction 1 as [|a ans I F IH]; cbn [omap]; [exists []; auto|]. assert (label cf ncl a = Ret (Ztrunc (an_value a), [])) as -> by (unfold label; rewrite Rf; replace (in_intb (Ztrunc (an_value a))) with true by (unfold in_int, in_intb in *; lia); reflexivity). cbn [bind]. destruct IH as (ls & -> & E). cbn [bind]. eexists. split; [reflexivity|]. cbn [map fst]. f_equal. auto.
Qed.
Lemma short_fit l : Forall in_short l -> differences_fit l.
Proof. rewrite Forall_forall. intros H a b Ia Ib. specialize (H a Ia) as Ha. specialize (H b Ib). unfold in_short, in_int in *. lia. Qed.
