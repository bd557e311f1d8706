(** Proofs about the cloud mask. *)
From Coq Require Import Reals Lra Lia ZifyBool Sorted Permutation.
From Flocq Require Import Core.
From Verif Require Import Base BaseFacts RoundModel RoundFacts ClpModel ClpSpec.
#[local] Open Scope Z_scope.

Lemma Rlt_t a b : Rlt' a b = true <-> (a < b)%R.
Proof. unfold Rlt'. destruct (Rlt_dec a b); split; intros; auto; discriminate. Qed.
Lemma Rlt_f a b : Rlt' a b = false <-> (b <= a)%R.
Proof. unfold Rlt'. destruct (Rlt_dec a b); split; intros; auto; try discriminate; lra. Qed.

(** ** Sorting *)
Lemma insert_perm v l : Permutation (v :: l) (insert v l).
Proof. induction l as [|w t IH]; cbn [insert]; auto. destruct (Rle_dec v w); auto. rewrite perm_swap. constructor. exact IH. Qed.
Lemma sort_perm l : Permutation l (sort l).
Proof. induction l as [|v l IH]; cbn [sort fold_right]; auto. rewrite IH at 1. apply insert_perm. Qed.
Lemma insert_sorted v l : StronglySorted Rle l -> StronglySorted Rle (insert v l).
Proof.
  induction 1 as [|w t S IH F]; cbn [insert]; [repeat constructor|]. destruct (Rle_dec v w) as [L|L].
  - constructor; [constructor; auto|]. constructor; auto. eapply Forall_impl; [|exact F]. intros; lra.
  - constructor; auto. apply Forall_forall. intros x I. apply (Permutation_in x (Permutation_sym (insert_perm v t))) in I. destruct I as [<-|I]; [lra|]. rewrite Forall_forall in F. auto.
Qed.
Lemma sort_sorted l : StronglySorted Rle (sort l).
Proof. induction l; cbn [sort fold_right]; [constructor|]. apply insert_sorted. exact IHl. Qed.
Lemma sorted_nth s : StronglySorted Rle s -> forall i j, (i <= j < length s)%nat -> (nth i s 0 <= nth j s 0)%R.
Proof.
  induction 1 as [|w t S IH F]; intros i j B; cbn [length] in B; [lia|]. destruct i as [|i], j as [|j]; cbn [nth]; try lra; try lia.
  - rewrite Forall_forall in F. apply F. apply nth_In. lia.
  - apply IH. lia.
Qed.

(** ** Quantiles *)
Definition at_pos (s : list R) (x : R) : R := (nth (Z.to_nat (Zfloor x)) s 0 + (x - IZR (Zfloor x)) * (nth (Z.to_nat (Z.min (Zfloor x + 1) (zlen s - 1))) s 0 - nth (Z.to_nat (Zfloor x)) s 0))%R.
Lemma floor_in x n : (0 <= x <= IZR n)%R -> 0 <= Zfloor x <= n.
Proof. intros (A & B). split; [apply Zfloor_lub; exact A|]. apply le_IZR. pose proof (Zfloor_lb x). lra. Qed.
Lemma frac x : (0 <= x - IZR (Zfloor x) < 1)%R.
Proof. pose proof (Zfloor_lb x). pose proof (Zfloor_ub x). lra. Qed.
Lemma quantile_at s f : s <> [] -> (0 <= f <= 1)%R -> sorted_quantile s f = at_pos s (f * IZR (zlen s - 1)).
Proof.
  intros N F. unfold sorted_quantile. destruct s as [|v t]; [congruence|]. set (s := v :: t) in *. assert (L : 1 <= zlen s) by (unfold s, zlen; cbn [length]; lia).
  set (x := (f * IZR (zlen s - 1))%R). cbv zeta. assert (X : (0 <= x <= IZR (zlen s - 1))%R). { unfold x. assert (0 <= IZR (zlen s - 1))%R by (apply IZR_le; lia). split; nra. }
  pose proof (floor_in x _ X). pose proof (frac x) as FR. unfold at_pos. destruct (Z.eqb_spec (Zfloor x) (zlen s - 1)) as [E|E].
  - assert (x = IZR (Zfloor x)) by (rewrite E in FR |- *; lra). rewrite <- H0. lra.
  - rewrite Z.min_l by lia. lra.
Qed.
Lemma at_bounds s x : StronglySorted Rle s -> s <> [] -> (0 <= x <= IZR (zlen s - 1))%R ->
  (nth (Z.to_nat (Zfloor x)) s 0 <= at_pos s x <= nth (Z.to_nat (Z.min (Zfloor x + 1) (zlen s - 1))) s 0)%R.
Proof.
  intros S N X. pose proof (floor_in x _ X) as F. pose proof (frac x). unfold at_pos. unfold zlen in *.
  assert (nth (Z.to_nat (Zfloor x)) s 0 <= nth (Z.to_nat (Z.min (Zfloor x + 1) (Z.of_nat (length s) - 1))) s 0)%R by (apply sorted_nth; auto; destruct s; [congruence|cbn [length] in *; lia]). nra.
Qed.
Lemma at_mono s x y : StronglySorted Rle s -> s <> [] -> (0 <= x -> x <= y -> y <= IZR (zlen s - 1) -> at_pos s x <= at_pos s y)%R.
Proof.
  intros S N X XY Y. pose proof (at_bounds s x S N ltac:(lra)) as BX. pose proof (at_bounds s y S N ltac:(lra)) as BY. pose proof (floor_in x (zlen s - 1) ltac:(lra)) as FX. pose proof (floor_in y (zlen s - 1) ltac:(lra)) as FY.
  assert (L : Zfloor x <= Zfloor y) by (apply Zfloor_le; exact XY). destruct (Z.eq_dec (Zfloor x) (Zfloor y)) as [E|E].
  - unfold at_pos. rewrite <- E. assert (nth (Z.to_nat (Zfloor x)) s 0 <= nth (Z.to_nat (Z.min (Zfloor x + 1) (zlen s - 1))) s 0)%R by lra. nra.
  - assert (nth (Z.to_nat (Z.min (Zfloor x + 1) (zlen s - 1))) s 0 <= nth (Z.to_nat (Zfloor y)) s 0)%R by (apply sorted_nth; auto; unfold zlen in *; lia). lra.
Qed.
Lemma at_range s x (P : R -> Prop) : (forall a b c, P a -> P b -> a <= c <= b -> P c)%R -> StronglySorted Rle s -> s <> [] -> (0 <= x <= IZR (zlen s - 1))%R -> Forall P s -> P (at_pos s x).
Proof.
  intros C S N X F. pose proof (at_bounds s x S N X) as B. pose proof (floor_in x _ X). rewrite Forall_forall in F. eapply C; [| |exact B]; apply F; apply nth_In; unfold zlen in *; lia.
Qed.
Lemma sort_nil l : sort l = [] <-> l = [].
Proof. split; [|intros ->; reflexivity]. intros E. pose proof (sort_perm l) as P. rewrite E in P. apply Permutation_sym, Permutation_nil in P. exact P. Qed.
Lemma sort_zlen l : zlen (sort l) = zlen l.
Proof. unfold zlen. rewrite (Permutation_length (sort_perm l)). reflexivity. Qed.
Lemma position l f : l <> [] -> (0 <= f <= 1)%R -> (0 <= f * IZR (zlen (sort l) - 1) <= IZR (zlen (sort l) - 1))%R.
Proof. intros N F. rewrite sort_zlen. assert (0 <= IZR (zlen l - 1))%R by (apply IZR_le; unfold zlen; destruct l; [congruence|cbn [length]; lia]). split; nra. Qed.
Lemma quantile_mono l f g : (0 <= f -> f <= g -> g <= 1 -> quantile l f <= quantile l g)%R.
Proof.
  intros F FG G. unfold quantile. apply rnd32_le. destruct l as [|v t]; [apply Rle_refl|]. set (l := v :: t). assert (N : sort l <> []) by (rewrite sort_nil; discriminate).
  rewrite !quantile_at by (auto; lra). pose proof (position l f ltac:(discriminate) ltac:(lra)). pose proof (position l g ltac:(discriminate) ltac:(lra)). apply at_mono; auto using sort_sorted; try lra.
  apply Rmult_le_compat_r; [|exact FG]. assert (0 <= zlen (sort l) - 1). { rewrite sort_zlen. unfold l, zlen. cbn [length]. lia. } apply IZR_le in H1. exact H1.
Qed.
Lemma quantile_range l f (P : R -> Prop) : (forall a b c, P a -> P b -> a <= c <= b -> P c)%R -> l <> [] -> (0 <= f <= 1)%R -> Forall P l -> P (sorted_quantile (sort l) f).
Proof.
  intros C N F H. assert (M : sort l <> []) by (rewrite sort_nil; exact N). rewrite quantile_at by auto. apply at_range; auto using sort_sorted. { apply position; auto. }
  apply Forall_forall. intros x I. rewrite Forall_forall in H. apply H. apply (Permutation_in x (Permutation_sym (sort_perm l))). exact I.
Qed.
Lemma quantile_nonneg l f : (0 <= f <= 1)%R -> Forall (fun v => 0 <= v)%R l -> (0 <= quantile l f)%R.
Proof.
  intros F H. unfold quantile. rewrite <- rnd32_0. apply rnd32_le. destruct l as [|v t]; [cbn; lra|]. apply (quantile_range (v :: t) f (fun v => 0 <= v)%R); auto; [intros; lra|discriminate].
Qed.
Lemma quantile_is l f : l <> [] -> (0 <= f <= 1)%R -> is_quantile l f (sorted_quantile (sort l) f).
Proof.
  intros N F. assert (M : sort l <> []) by (rewrite sort_nil; exact N). rewrite quantile_at by auto. pose proof (position l f N F) as P. set (x := (f * IZR (zlen (sort l) - 1))%R) in *. pose proof (floor_in x _ P) as B. pose proof (frac x) as FR.
  destruct (get_at_some (sort l) (Zfloor x)) as (a & A); [lia|]. destruct (get_at_some (sort l) (Z.min (Zfloor x + 1) (zlen (sort l) - 1))) as (b & Bb); [lia|].
  assert (G : forall k v, get_at (sort l) k = Some v -> nth (Z.to_nat k) (sort l) 0%R = v). { intros k v E. unfold get_at in E. destruct (k <? 0); [discriminate|]. apply nth_error_nth. exact E. }
  exists (sort l), (Zfloor x), a, b. split; [apply sort_perm|]. split; [apply sort_sorted|]. rewrite <- (sort_zlen l). fold x. split; [rewrite plus_IZR; lra|]. split; [exact A|]. split; [exact Bb|].
  unfold at_pos. rewrite (G _ _ A), (G _ _ Bb). reflexivity.
Qed.

(** ** Thresholds *)
Lemma lo_hi : (0 <= lo /\ lo <= hi /\ hi <= 1)%R.
Proof.
  unfold lo, hi. split; [|split].
  - rewrite <- rnd32_0. apply rnd32_le. lra.
  - apply rnd32_le. lra.
  - rewrite <- (rnd32_int 1) by lia. apply rnd32_le. lra.
Qed.
Lemma low_high npix img : (lowtemp npix img <= hightemp npix img)%R.
Proof. pose proof lo_hi. apply quantile_mono; lra. Qed.
Lemma rnd64_le' n x : (Z.abs n < 2 ^ 53)%Z -> (IZR n <= x)%R -> (IZR n <= rnd64 x)%R.
Proof. intros A B. rewrite <- (rnd64_int n A). apply rnd64_le. exact B. Qed.
Lemma quantile_temps f (img : list px) (sel : px -> bool) : (0 <= f <= 1)%R -> (forall p, In p img -> in_short (x_temp p)) -> (-32768 <= quantile (temps sel img) f <= 32767)%R.
Proof.
  intros F H. unfold quantile. apply (rnd32_between (-32768) 32767); [lia|lia|]. destruct (temps sel img) as [|v t] eqn:E. { cbn. lra. }
  apply (quantile_range (v :: t) f (fun v => -32768 <= v <= 32767)%R); auto; [intros; lra|discriminate|]. rewrite <- E. unfold temps. apply Forall_forall. intros x I. apply in_map_iff in I as (p & <- & I). apply filter_In in I as (I & _).
  specialize (H p I). unfold in_short in H. split; apply IZR_le; lia.
Qed.
Lemma base_range npix img f : (0 <= f <= 1)%R -> (forall p, In p img -> in_short (x_temp p)) -> (-32768 <= quantile (base npix img) f <= 32767)%R.
Proof. intros F H. unfold base. destruct (_ >=? _); apply quantile_temps; auto. Qed.
(** The denominator. *)
Lemma rnd64_abs x M : 1 <= M <= 1000000 -> (Rabs x <= IZR M)%R -> (Rabs (rnd64 x - x) <= 1 / 1000000)%R.
Proof. intros L B. pose proof (rnd64_err x (IZR M) ltac:(apply IZR_le; lia) B). assert (IZR M <= 1000000)%R by (apply IZR_le; lia). lra. Qed.
Lemma b_pos l h : (-32768 <= l)%R -> (l <= h)%R -> (h <= 32767)%R -> (1 <= b_of l h)%R.
Proof.
  intros L LH H. unfold b_of. assert (E1 : (Rabs (rnd64 (h + 400) - (h + 400)) <= 1 / 1000000)%R) by (apply (rnd64_abs _ 40000); [lia|apply Rabs_le; lra]). apply Rabs_le_inv in E1. set (u := rnd64 (h + 400)) in *. clearbody u.
  assert (E2 : (Rabs (rnd64 (u - l) - (u - l)) <= 1 / 1000000)%R) by (apply (rnd64_abs _ 100000); [lia|apply Rabs_le; lra]). apply Rabs_le_inv in E2. set (v := rnd64 (u - l)) in *. clearbody v.
  rewrite <- (rnd32_int 1) by lia. apply rnd32_le. apply (rnd64_le' 1); [lia|]. lra.
Qed.
Lemma landprob_nonneg npix img p : (forall q, In q img -> in_short (x_temp q)) -> 0 <= x_var p -> (0 <= landprob (lowtemp npix img) (hightemp npix img) p)%R.
Proof.
  intros H V. unfold landprob. destruct (x_off p); [lra|]. cbv zeta. set (t := if Rlt' _ 0 then 0%R else _). assert (T : (0 <= t)%R). { unfold t. destruct (Rlt' _ 0) eqn:E; [lra|]. apply Rlt_f in E. exact E. }
  clearbody t. rewrite <- rnd32_0. apply rnd32_le. apply (rnd64_le' 0); [lia|]. apply Rmult_le_pos; auto. apply (rnd64_le' 0); [lia|]. apply IZR_le in V. lra.
Qed.
(** Colder and more cloud-like pixels have the higher probability. *)
Lemma fdiv_mono x y b : (0 < b)%R -> (x <= y)%R -> (fdiv x b <= fdiv y b)%R.
Proof. intros B H. apply rnd32_le. apply Rmult_le_compat_r; [left; apply Rinv_0_lt_compat; exact B|exact H]. Qed.
Lemma landprob_mono npix img p q : (forall r, In r img -> in_short (x_temp r)) -> x_off p = false -> x_off q = false -> x_temp q <= x_temp p -> 0 <= x_var p <= x_var q ->
  (landprob (lowtemp npix img) (hightemp npix img) p <= landprob (lowtemp npix img) (hightemp npix img) q)%R.
Proof.
  intros H OP OQ T (V0 & V). unfold landprob. rewrite OP, OQ. pose proof lo_hi as LH. pose proof (base_range npix img lo ltac:(lra) H) as BL. pose proof (base_range npix img hi ltac:(lra) H) as BH. pose proof (low_high npix img) as O.
  fold (lowtemp npix img) in BL. fold (hightemp npix img) in BH. pose proof (b_pos _ _ (proj1 BL) O (proj2 BH)) as B. set (b := b_of _ _) in *. clearbody b. set (a := a_of _). clearbody a. cbv zeta.
  assert (M : (fdiv (fsub a (IZR (x_temp p))) b <= fdiv (fsub a (IZR (x_temp q))) b)%R). { apply fdiv_mono; [lra|]. apply rnd32_le. apply IZR_le in T. lra. }
  set (tp := fdiv (fsub a (IZR (x_temp p))) b) in *. set (tq := fdiv (fsub a (IZR (x_temp q))) b) in *. clearbody tp tq. assert (C : (0 <= (if Rlt' tp 0 then 0 else tp) <= if Rlt' tq 0 then 0 else tq)%R). { unfold Rlt'. destruct (Rlt_dec tp 0), (Rlt_dec tq 0); lra. }
  apply rnd32_le, rnd64_le. apply Rmult_le_compat; try apply C. { apply (rnd64_le' 0); [lia|]. apply IZR_le in V0. lra. } apply rnd64_le. apply IZR_le in V. lra.
Qed.
Lemma rnd32_idem x : rnd32 (rnd32 x) = rnd32 x.
Proof. unfold rnd32. apply round_generic; [apply valid_rnd_N|]. apply generic_format_round; [apply FLT_exp_valid; reflexivity|apply valid_rnd_N]. Qed.

(** ** Probabilities, up to rounding *)
Lemma rnd32_abs x M : 1 <= M <= 100000 -> (Rabs x <= IZR M)%R -> (Rabs (rnd32 x - x) <= IZR M / 10000000)%R.
Proof. intros L B. assert (K : (1 <= IZR M)%R) by (apply IZR_le; lia). pose proof (rnd32_err x (IZR M) K B). lra. Qed.
Lemma var_nonneg p : 0 <= x_var p <= 32767 -> (0 <= IZR (x_var p) <= 32767)%R.
Proof. intros H. split; apply IZR_le; lia. Qed.
Lemma landprob_close l h p : x_off p = false -> stored p -> (-32768 <= l)%R -> (l <= h)%R -> (h <= 32767)%R -> (Rabs (landprob l h p - land_chance l h p) <= 1 / 50)%R.
Proof.
  intros O (T & _ & _ & V) L LH H. unfold landprob, land_chance. rewrite O. cbv zeta. unfold in_short in T. assert (T' : (-32768 <= IZR (x_temp p) <= 32767)%R) by (split; apply IZR_le; lia). apply var_nonneg in V. set (t := IZR (x_temp p)) in *. set (v := IZR (x_var p)) in *. clearbody t v.
  unfold a_of, b_of, fsub, fdiv.
  assert (E1 : (Rabs (rnd64 (h + 400) - (h + 400)) <= 1 / 1000000)%R) by (apply (rnd64_abs _ 40000); [lia|apply Rabs_le; lra]). apply Rabs_le_inv in E1. set (u := rnd64 (h + 400)) in *. clearbody u.
  assert (E2 : (Rabs (rnd64 (u - l) - (u - l)) <= 1 / 1000000)%R) by (apply (rnd64_abs _ 100000); [lia|apply Rabs_le; lra]). apply Rabs_le_inv in E2. set (w := rnd64 (u - l)) in *. clearbody w.
  assert (E3 : (Rabs (rnd64 (w + 400) - (w + 400)) <= 1 / 1000000)%R) by (apply (rnd64_abs _ 100000); [lia|apply Rabs_le; lra]). apply Rabs_le_inv in E3. set (x := rnd64 (w + 400)) in *. clearbody x.
  assert (E4 : (Rabs (rnd32 x - x) <= 70000 / 10000000)%R) by (apply (rnd32_abs _ 70000); [lia|apply Rabs_le; lra]). apply Rabs_le_inv in E4. set (b := rnd32 x) in *. clearbody b.
  assert (E5 : (Rabs (rnd32 u - u) <= 40000 / 10000000)%R) by (apply (rnd32_abs _ 40000); [lia|apply Rabs_le; lra]). apply Rabs_le_inv in E5. set (a := rnd32 u) in *. clearbody a.
  assert (E6 : (Rabs (rnd32 (a - t) - (a - t)) <= 70000 / 10000000)%R) by (apply (rnd32_abs _ 70000); [lia|apply Rabs_le; lra]). apply Rabs_le_inv in E6. set (n := rnd32 (a - t)) in *. clearbody n.
  set (N := (h + 400 - t)%R). set (B := (h + 400 - (l - 400))%R). assert (DN : (-12 / 1000 <= n - N <= 12 / 1000)%R) by (unfold N; lra). assert (DB : (-8 / 1000 <= b - B <= 8 / 1000)%R) by (unfold B; lra).
  assert (BB : (800 <= B)%R) by (unfold B; lra). assert (NB : (-70000 <= N <= 70000)%R) by (unfold N; lra). assert (bp : (799 <= b)%R) by lra. clearbody N B. clear - DN DB BB NB bp V.
  assert (Q : (Rabs (N / B) <= 88)%R). { apply Rabs_le. split; [apply Rle_trans with (-70000 / B)%R|apply Rle_trans with (70000 / B)%R]; try (apply Rmult_le_compat_r; [left; apply Rinv_0_lt_compat|]; lra).
    - assert (K : (/ B <= / 800)%R) by (apply Rinv_le; lra). unfold Rdiv. lra.
    - assert (K : (/ B <= / 800)%R) by (apply Rinv_le; lra). unfold Rdiv. lra. }
  apply Rabs_le_inv in Q. assert (D : (Rabs (n / b - N / B) <= 1 / 1000)%R).
  { set (q := (N / B)%R) in *. assert (EN : N = (q * B)%R) by (unfold q; field; lra). clearbody q. replace (n / b - q)%R with ((n - N + q * (B - b)) / b)%R by (rewrite EN; field; lra). apply Rabs_le. assert (K : (0 < / b)%R) by (apply Rinv_0_lt_compat; lra). assert (K2 : (/ b <= / 799)%R) by (apply Rinv_le; lra).
    assert (M : (-72 / 100 <= n - N + q * (B - b) <= 72 / 100)%R) by nra. unfold Rdiv. nra. }
  apply Rabs_le_inv in D. set (q := (N / B)%R) in *. clearbody q. set (q' := (n / b)%R) in *. clearbody q'.
  assert (E7 : (Rabs (rnd32 q' - q') <= 90 / 10000000)%R) by (apply (rnd32_abs _ 90); [lia|apply Rabs_le; lra]). apply Rabs_le_inv in E7. set (r := rnd32 q') in *. clearbody r.
  set (m := if Rlt' r 0 then 0%R else r). assert (M : (0 <= Rmax 0 q <= 88)%R /\ (-11 / 10000 <= m - Rmax 0 q <= 11 / 10000)%R). { unfold m, Rlt'. unfold Rmax. destruct (Rlt_dec r 0), (Rle_dec 0 q); lra. } clearbody m. set (mq := Rmax 0 q) in *. clearbody mq.
  assert (E8 : (Rabs (rnd64 (v / 10000) - v / 10000) <= 1 / 1000000)%R) by (apply (rnd64_abs _ 10); [lia|apply Rabs_le; lra]). apply Rabs_le_inv in E8. set (c := rnd64 (v / 10000)) in *. clearbody c. set (C := (v / 10000)%R) in *. assert (CB : (0 <= C <= 33 / 10)%R) by (unfold C; lra). clearbody C.
  assert (P : (-4 / 1000 <= m * c - mq * C <= 4 / 1000)%R). { replace (m * c - mq * C)%R with ((m - mq) * c + mq * (c - C))%R by ring. assert (-37 / 10000 <= (m - mq) * c <= 37 / 10000)%R by nra. assert (-1 / 10000 <= mq * (c - C) <= 1 / 10000)%R by nra. lra. }
  assert (PB : (0 <= mq * C <= 291)%R) by nra. set (pp := (m * c)%R) in *. clearbody pp. set (z := (mq * C)%R) in *. clearbody z.
  assert (E9 : (Rabs (rnd64 pp - pp) <= 1 / 1000000)%R) by (apply (rnd64_abs _ 300); [lia|apply Rabs_le; lra]). apply Rabs_le_inv in E9. set (y := rnd64 pp) in *. clearbody y.
  assert (E10 : (Rabs (rnd32 y - y) <= 300 / 10000000)%R) by (apply (rnd32_abs _ 300); [lia|apply Rabs_le; lra]). apply Rabs_le_inv in E10. apply Rabs_le. lra.
Qed.
Lemma waterprob_close img p : x_off p = false -> stored p -> (exists q, In q img /\ clear_water q = true) -> (forall q, In q img -> in_short (x_temp q)) -> (-1 <= x_sw1 p) ->
  (Rabs (waterprob img p - water_chance (wtrtemp img) p) <= 1 / 50)%R.
Proof.
  intros O (T & S & _ & _) (q & I & C) H N. unfold waterprob, water_chance. assert (Z : count clear_water img > 0). { unfold count, zlen. assert (J : In q (filter clear_water img)) by (apply filter_In; auto). destruct (filter clear_water img); [contradiction|cbn [length]; lia]. }
  rewrite (proj2 (Z.gtb_lt _ _)) by lia. rewrite O. cbv zeta. pose proof lo_hi as LH. pose proof (quantile_temps hi img clear_water ltac:(lra) H) as W. fold (wtrtemp img) in W. set (w := wtrtemp img) in *. clearbody w.
  unfold in_short in *. assert (T' : (-32768 <= IZR (x_temp p) <= 32767)%R) by (split; apply IZR_le; lia). assert (S' : (-1 <= IZR (x_sw1 p) <= 32767)%R) by (split; apply IZR_le; lia). set (t := IZR (x_temp p)) in *. set (s := IZR (x_sw1 p)) in *. clearbody t s. clear - W T' S'. unfold fsub, fmul.
  assert (E1 : (Rabs (rnd32 (w - t) - (w - t)) <= 70000 / 10000000)%R) by (apply (rnd32_abs _ 70000); [lia|apply Rabs_le; lra]). apply Rabs_le_inv in E1. set (d := rnd32 (w - t)) in *. clearbody d.
  assert (E2 : (Rabs (rnd64 (d / 400) - d / 400) <= 1 / 1000000)%R) by (apply (rnd64_abs _ 200); [lia|apply Rabs_le; lra]). apply Rabs_le_inv in E2. set (e := rnd64 (d / 400)) in *. clearbody e.
  assert (E3 : (Rabs (rnd32 e - e) <= 200 / 10000000)%R) by (apply (rnd32_abs _ 200); [lia|apply Rabs_le; lra]). apply Rabs_le_inv in E3. set (f := rnd32 e) in *. clearbody f.
  assert (E4 : (Rabs (rnd64 (s / 1100) - s / 1100) <= 1 / 1000000)%R) by (apply (rnd64_abs _ 40); [lia|apply Rabs_le; lra]). apply Rabs_le_inv in E4. set (g := rnd64 (s / 1100)) in *. clearbody g.
  assert (E5 : (Rabs (rnd32 g - g) <= 40 / 10000000)%R) by (apply (rnd32_abs _ 40); [lia|apply Rabs_le; lra]). apply Rabs_le_inv in E5. set (k := rnd32 g) in *. clearbody k.
  set (b := if Rlt' 1 k then 1%R else k). set (B := Rmin 1 (s / 1100)). assert (K : (-1 / 1000 <= B <= 1)%R /\ (-1 / 100000 <= b - B <= 1 / 100000)%R). { unfold b, B, Rlt', Rmin. destruct (Rlt_dec 1 k), (Rle_dec 1 (s / 1100)); lra. } clearbody b B.
  set (F := ((w - t) / 400)%R). assert (FB : (-164 <= F <= 164)%R /\ (-1 / 10000 <= f - F <= 1 / 10000)%R) by (unfold F; lra). clearbody F. clear - K FB.
  assert (P : (-1 / 100 <= f * b - F * B <= 1 / 100)%R). { replace (f * b - F * B)%R with ((f - F) * b + F * (b - B))%R by ring. assert (-2 / 10000 <= (f - F) * b <= 2 / 10000)%R by nra. assert (-17 / 10000 <= F * (b - B) <= 17 / 10000)%R by nra. lra. }
  assert (PB : (-164 <= F * B <= 164)%R) by nra. set (pp := (f * b)%R) in *. clearbody pp. set (z := (F * B)%R) in *. clearbody z.
  assert (E9 : (Rabs (rnd32 pp - pp) <= 200 / 10000000)%R) by (apply (rnd32_abs _ 200); [lia|apply Rabs_le; lra]). apply Rabs_le_inv in E9. apply Rabs_le. lra.
Qed.
