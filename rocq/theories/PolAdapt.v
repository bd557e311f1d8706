(** The fine-tuned seasons keep the order of the series. *)
From Coq Require Import Reals Lra.
From Flocq Require Import Core IEEE754.BinarySingleNaN.
From Verif Require Import Base BaseFacts Loops LoopsFacts Float FloatFacts FloatInt RoundModel RoundFacts InterpModel ChunkProofs PolModel PolSpec PolFloat PolSeasons PolVector PolEvents PolLoop.
#[local] Open Scope Z_scope.

Definition at_ (l : list Z) (j : Z) : Z := nth (Z.to_nat j) l 0.

Lemma list_set_length (l : list Z) : forall n v, length (list_set l n v) = length l.
Proof. induction l as [|a l IH]; intros [|n] v; cbn; auto. Qed.
Lemma list_set_nth (l : list Z) : forall n v m, (n < length l)%nat -> nth m (list_set l n v) 0 = if Nat.eqb n m then v else nth m l 0.
Proof.
  induction l as [|a l IH]; intros [|n] v [|m] H; cbn in *; try lia; auto. apply IH. lia.
Qed.
Lemma at_set (l : list Z) i v j : 0 <= i < zlen l -> 0 <= j -> at_ (list_set l (Z.to_nat i) v) j = if i =? j then v else at_ l j.
Proof.
  unfold zlen, at_. intros H J. rewrite list_set_nth by lia.
  destruct (Nat.eqb_spec (Z.to_nat i) (Z.to_nat j)); destruct (Z.eqb_spec i j); auto; lia.
Qed.
Lemma zlen_set (l : list Z) i v : zlen (list_set l i v) = zlen l.
Proof. unfold zlen. now rewrite list_set_length. Qed.

Lemma fold_set (c : Z -> bool) (f : Z -> Z) v xs : forall d,
  (forall x, In x xs -> c x = false -> 0 <= f x < zlen d) ->
  let d' := fold_left (fun d x => if c x then d else list_set d (Z.to_nat (f x)) v) xs d in
  zlen d' = zlen d /\ forall j, 0 <= j -> at_ d' j = if existsb (fun x => negb (c x) && (f x =? j)) xs then v else at_ d j.
Proof.
  induction xs as [|x xs IH]; intros d H; cbn [fold_left existsb]; [auto|].
  assert (zlen (if c x then d else list_set d (Z.to_nat (f x)) v) = zlen d) as Z1.
  { destruct (c x); auto. apply zlen_set. }
  destruct (IH (if c x then d else list_set d (Z.to_nat (f x)) v)) as [I1 I2].
  { intros y Y C. rewrite Z1. apply H; [right|]; auto. }
  cbv zeta. split; [congruence|]. intros j J. rewrite I2 by auto.
  destruct (existsb _ xs); [now rewrite orb_true_r|]. rewrite orb_false_r.
  destruct (c x) eqn:C; cbn [negb andb]; auto. apply at_set; auto. apply H; [left|]; auto.
Qed.

Lemma mark_spec sh k ni i d : zlen d = ni -> 0 <= i < ni -> 
  zlen (mark sh k ni i d) = ni /\
  forall j, 0 <= j < ni -> at_ (mark sh k ni i d) j =
    if 0 <? sh then (if (i <=? j) && (j <? i + k) then -1 else at_ d j)
    else (if (i - k <=? j) && (j <? i) then 1 else at_ d j).
Proof.
  intros Hd Hi. unfold mark. destruct (0 <? sh).
  - destruct (fold_set (fun ii => ni <=? i + ii) (fun ii => i + ii) (-1) (zupto k) d) as [Z1 Z2].
    { intros x X C. apply zupto_In in X. lia. }
    split; [congruence|]. intros j J. rewrite Z2 by lia.
    replace (existsb (fun x => negb (ni <=? i + x) && (i + x =? j)) (zupto k)) with ((i <=? j) && (j <? i + k)); auto.
    apply eq_true_iff_eq. rewrite existsb_exists. split.
    + intros E. exists (j - i). split; [apply zupto_In; lia|lia].
    + intros (x & X & E). apply zupto_In in X. lia.
  - destruct (fold_set (fun ii => i - ii - 1 <? 0) (fun ii => i - ii - 1) 1 (zupto k) d) as [Z1 Z2].
    { intros x X C. apply zupto_In in X. lia. }
    split; [congruence|]. intros j J. rewrite Z2 by lia.
    replace (existsb (fun x => negb (i - x - 1 <? 0) && (i - x - 1 =? j)) (zupto k)) with ((i - k <=? j) && (j <? i)); auto.
    apply eq_true_iff_eq. rewrite existsb_exists. split.
    + intros E. exists (i - j - 1). split; [apply zupto_In; lia|lia].
    + intros (x & X & E). apply zupto_In in X. lia.
Qed.

(** The number of steps of a shift. *)
Lemma shift_steps_ok sh step : Z.abs sh <= 183 -> 1 <= step <= 100000 -> exists k, shift_steps sh step = Ret k /\ 0 <= k /\ k * step <= 183.
Proof.
  intros H S. unfold shift_steps.
  assert (chk_int (Z.abs sh) = Ret (Z.abs sh)) as -> by (unfold chk_int, in_intb; replace ((-2147483648 <=? Z.abs sh) && (Z.abs sh <=? 2147483647)) with true by lia; reflexivity).
  cbn [bind]. destruct (isZ32 (Z.abs sh) ltac:(lia)) as [F1 E1]. destruct (isZ32 step ltac:(lia)) as [F2 E2].
  assert (0 < IZR step)%R as P by (apply (IZR_lt 0); lia).
  assert (0 <= IZR (Z.abs sh) / IZR step)%R as Q0.
  { unfold Rdiv. apply Rmult_le_pos; [apply (IZR_le 0); lia|apply Rlt_le, Rinv_0_lt_compat; auto]. }
  assert (IZR (Z.abs sh) / IZR step <= 183)%R as Q1.
  { apply Rmult_le_reg_r with (IZR step); auto. unfold Rdiv. rewrite Rmult_assoc, Rinv_l by lra.
    rewrite Rmult_1_r, <- mult_IZR. apply IZR_le. nia. }
  assert (Rabs (B2R (f32_of_Z (Z.abs sh)) / B2R (f32_of_Z step)) <= 183)%R as A by (rewrite E1, E2; apply Rabs_le; lra).
  destruct (big32 _ _ A ltac:(lra)) as [U E]. rewrite E1, E2 in E. apply Rabs_le_inv in E.
  destruct (div32_R (f32_of_Z (Z.abs sh)) (f32_of_Z step) F1) as [D1 D2]; [rewrite E2; lra|exact U|].
  destruct (widen_R _ D1) as [W1 W2]. unfold fdiv in D2. rewrite E1, E2 in D2.
  unfold int_of_floor. rewrite floor_of_spec by auto. cbn [of_option bind]. rewrite W2, D2.
  set (q := rnd32 (IZR (Z.abs sh) / IZR step)) in *.
  assert (0 <= q)%R as Q2 by (apply (proj1 (round_pos _ Q0))).
  assert (0 <= Zfloor q) as K0 by (apply Zfloor_lub; exact Q2).
  pose proof (Zfloor_lb q) as K1.
  assert (IZR (Zfloor q) <= 184)%R as K2 by lra. apply (le_IZR _ 184) in K2.
  unfold chk_int, in_intb. replace ((-2147483648 <=? Zfloor q) && (Zfloor q <=? 2147483647)) with true by lia.
  exists (Zfloor q). split; auto. split; auto.
  enough (Zfloor q * step < 185) as E3.
  2:{ apply lt_IZR. rewrite mult_IZR.
      assert (IZR (Zfloor q) * IZR step <= (IZR (Z.abs sh) / IZR step + 183 / 16000000) * IZR step)%R as B1.
      { apply Rmult_le_compat_r; lra. }
      replace ((IZR (Z.abs sh) / IZR step + 183 / 16000000) * IZR step)%R with (IZR (Z.abs sh) + 183 / 16000000 * IZR step)%R in B1 by (field; lra).
      assert (IZR step <= 100000)%R by (apply IZR_le; lia). assert (IZR (Z.abs sh) <= 183)%R by (apply IZR_le; lia). lra. }
  destruct (Z.eq_dec (Zfloor q * step) 184) as [E4|E4]; [|lia]. exfalso.
  assert (IZR (Zfloor q) * IZR step = 184)%R as E5 by (rewrite <- mult_IZR, E4; reflexivity).
  assert (IZR (Zfloor q) * IZR step <= (IZR (Z.abs sh) / IZR step + 183 / 16000000) * IZR step)%R as B1 by (apply Rmult_le_compat_r; lra).
  replace ((IZR (Z.abs sh) / IZR step + 183 / 16000000) * IZR step)%R with (IZR (Z.abs sh) + 183 / 16000000 * IZR step)%R in B1 by (field; lra).
  assert (step <= 184) as S2 by (assert (1 <= Zfloor q) by nia; nia). apply IZR_le in S2.
  assert (IZR (Z.abs sh) <= 183)%R by (apply IZR_le; lia). lra.
Qed.

(** Seasons are long enough: entries two seasons apart are more than [k] steps apart. *)
Definition spaced (step : Z) (a : list Z) : Prop :=
  forall i j, 0 <= i -> i < j < zlen a -> at_ a i + 2 <= at_ a j -> 365 <= step * (j - i).
Definition ordered (n : Z) (f : Z -> Z) : Prop := forall i j, 0 <= i -> i <= j < n -> f i <= f j.

Definition starts_ok (tdoy : Z) (t0 : list vec) : Prop :=
  forall s v, get_at t0 s = Some v -> -183 <= v_ce v - day_number s tdoy <= 183.

Lemma shifts_ok tdoy step ns t0 whole : 0 <= tdoy <= 365 -> 1 <= step <= 100000 -> ns <= 1000 -> starts_ok tdoy t0 ->
  spaced step (map p_season whole) -> ordered (zlen whole) (at_ (map p_season whole)) ->
  forall l pre s diff diff', whole = pre ++ l -> pre <> [] -> s = p_season (last pre polar0) -> -1 <= s ->
  zlen diff = zlen whole ->
  (forall j, zlen pre <= j < zlen whole -> s < at_ (map p_season whole) j -> at_ diff j = 0) ->
  (forall j, 0 <= j < zlen whole -> at_ (map p_season whole) j <= s -> at_ (map p_season whole) j + at_ diff j <= s) ->
  ordered (zlen whole) (fun j => at_ (map p_season whole) j + at_ diff j) ->
  shifts tdoy step ns (zlen whole) t0 s (zlen pre) l diff = Ret diff' ->
  zlen diff' = zlen whole /\ ordered (zlen whole) (fun j => at_ (map p_season whole) j + at_ diff' j).
Proof.
  intros T S N St Sp Or. set (a := map p_season whole) in *. set (n := zlen whole) in *.
  assert (zlen a = n) as La by apply zlen_map.
  induction l as [|p l IH]; intros pre s diff diff' W Ne Hs Hs0 Ld H2 H4 H3 R; cbn [shifts] in R.
  { injection R as <-. auto. }
  assert (whole = (pre ++ [p]) ++ l) as W' by (rewrite <- app_assoc; exact W).
  assert (zlen (pre ++ [p]) = zlen pre + 1) as Lp by (unfold zlen; rewrite app_length; cbn; lia).
  assert (0 < zlen pre) as Pp by (unfold zlen; destruct pre; cbn; [congruence|lia]).
  assert (zlen pre < n) as Pn by (unfold n; rewrite W; unfold zlen; rewrite app_length; cbn; lia).
  assert (at_ a (zlen pre) = p_season p) as Ap.
  { unfold at_, a, zlen. rewrite Nat2Z.id, W, map_app, app_nth2, map_length by (rewrite map_length; lia). rewrite Nat.sub_diag. reflexivity. }
  assert (at_ a (zlen pre - 1) = s) as As.
  { destruct (exists_last Ne) as (q & z & ->). rewrite last_last in Hs. unfold at_, a, zlen. rewrite app_length. cbn [length].
    replace (Z.to_nat (Z.of_nat (length q + 1) - 1)) with (length q) by lia.
    rewrite W, <- app_assoc, map_app, app_nth2, map_length by (rewrite map_length; lia). rewrite Nat.sub_diag. cbn. auto. }
  assert (s <= p_season p) as Sm by (rewrite <- Ap, <- As; apply Or; lia).
  assert (last (pre ++ [p]) polar0 = p) as Lst by apply last_last.
  assert (pre ++ [p] <> []) as Ne' by (destruct pre; discriminate).
  destruct (p_season p =? s) eqn:Es.
  - refine (IH (pre ++ [p]) s diff diff' W' Ne' _ Hs0 Ld _ H4 H3 _).
    + rewrite Lst. lia.
    + intros j J. apply H2. lia.
    + rewrite Lp. exact R.
  - destruct (ns <=? p_season p) eqn:En; [injection R as <-; auto|].
    rewrite doy2ce_ok in R by lia. cbn [bind] in R.
    destruct (get_at t0 (p_season p)) as [v|] eqn:Ev; [|discriminate]. cbn [of_option bind] in R. specialize (St _ _ Ev).
    set (sh := v_ce v - day_number (p_season p) tdoy) in *.
    assert (chk_int sh = Ret sh) as Ec by (unfold chk_int, in_intb; replace ((-2147483648 <=? sh) && (sh <=? 2147483647)) with true by lia; reflexivity).
    rewrite Ec in R. cbn [bind] in R.
    destruct (shift_steps_ok sh step ltac:(lia) S) as (k & Ek & K0 & K1). rewrite Ek in R. cbn [bind] in R.
    destruct (mark_spec sh k n (zlen pre) diff Ld ltac:(lia)) as [M1 M2].
    assert (forall i j, 0 <= i -> i < j < n -> at_ a i + 2 <= at_ a j -> k < j - i) as Far.
    { intros i j I J D. specialize (Sp i j I ltac:(lia) D). clear -Sp K1 K0 S. nia. }
    (* what the entries around the boundary are *)
    assert (forall j, zlen pre <= j < n -> p_season p <= at_ a j) as Up by (intros j J; rewrite <- Ap; apply Or; lia).
    assert (forall j, 0 <= j < zlen pre -> at_ a j <= s) as Dn by (intros j J; rewrite <- As; apply Or; lia).
    assert (1 <= k -> p_season p = s + 1) as One.
    { intros Q. destruct (Z_le_gt_dec (s + 2) (p_season p)) as [G|G]; [|lia].
      specialize (Far (zlen pre - 1) (zlen pre) ltac:(lia) ltac:(lia) ltac:(lia)). lia. }
    assert (forall j, zlen pre <= j < n -> j < zlen pre + k -> at_ a j = s + 1) as Fw.
    { intros j J Q. specialize (One ltac:(lia)). specialize (Up j J). destruct (Z_le_gt_dec (s + 2) (at_ a j)) as [G|G]; [|lia].
      specialize (Far (zlen pre - 1) j ltac:(lia) ltac:(lia) ltac:(lia)). lia. }
    assert (forall j, 0 <= j < zlen pre -> zlen pre - k <= j -> at_ a j = s) as Bw.
    { intros j J Q. specialize (One ltac:(lia)). specialize (Dn j J). destruct (Z_le_gt_dec (at_ a j + 2) (p_season p)) as [G|G]; [|lia].
      specialize (Far j (zlen pre) ltac:(lia) ltac:(lia) ltac:(lia)). lia. }
    refine (IH (pre ++ [p]) (p_season p) (mark sh k n (zlen pre) diff) diff' W' Ne' _ _ M1 _ _ _ _).
    + now rewrite Lst.
    + lia.
    + intros j J Q. rewrite M2 by lia. destruct (0 <? sh).
      * destruct ((zlen pre <=? j) && (j <? zlen pre + k)) eqn:E; [|apply H2; lia].
        exfalso. pose proof (Fw j ltac:(lia) ltac:(lia)). pose proof (One ltac:(lia)). lia.
      * destruct ((zlen pre - k <=? j) && (j <? zlen pre)) eqn:E; [lia|]. apply H2; lia.
    + intros j J Q. rewrite M2 by lia. destruct (0 <? sh).
      * destruct ((zlen pre <=? j) && (j <? zlen pre + k)) eqn:E; [lia|].
        destruct (Z_le_gt_dec (at_ a j) s) as [G|G]; [specialize (H4 j J G); lia|].
        rewrite H2; [lia| |lia]. split; [|lia]. destruct (Z_le_gt_dec (zlen pre) j); auto. specialize (Dn j ltac:(lia)). lia.
      * destruct ((zlen pre - k <=? j) && (j <? zlen pre)) eqn:E.
        { pose proof (Bw j ltac:(lia) ltac:(lia)). lia. }
        destruct (Z_le_gt_dec (at_ a j) s) as [G|G]; [specialize (H4 j J G); lia|].
        rewrite H2; [lia| |lia]. split; [|lia]. destruct (Z_le_gt_dec (zlen pre) j); auto. specialize (Dn j ltac:(lia)). lia.
    + (* the new seasons are in order *)
      assert (forall j, zlen pre <= j < n -> at_ diff j = 0) as D0 by (intros j J; specialize (Up j J); apply H2; lia).
      assert (forall j, 0 <= j < zlen pre -> at_ a j + at_ diff j <= s) as D1 by (intros j J; apply H4; [lia|apply Dn; auto]).
      intros i j I J. specialize (H3 i j I J). cbn beta in H3. rewrite !M2 by lia. destruct (0 <? sh).
      * destruct ((zlen pre <=? i) && (i <? zlen pre + k)) eqn:Ei, ((zlen pre <=? j) && (j <? zlen pre + k)) eqn:Ej; auto.
        -- rewrite (Fw i), (Fw j) by lia. lia.
        -- rewrite (Fw i) by lia. rewrite (D0 j) by lia. specialize (Up j ltac:(lia)). lia.
        -- rewrite (Fw j) by lia. specialize (D1 i ltac:(lia)). lia.
      * destruct ((zlen pre - k <=? i) && (i <? zlen pre)) eqn:Ei, ((zlen pre - k <=? j) && (j <? zlen pre)) eqn:Ej; auto.
        -- rewrite (Bw i), (Bw j) by lia. lia.
        -- rewrite (Bw i) by lia. rewrite (D0 j) by lia. specialize (Up j ltac:(lia)). lia.
        -- rewrite (Bw j) by lia. specialize (D1 i ltac:(lia)). lia.
    + rewrite Lp. exact R.
Qed.

Lemma tune_starts_ok L theta tdoy : atan2_range L -> dir theta -> int_of (doy64_of_rad theta) = Ret tdoy ->
  forall n s l ts, 0 <= s -> s + Z.of_nat n <= 1000 -> tune_starts L n s theta l = Ret ts ->
  zlen ts = Z.of_nat n /\ (forall j v, get_at ts j = Some v -> -183 <= v_ce v - day_number (s + j) tdoy <= 183).
Proof.
  intros Ra D I. induction n as [|n IH]; intros s l ts S0 S1 H; cbn [tune_starts] in H.
  { injection H as <-. split; [reflexivity|]. intros j v G. apply get_at_inv in G. cbn in G. lia. }
  destruct (season_mean s l zero32 zero32 zero32) as [[[x y] m] mv].
  destruct (polar_vector L (f32_div x m) (f32_div y m)) as [a| |] eqn:E; try discriminate. cbn [bind] in H.
  destruct (vector_range L _ _ _ Ra E) as [Da _].
  destruct (tune_shift s theta (v_rad a) tdoy D Da I ltac:(lia)) as (v & Ev & Bv). rewrite Ev in H. cbn [bind] in H.
  destruct (tune_starts L n (s + 1) theta _) as [ts'| |] eqn:Et; try discriminate. cbn [bind] in H. injection H as <-.
  destruct (IH (s + 1) _ _ ltac:(lia) ltac:(lia) Et) as [Z1 Z2].
  assert (zlen (v :: ts') = zlen ts' + 1) as Lc by (unfold zlen; cbn [length]; lia).
  split; [lia|]. intros j w G.
  destruct (Z.eq_dec j 0) as [->|Nj].
  - rewrite get_cons_0 in G. injection G as <-. replace (s + 0) with s by lia. exact Bv.
  - pose proof (get_at_inv _ _ _ G) as Gr. rewrite get_cons_S in G by lia.
    specialize (Z2 _ _ G). replace (s + 1 + (j - 1)) with (s + j) in Z2 by lia. exact Z2.
Qed.

Lemma ordered_ascending l : ordered (zlen l) (at_ (map p_season l)) <-> ascending l.
Proof.
  split.
  - induction l as [|p l IH]; intros O; cbn; auto. split.
    + apply Forall_forall. intros q Q. destruct (In_nth l q polar0 Q) as (n & N & E).
      specialize (O 0 (Z.of_nat n + 1) ltac:(lia)). unfold zlen, at_ in O. cbn [length] in O. specialize (O ltac:(lia)).
      replace (Z.to_nat (Z.of_nat n + 1)) with (S n) in O by lia. cbn [map nth Z.to_nat] in O.
      rewrite <- E. change (Z.to_nat 0) with 0%nat in O. rewrite (nth_indep _ 0 (p_season polar0)) in O by (rewrite map_length; lia). rewrite map_nth in O. exact O.
    + apply IH. intros i j I J. specialize (O (i + 1) (j + 1) ltac:(lia)). unfold zlen, at_ in *. cbn [length map] in O. specialize (O ltac:(lia)).
      replace (Z.to_nat (i + 1)) with (S (Z.to_nat i)) in O by lia. replace (Z.to_nat (j + 1)) with (S (Z.to_nat j)) in O by lia. exact O.
  - induction l as [|p l IH]; intros H i j I J; [unfold zlen in J; cbn in J; lia|]. destruct H as [H1 H2].
    destruct (Z.eq_dec j i) as [->|N]; [lia|]. unfold at_. replace (Z.to_nat j) with (S (Z.to_nat (j - 1))) by lia.
    assert (zlen (p :: l) = zlen l + 1) as Lc by (unfold zlen; cbn [length]; lia).
    destruct (Z.eq_dec i 0) as [->|Ni].
    + cbn [map nth Z.to_nat]. change (Z.to_nat 0) with 0%nat. cbn [nth]. rewrite Forall_forall in H1.
      rewrite (nth_indep _ 0 (p_season polar0)) by (rewrite map_length; unfold zlen in *; lia). rewrite map_nth. apply H1, nth_In. unfold zlen in *. lia.
    + replace (Z.to_nat i) with (S (Z.to_nat (i - 1))) by lia. cbn [map nth]. apply (IH H2 (i - 1) (j - 1)); lia.
Qed.

Lemma apply_diff_at l d : zlen d = zlen l -> zlen (apply_diff l d) = zlen l /\
  (forall j, 0 <= j < zlen l -> at_ (map p_season (apply_diff l d)) j = at_ (map p_season l) j + at_ d j).
Proof.
  unfold apply_diff, zlen. intros H. apply Nat2Z.inj in H. split; [rewrite map_length, combine_length; lia|].
  intros j J. unfold at_. revert d H j J. induction l as [|p l IH]; intros [|x d] H j J; cbn in *; try lia.
  destruct (Z.to_nat j) eqn:E; auto. specialize (IH d ltac:(lia) (j - 1) ltac:(lia)). replace (Z.to_nat (j - 1)) with n in IH by lia. exact IH.
Qed.
Lemma apply_diff_fields l d : zlen d = zlen l -> Forall2 (fun p q => q = with_season p (p_season q)) l (apply_diff l d).
Proof.
  unfold apply_diff, zlen. intros H. apply Nat2Z.inj in H. revert d H.
  induction l as [|p l IH]; intros [|x d] H; cbn in *; try lia; constructor; auto. 
Qed.
Lemma F2_season_refl l : Forall2 (fun p q => q = with_season p (p_season q)) l l.
Proof. induction l as [|p l IH]; constructor; auto. destruct p; reflexivity. Qed.

(** The fine-tuned seasons: in order, nothing else changed, starts moved by at most 183 days. *)
Lemma variable_ok L ad ns step theta l l' t0 : atan2_range L -> dir (v_rad theta) -> 0 <= v_doy theta <= 365 ->
  int_of (doy64_of_rad (v_rad theta)) = Ret (v_doy theta) -> 1 <= step <= 100000 -> ns <= 1000 ->
  ascending l -> spaced step (map p_season l) -> Forall (fun p => -1 <= p_season p) l ->
  variable L ad ns step theta l = Ret (l', t0) ->
  ascending l' /\ Forall2 (fun p q => q = with_season p (p_season q)) l l' /\
  (ad = true -> starts_ok (v_doy theta) t0) /\ (ad = false -> l' = l /\ forall s v, get_at t0 s = Some v -> v_ce v = 0).
Proof.
  intros Ra D T I S N As Sp Lo H. unfold variable in H. destruct ad; cbn [negb] in H.
  - destruct (tune_starts L (Z.to_nat ns) 0 (v_rad theta) l) as [ts| |] eqn:Et; try discriminate. cbn [bind] in H.
    destruct l as [|p r] eqn:El; try discriminate. rewrite <- El in *.
    destruct (shifts (v_doy theta) step ns (zlen l) ts (p_season p) 1 r (repeat 0 (length l))) as [d| |] eqn:Es; try discriminate.
    cbn [bind] in H. injection H as <- <-.
    destruct (tune_starts_ok L (v_rad theta) (v_doy theta) Ra D I (Z.to_nat ns) 0 l ts ltac:(lia) ltac:(lia) Et) as [_ Ts].
    assert (starts_ok (v_doy theta) ts) as Sk by (intros s v G; apply (Ts s v G)).
    pose proof (proj2 (ordered_ascending l) As) as Od.
    assert (forall j, at_ (repeat 0 (length l)) j = 0) as R0.
    { intros j. unfold at_. clear. generalize (length l). intros n. generalize (Z.to_nat j). induction n as [|n IH]; intros [|m]; cbn; auto. }
    assert (p_season p = p_season (last [p] polar0)) as E1 by reflexivity.
    assert (l = [p] ++ r) as E2 by (rewrite El; reflexivity).
    destruct (shifts_ok (v_doy theta) step ns ts l T S N Sk Sp Od r [p] (p_season p) (repeat 0 (length l)) d) as [S1 S2]; auto.
    + discriminate.
    + rewrite El in Lo. inversion Lo; auto.
    + unfold zlen. now rewrite repeat_length.
    + intros j J Q. rewrite R0. lia.
    + intros i j A B. rewrite !R0. specialize (Od i j A B). lia.
    + split; [|split; [|split]]; auto.
      * apply ordered_ascending. destruct (apply_diff_at l d S1) as [A1 A2]. rewrite A1. intros i j A B. rewrite !A2 by lia. apply S2; auto.
      * apply apply_diff_fields; auto.
      * discriminate.
  - injection H as <- <-. split; auto. split; [apply F2_season_refl|]. split; [discriminate|]. intros _. split; auto.
    intros s v G. apply get_at_In, repeat_spec in G. now subst.
Qed.
