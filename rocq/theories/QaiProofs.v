From Coq Require Import Sorting.Permutation.
From Verif Require Import Base BaseFacts QaiModel QaiSpec.

(** ** bits *)
Lemma testbit_field w i b k : 0 <= i -> 0 <= b -> 0 <= k ->
  Z.testbit (field w i b) k = (k <? b) && Z.testbit w (k + i).
Proof.
  intros I B K; unfold field.
  destruct (k <? b) eqn:E; cbn [andb].
  - rewrite Z.mod_pow2_bits_low by lia. rewrite Z.div_pow2_bits by lia. f_equal; lia.
  - apply Z.mod_pow2_bits_high; lia.
Qed.

Lemma short_range_bits w : in_short w <-> (forall k, 15 <= k -> Z.testbit w k = Z.testbit w 15).
Proof.
  unfold in_short; split.
  - intros H k K.
    destruct (Z_lt_le_dec w 0) as [N|P].
    + assert (forall j, 15 <= j -> Z.testbit w j = true) as T.
      { intros j J. replace w with (Z.lnot (Z.lnot w)) by (rewrite Z.lnot_involutive; auto).
        rewrite Z.lnot_spec by lia. 
        assert (0 <= Z.lnot w < 2 ^ 15) by (unfold Z.lnot; change (2 ^ 15) with 32768; lia).
        replace (Z.testbit (Z.lnot w) j) with false; auto.
        symmetry. rewrite <- (Z.mod_small (Z.lnot w) (2 ^ 15)) by lia.
        apply Z.mod_pow2_bits_high; lia. }
      rewrite !T by lia; auto.
    + assert (forall j, 15 <= j -> Z.testbit w j = false) as T.
      { intros j J. rewrite <- (Z.mod_small w (2 ^ 15)) by (change (2 ^ 15) with 32768; lia).
        apply Z.mod_pow2_bits_high; lia. }
      rewrite !T by lia; auto.
  - intros H.
    destruct (Z.testbit w 15) eqn:E.
    + assert (Z.lnot w = Z.lnot w mod 2 ^ 15) as Q.
      { apply Z.bits_inj'; intros k K.
        destruct (Z_lt_le_dec k 15).
        - rewrite Z.mod_pow2_bits_low by lia; auto.
        - rewrite Z.mod_pow2_bits_high by lia. rewrite Z.lnot_spec by lia.
          rewrite H by lia. reflexivity. }
      unfold Z.lnot in Q. change (2 ^ 15) with 32768 in Q. lia.
    + assert (w = w mod 2 ^ 15) as Q.
      { apply Z.bits_inj'; intros k K.
        destruct (Z_lt_le_dec k 15).
        - rewrite Z.mod_pow2_bits_low by lia; auto.
        - rewrite Z.mod_pow2_bits_high by lia. apply H; lia. }
      change (2 ^ 15) with 32768 in Q. lia.
Qed.

Lemma bits_above v b k : 0 <= v < 2 ^ b -> 0 <= b <= k -> Z.testbit v k = false.
Proof.
  intros H K; rewrite <- (Z.mod_small v (2 ^ b)) by lia. apply Z.mod_pow2_bits_high; lia.
Qed.

Lemma shift_in_short v i b : 0 <= v < 2 ^ b -> 0 <= i -> 0 <= b -> i + b <= 15 ->
  in_short (Z.shiftl v i).
Proof.
  intros V I B S; rewrite Z.shiftl_mul_pow2 by lia; unfold in_short.
  assert (0 < 2 ^ i) by (apply Z.pow_pos_nonneg; lia).
  assert (2 ^ i * 2 ^ b <= 2 ^ 15).
  { rewrite <- Z.pow_add_r by lia. apply Z.pow_le_mono_r; lia. }
  change (2 ^ 15) with 32768 in *. nia.
Qed.

Definition put (w i v b k : Z) : bool :=
  if (i <=? k) && (k <? i + b) then Z.testbit v (k - i) else Z.testbit w k.

Lemma set_qai_bits w i v b : in_short w -> 0 <= i -> 1 <= b <= 2 -> i + b <= 15 -> 0 <= v < 2 ^ b ->
  exists w', set_qai_to_value w i v b = Ret w' /\ in_short w' /\
    forall k, 0 <= k -> Z.testbit w' k = put w i v b k.
Proof.
  intros W I B S V; unfold set_qai_to_value.
  replace (v <? 0) with false by lia.
  assert (to_short (Z.shiftl 1 b - 1) = Z.ones b) as ->.
  { assert (b = 1 \/ b = 2) as [->| ->] by lia; reflexivity. }
  rewrite (to_short_id (Z.shiftl v i)) by (apply (shift_in_short v i b); lia).
  set (x := Z.lor _ _).
  assert (forall k, 0 <= k -> Z.testbit x k = put w i v b k) as T.
  { intros k K; unfold x, put.
    rewrite Z.lor_spec, Z.land_spec, Z.lnot_spec by lia.
    rewrite !Z.shiftl_spec by lia.
    destruct (i <=? k) eqn:E1; cbn [andb].
    - destruct (k <? i + b) eqn:E2.
      + rewrite Z.ones_spec_low by lia. cbn [negb]. rewrite andb_false_r. reflexivity.
      + rewrite Z.ones_spec_high by lia. cbn [negb]. rewrite andb_true_r.
        rewrite (bits_above v b) by lia. apply orb_false_r.
    - rewrite (Z.testbit_neg_r (Z.ones b)), (Z.testbit_neg_r v) by lia. cbn [negb]. rewrite andb_true_r. apply orb_false_r. }
  assert (in_short x) as X.
  { apply short_range_bits; intros k K; rewrite !T by lia; unfold put.
    replace (k <? i + b) with false by lia. replace (15 <? i + b) with false by lia.
    rewrite !andb_false_r. apply (proj1 (short_range_bits w) W); lia. }
  exists x; rewrite to_short_id by exact X. auto.
Qed.

Lemma set_field_same w w' i v b : (forall k, 0 <= k -> Z.testbit w' k = put w i v b k) ->
  0 <= i -> 0 <= b -> 0 <= v < 2 ^ b -> field w' i b = v.
Proof.
  intros T I B V; apply Z.bits_inj'; intros k K.
  rewrite testbit_field by lia. destruct (k <? b) eqn:E; cbn [andb].
  - rewrite T by lia; unfold put.
    replace ((i <=? k + i) && (k + i <? i + b)) with true by lia. f_equal; lia.
  - symmetry; apply (bits_above v b); lia.
Qed.

Lemma set_field_other w w' i v b j c : (forall k, 0 <= k -> Z.testbit w' k = put w i v b k) ->
  0 <= i -> 0 <= b -> 0 <= j -> 0 <= c -> (j + c <= i \/ i + b <= j) ->
  field w' j c = field w j c.
Proof.
  intros T I B J C D; apply Z.bits_inj'; intros k K.
  rewrite !testbit_field by lia. destruct (k <? c) eqn:E; cbn [andb]; auto.
  rewrite T by lia; unfold put.
  replace ((i <=? k + j) && (k + j <? i + b)) with false by lia. reflexivity.
Qed.

Lemma shiftr_short w i : in_short w -> 0 <= i -> in_short (Z.shiftr w i).
Proof.
  intros W I; rewrite Z.shiftr_div_pow2 by lia.
  assert (0 < 2 ^ i) by (apply Z.pow_pos_nonneg; lia).
  unfold in_short in *; split.
  - apply Z.div_le_lower_bound; nia.
  - apply Z.div_le_upper_bound; nia.
Qed.

Lemma get_qai_field w i b : in_short w -> 0 <= i -> 1 <= b <= 2 ->
  get_qai_from_value w i b = field w i b.
Proof.
  intros W I B; unfold get_qai_from_value.
  rewrite to_short_id by (apply shiftr_short; auto).
  assert (ones_loop (Z.to_nat b) = Z.ones b) as ->.
  { assert (b = 1 \/ b = 2) as [->| ->] by lia; reflexivity. }
  rewrite Z.land_ones by lia. unfold field. rewrite Z.shiftr_div_pow2 by lia. reflexivity.
Qed.

(** ** flags *)
Lemma get_flag_value f w : in_short w -> get_flag f w = flag_value f w.
Proof. intros W; destruct f; apply get_qai_field; auto; vm_compute; intuition discriminate. Qed.

Lemma set_flag_def f w v :
  set_flag f w v = set_qai_to_value w (fst (layout f)) v (snd (layout f)).
Proof. destruct f; reflexivity. Qed.

Lemma layout_ok f : 0 <= fst (layout f) /\ 1 <= snd (layout f) <= 2 /\ fst (layout f) + snd (layout f) <= 15.
Proof. destruct f; cbn; lia. Qed.

Definition disjoint_flags f g :=
  fst (layout g) + snd (layout g) <= fst (layout f) \/ fst (layout f) + snd (layout f) <= fst (layout g).

Lemma layout_disjoint f g : f <> g -> disjoint_flags f g.
Proof. intros N; destruct f, g; try congruence; unfold disjoint_flags; cbn; lia. Qed.

Lemma flag_range f w : 0 <= flag_value f w <= flag_max f.
Proof.
  unfold flag_value, flag_max, field.
  destruct (layout_ok f) as (_ & B & _).
  assert (0 < 2 ^ snd (layout f)) by (apply Z.pow_pos_nonneg; lia).
  pose proof (Z.mod_pos_bound (w / 2 ^ fst (layout f)) (2 ^ snd (layout f))). lia.
Qed.

Lemma set_flag_spec f w v : in_short w -> 0 <= v <= flag_max f ->
  exists w', set_flag f w v = Ret w' /\ in_short w' /\ flag_value f w' = v /\
    (forall g, g <> f -> flag_value g w' = flag_value g w) /\
    Z.testbit w' 15 = Z.testbit w 15.
Proof.
  intros W V; destruct (layout_ok f) as (I & B & S).
  destruct (set_qai_bits w (fst (layout f)) v (snd (layout f))) as (w' & E & W' & T);
    auto; [unfold flag_max in V; lia|].
  exists w'; rewrite set_flag_def; split; [exact E|]. split; [exact W'|].
  split; [|split].
  - unfold flag_value; eapply set_field_same; eauto; unfold flag_max in V; lia.
  - intros g G; destruct (layout_ok g) as (I' & B' & S').
    unfold flag_value; eapply set_field_other; eauto; try lia.
    destruct (layout_disjoint f g ltac:(congruence)); lia.
  - rewrite T by lia; unfold put.
    replace (15 <? fst (layout f) + snd (layout f)) with false by lia.
    rewrite andb_false_r; reflexivity.
Qed.

Lemma set_get_flag f w v : in_short w -> 0 <= v <= flag_max f ->
  exists w', set_flag f w v = Ret w' /\ in_short w' /\ get_flag f w' = v /\
    forall g, g <> f -> get_flag g w' = get_flag g w.
Proof.
  intros W V; destruct (set_flag_spec f w v W V) as (w' & E & W' & F & O & _).
  exists w'; split; [exact E|]. split; [exact W'|]. rewrite get_flag_value by auto.
  split; [exact F|]. intros g G; rewrite !get_flag_value by auto; auto.
Qed.

Lemma set_flag_at_spec f img p v : Forall in_short img -> 0 <= p < zlen img -> 0 <= v <= flag_max f ->
  exists img', set_flag_at f img p v = Ret img' /\ zlen img' = zlen img /\ Forall in_short img' /\
    (forall w w', get_at img p = Some w -> get_at img' p = Some w' ->
       get_flag f w' = v /\ forall g, g <> f -> get_flag g w' = get_flag g w) /\
    (forall q, q <> p -> get_at img' q = get_at img q).
Proof.
  intros F P V; unfold set_flag_at, zlen in *.
  destruct (get_at_some img p P) as (w & G).
  rewrite G; cbn [of_option bind].
  assert (in_short w) as W.
  { eapply Forall_get_at; eauto. }
  destruct (set_get_flag f w v W V) as (w' & -> & W' & S & O); cbn [bind].
  destruct (set_at img p w') as [img'|] eqn:E.
  2:{ rewrite set_at_some in E by (unfold zlen; auto). discriminate. }
  cbn [of_option]. exists img'; split; [reflexivity|].
  split; [exact (set_at_length _ _ _ _ E)|].
  split; [eapply Forall_set_at; eauto|split].
  - intros w1 w2 G1 G2. inversion G1; subst w1.
    rewrite (get_set_same _ _ _ _ E) in G2; inversion G2; subst w2. auto.
  - intros q Q. apply (get_set_other _ _ _ _ _ E); auto.
Qed.

(** ** merge *)
Lemma set_flags_det w1 w2 : in_short w1 -> in_short w2 ->
  (forall f, flag_value f w1 = flag_value f w2) -> Z.testbit w1 15 = Z.testbit w2 15 -> w1 = w2.
Proof.
  intros S1 S2 F T. apply Z.bits_inj'; intros k K.
  assert (forall f i, 0 <= i < snd (layout f) ->
    Z.testbit w1 (i + fst (layout f)) = Z.testbit w2 (i + fst (layout f))) as Q.
  { intros f i I. destruct (layout_ok f) as (P & B & _).
    pose proof (f_equal (fun z => Z.testbit z i) (F f)) as E; cbv beta in E.
    unfold flag_value in E. rewrite !testbit_field in E by lia.
    replace (i <? snd (layout f)) with true in E by lia. exact E. }
  destruct (Z_lt_le_dec k 15).
  - assert (k = 0 \/ k = 1 \/ k = 2 \/ k = 3 \/ k = 4 \/ k = 5 \/ k = 6 \/ k = 7 \/ k = 8 \/ k = 9 \/
            k = 10 \/ k = 11 \/ k = 12 \/ k = 13 \/ k = 14) as C by lia.
    destruct C as [->|[->|[->|[->|[->|[->|[->|[->|[->|[->|[->|[->|[->|[->| ->]]]]]]]]]]]]]].
    + apply (Q Off 0); cbn; lia.
    + apply (Q Cloud 0); cbn; lia.
    + apply (Q Cloud 1); cbn; lia.
    + apply (Q Shadow 0); cbn; lia.
    + apply (Q Snow 0); cbn; lia.
    + apply (Q Water 0); cbn; lia.
    + apply (Q Aerosol 0); cbn; lia.
    + apply (Q Aerosol 1); cbn; lia.
    + apply (Q Subzero 0); cbn; lia.
    + apply (Q Saturation 0); cbn; lia.
    + apply (Q Lowsun 0); cbn; lia.
    + apply (Q Illumination 0); cbn; lia.
    + apply (Q Illumination 1); cbn; lia.
    + apply (Q Slope 0); cbn; lia.
    + apply (Q Vaporfill 0); cbn; lia.
  - rewrite (proj1 (short_range_bits w1) S1 k) by lia.
    rewrite (proj1 (short_range_bits w2) S2 k) by lia. exact T.
Qed.

Definition flag_eq_dec (f g : flag) : {f = g} + {f <> g}.
Proof. decide equality. Defined.

(** What merge writes into each flag. *)
Definition merged (f : flag) (a b : Z) : Z :=
  match f with
  | Off | Illumination => Z.min a b
  | _ => Z.max a b
  end.

Lemma merge_spec old a b : in_short old -> in_short a -> in_short b ->
  exists w, merge_qai old a b = Ret w /\ in_short w /\
    (forall f, flag_value f w = merged f (flag_value f a) (flag_value f b)) /\
    Z.testbit w 15 = Z.testbit old 15.
Proof.
  intros O A B; unfold merge_qai.
  assert (forall f, g_max f a b = Z.max (flag_value f a) (flag_value f b)) as GX.
  { intros f; unfold g_max; rewrite !get_flag_value by auto.
    destruct (flag_value f a >? flag_value f b) eqn:E; lia. }
  assert (forall f, g_min f a b = Z.min (flag_value f a) (flag_value f b)) as GN.
  { intros f; unfold g_min; rewrite !get_flag_value by auto.
    destruct (flag_value f a <? flag_value f b) eqn:E; lia. }
  assert (forall f, flag_max f = 1 -> g_or f a b = Z.max (flag_value f a) (flag_value f b)) as GO.
  { intros f M; unfold g_or; rewrite !get_flag_value by auto.
    pose proof (flag_range f a); pose proof (flag_range f b). unfold on.
    destruct (flag_value f a =? 0) eqn:E1, (flag_value f b =? 0) eqn:E2; cbn [negb orb b2z]; lia. }
  assert (b2z (on (get_flag Off a) && on (get_flag Off b)) = Z.min (flag_value Off a) (flag_value Off b)) as ->.
  { rewrite !get_flag_value by auto.
    pose proof (flag_range Off a); pose proof (flag_range Off b).
    change (flag_max Off) with 1 in *. unfold on.
    destruct (flag_value Off a =? 0) eqn:E1, (flag_value Off b =? 0) eqn:E2; cbn [negb andb b2z]; lia. }
  rewrite !GX, GN, !GO by reflexivity.
  assert (forall f, 0 <= Z.max (flag_value f a) (flag_value f b) <= flag_max f /\
                    0 <= Z.min (flag_value f a) (flag_value f b) <= flag_max f) as R.
  { intros f; pose proof (flag_range f a); pose proof (flag_range f b); lia. }
  Ltac next R :=
    match goal with |- exists w, bind (set_flag ?f ?o ?v) _ = Ret w /\ _ =>
      let w := fresh "w" in let E := fresh "E" in let W := fresh "W" in
      let F := fresh "F" in let Q := fresh "Q" in let T := fresh "T" in
      destruct (set_flag_spec f o v) as (w & E & W & F & Q & T);
      [assumption | first [apply (proj1 (R f)) | apply (proj2 (R f))] |];
      rewrite E; cbn [bind]
    end.
  do 11 next R.
  match goal with |- exists w, set_flag ?f ?o ?v = Ret w /\ _ =>
      let w := fresh "w" in let E := fresh "E" in let W := fresh "W" in
      let F := fresh "F" in let Q := fresh "Q" in let T := fresh "T" in
      destruct (set_flag_spec f o v) as (w & E & W & F & Q & T);
      [assumption | first [apply (proj1 (R f)) | apply (proj2 (R f))] |];
      exists w; split; [exact E|]; split; [exact W|]
  end.
  split; [|congruence].
  intros f; destruct f; cbn [merged];
  repeat match goal with
  | Q : forall g, g <> _ -> flag_value g ?w = _ |- flag_value _ ?w = _ =>
      first [ assumption | rewrite Q by discriminate ]
  end; assumption.
Qed.

Lemma merge_comm old a b : in_short old -> in_short a -> in_short b ->
  merge_qai old a b = merge_qai old b a.
Proof.
  intros O A B.
  destruct (merge_spec old a b) as (w1 & -> & S1 & F1 & T1); auto.
  destruct (merge_spec old b a) as (w2 & -> & S2 & F2 & T2); auto.
  f_equal; apply set_flags_det; auto; [|congruence].
  intros f; rewrite F1, F2; destruct f; unfold merged; lia.
Qed.

Lemma merge_assoc old a b c : in_short old -> in_short a -> in_short b -> in_short c ->
  (x <- merge_qai old a b ;; merge_qai old x c) = (y <- merge_qai old b c ;; merge_qai old a y).
Proof.
  intros O A B C.
  destruct (merge_spec old a b) as (w1 & -> & S1 & F1 & T1); auto.
  destruct (merge_spec old b c) as (w2 & -> & S2 & F2 & T2); auto.
  cbn [bind].
  destruct (merge_spec old w1 c) as (w3 & -> & S3 & F3 & T3); auto.
  destruct (merge_spec old a w2) as (w4 & -> & S4 & F4 & T4); auto.
  f_equal; apply set_flags_det; auto; [|congruence].
  intros f; rewrite F3, F4, F1, F2; destruct f; unfold merged; lia.
Qed.

Lemma merge_idem old a : in_short old -> in_short a ->
  exists w, merge_qai old a a = Ret w /\ forall f, flag_value f w = flag_value f a.
Proof.
  intros O A. destruct (merge_spec old a a) as (w & E & _ & F & _); auto.
  exists w; split; auto. intros f; rewrite F; destruct f; unfold merged; lia.
Qed.

(** ** screening *)
Lemma on_bit f w : flag_max f = 1 -> on (flag_value f w) = true <-> flag_value f w = 1.
Proof. intros M; pose proof (flag_range f w); unfold on; lia. Qed.

Lemma use_this_pixel_usable w r ard : in_short w ->
  use_this_pixel w r ard = true <-> usable w r ard.
Proof.
  intros W; unfold use_this_pixel; rewrite !get_flag_value by auto.
  split.
  - intros H.
    repeat match type of H with (if ?b then false else _) = true =>
      let E := fresh "E" in destruct b eqn:E; [discriminate|] end.
    split.
    + intros ->. cbn [negb andb applies] in *. intros A; rewrite A in *; discriminate.
    + intros s Sel A. destruct s; cbn [selected applies] in *;
        rewrite Sel, A in *; discriminate.
  - intros [N U].
    repeat match goal with |- (if ?b then false else _) = true =>
      let E := fresh "E" in destruct b eqn:E; [exfalso|] end; auto;
    match goal with E : _ && _ = true |- _ => apply andb_prop in E; destruct E as [Ea Eb] end.
    1:{ apply N; [destruct ard; auto; discriminate|]. apply on_bit; auto. }
    1: apply (U S_OFF Ea), on_bit; auto.
    1: apply (U S_CLD_UNC Ea); cbn [applies]; lia.
    1: apply (U S_CLD_OPQ Ea); cbn [applies]; lia.
    1: apply (U S_CLD_CIR Ea); cbn [applies]; lia.
    1: apply (U S_SHD Ea), on_bit; auto.
    1: apply (U S_SNW Ea), on_bit; auto.
    1: apply (U S_WTR Ea), on_bit; auto.
    1: apply (U S_AOD_INT Ea); cbn [applies]; lia.
    1: apply (U S_AOD_HIGH Ea); cbn [applies]; lia.
    1: apply (U S_AOD_FILL Ea); cbn [applies]; lia.
    1: apply (U S_SUB Ea), on_bit; auto.
    1: apply (U S_SAT Ea), on_bit; auto.
    1: apply (U S_SUN Ea), on_bit; auto.
    1: apply (U S_ILL_LOW Ea); cbn [applies]; lia.
    1: apply (U S_ILL_POOR Ea); cbn [applies]; lia.
    1: apply (U S_ILL_SHD Ea); cbn [applies]; lia.
    1: apply (U S_SLP Ea), on_bit; auto.
    1: apply (U S_WVP Ea), on_bit; auto.
Qed.

Lemma parse_quality_selected flags s :
  selected s (parse_quality flags) = true <-> exists c, In c flags /\ keyword c = Some s.
Proof.
  unfold parse_quality.
  assert (forall r, selected s (fold_left parse_flag flags r) = true <->
    (selected s r = true \/ exists c, In c flags /\ keyword c = Some s)) as G.
  { induction flags as [|c flags IH]; intros r; cbn [fold_left].
    - split; [auto|]. intros [H|(c & [] & _)]; auto.
    - rewrite IH.
      assert (selected s (parse_flag r c) = true <-> selected s r = true \/ keyword c = Some s) as Q.
      { assert (forall k, (c =? k) = true -> keyword c = keyword k) as K.
        { intros k E; apply Z.eqb_eq in E; congruence. }
        assert (forall x, keyword c = Some x -> exists k, 0 <= k < 18 /\ c = k) as D.
        { intros x E; apply get_at_inv in E. exists c; split; auto. }
        split.
        - destruct s; cbn [selected parse_flag r_off r_cld_opq r_cld_unc r_cld_cir r_shd r_snw r_wtr
            r_aod_fill r_aod_high r_aod_int r_sub r_sat r_sun r_ill_low r_ill_poor r_ill_shd r_slp r_wvp];
          intros H; apply orb_prop in H; destruct H as [H|H]; auto; right; rewrite (K _ H); reflexivity.
        - intros [H|H].
          + destruct s; cbn [selected parse_flag r_off r_cld_opq r_cld_unc r_cld_cir r_shd r_snw r_wtr
            r_aod_fill r_aod_high r_aod_int r_sub r_sat r_sun r_ill_low r_ill_poor r_ill_shd r_slp r_wvp] in *;
            rewrite H; reflexivity.
          + destruct (D _ H) as (k & R & ->).
            assert (k = 0 \/ k = 1 \/ k = 2 \/ k = 3 \/ k = 4 \/ k = 5 \/ k = 6 \/ k = 7 \/ k = 8 \/ k = 9 \/
              k = 10 \/ k = 11 \/ k = 12 \/ k = 13 \/ k = 14 \/ k = 15 \/ k = 16 \/ k = 17) as C by lia.
            destruct C as [->|[->|[->|[->|[->|[->|[->|[->|[->|[->|[->|[->|[->|[->|[->|[->|[->| ->]]]]]]]]]]]]]]]]];
            cbn in H; inversion H; subst s; cbn; apply orb_true_r. }
      rewrite Q; split.
      + intros [[H|H]|(x & I & H)]; auto; right; [exists c|exists x]; cbn; auto.
      + intros [H|(x & [->|I] & H)]; auto. right; exists x; auto. }
  rewrite G; split; [intros [H|H]; auto|auto].
  destruct s; discriminate.
Qed.

Lemma screen_pixels_spec words r ard mask : forall p, 0 <= p ->
  (forall m, mask = Some m -> p + zlen words <= zlen m) ->
  exists out, screen_pixels words mask p r ard = Ret out /\ length out = length words /\
    forall i w o, nth_error words i = Some w -> nth_error out i = Some o ->
      o = (match mask with None => true
           | Some m => match get_at m (p + Z.of_nat i) with Some v => on v | None => false end end)
          && use_this_pixel w r ard.
Proof.
  induction words as [|w words IH]; intros p P M; cbn [screen_pixels].
  - exists []; split; [auto|]. split; [auto|]. intros i; destruct i; discriminate.
  - destruct (IH (p + 1)) as (out & E & L & N); [lia| |].
    { intros m Hm; specialize (M m Hm); unfold zlen in *; cbn [length] in M; lia. }
    assert (exists ins, (match mask with
              | None => Ret true
              | Some m => v <- of_option (get_at m p);; Ret (on v)
              end) = Ret ins /\
             ins = (match mask with None => true
           | Some m => match get_at m (p + 0) with Some v => on v | None => false end end)) as (ins & I1 & I2).
    { destruct mask as [m|]; [|exists true; auto].
      specialize (M m eq_refl).
      destruct (get_at_some m p) as (v & V); [unfold zlen in *; cbn [length] in M; lia|].
      exists (on v). rewrite Z.add_0_r, V; auto. }
    rewrite I1; cbn [bind]. rewrite E; cbn [bind].
    eexists; split; [reflexivity|]. split; [cbn; congruence|].
    intros i w' o Hw Ho; destruct i as [|i]; cbn [nth_error] in *.
    + inversion Hw; inversion Ho; subst w' o. change (Z.of_nat 0) with 0. rewrite <- I2.
      destruct ins; reflexivity.
    + rewrite (N i w' o Hw Ho). replace (p + 1 + Z.of_nat i) with (p + Z.of_nat (S i)) by lia. reflexivity.
Qed.

Lemma screen_qai_spec qai mask r l :
  (forall m img, mask = Some m -> In img qai -> zlen img <= zlen m) ->
  exists out, screen_qai qai mask r l = Ret out /\ length out = length qai /\
    forall t img om, nth_error qai t = Some img -> nth_error out t = Some om ->
      length om = length img /\
      forall i w o, nth_error img i = Some w -> nth_error om i = Some o -> in_short w ->
      (o = true <->
       (forall m, mask = Some m -> exists v, get_at m (Z.of_nat i) = Some v /\ v <> 0) /\
       usable w r (is_ard_level l)).
Proof.
  induction qai as [|img qai IH]; intros M; cbn [screen_qai].
  - exists []; split; [auto|]. split; [auto|]. intros t; destruct t; discriminate.
  - destruct (screen_pixels_spec img r (is_ard_level l) mask 0) as (om & E1 & L1 & N1); [lia| |].
    { intros m Hm; specialize (M m img Hm (or_introl eq_refl)); lia. }
    destruct IH as (out & E & L & N).
    { intros m im Hm I; apply (M m im Hm); right; auto. }
    rewrite E1; cbn [bind]; rewrite E; cbn [bind].
    eexists; split; [reflexivity|]. split; [cbn; congruence|].
    intros t img' om' Ht Ho; destruct t as [|t]; cbn [nth_error] in *.
    + inversion Ht; inversion Ho; subst img' om'.
      split; [exact L1|]. intros i w o Hw Hb W.
      pose proof (N1 i w o Hw Hb) as Q. cbn [Z.add] in Q. rewrite Q, andb_true_iff, use_this_pixel_usable by auto.
      destruct mask as [m|].
      * split; intros [A B]; split; auto.
        -- intros m' Hm; inversion Hm; subst m'.
           destruct (get_at m (Z.of_nat i)) as [v|]; [|discriminate].
           exists v; split; auto. unfold on in A; lia.
        -- destruct (A m eq_refl) as (v & -> & V). unfold on; lia.
      * split; intros [A B]; split; auto. intros m Hm; discriminate.
    + eapply N; eauto.
Qed.
Lemma usable_level w r l : usable w r (is_ard_level l) <-> usable_at w r l.
Proof. unfold usable, usable_at. destruct l; cbn [is_ard_level]; intuition congruence. Qed.

Lemma usable_mono w r r' ard : (forall s, selected s r = true -> selected s r' = true) ->
  usable w r' ard -> usable w r ard.
Proof. intros H [A B]; split; auto. Qed.

Lemma use_mono w r r' ard : in_short w -> (forall s, selected s r = true -> selected s r' = true) ->
  use_this_pixel w r' ard = true -> use_this_pixel w r ard = true.
Proof. intros W H. rewrite !use_this_pixel_usable by auto. apply usable_mono; auto. Qed.

Lemma screen_keywords w flags : in_short w ->
  use_this_pixel w (parse_quality flags) true = true <->
  (forall c s, In c flags -> keyword c = Some s -> ~ applies s w).
Proof.
  intros W; rewrite use_this_pixel_usable by auto; unfold usable; split.
  - intros [_ H] c s I K; apply H, parse_quality_selected; eauto.
  - intros H; split; [discriminate|]. intros s S. apply parse_quality_selected in S.
    destruct S as (c & I & K); eauto.
Qed.

Lemma overwide_refuted : exists w, in_short w /\ get_flag Cloud w = 0 /\
  exists w', set_flag Off w 2 = Ret w' /\ get_flag Off w' = 0 /\ get_flag Cloud w' = 1.
Proof. exists 0; split; [unfold in_short; lia|]. split; [reflexivity|]. exists 2. repeat split. Qed.

Lemma merge_worst_partial old a b : in_short old -> in_short a -> in_short b ->
  exists w, merge_qai old a b = Ret w /\ in_short w /\
    forall f, f <> Illumination -> flag_value f w = worst f (flag_value f a) (flag_value f b).
Proof.
  intros O A B. destruct (merge_spec old a b) as (w & E & S & F & _); auto.
  exists w; split; auto. split; auto. intros f N; rewrite F; destruct f; try reflexivity. congruence.
Qed.

Lemma merge_illumination_refuted : exists a b w, in_short a /\ in_short b /\
  flag_value Illumination a = 3 /\ flag_value Illumination b = 0 /\
  merge_qai 0 a b = Ret w /\ flag_value Illumination w = 0 /\
  worst Illumination (flag_value Illumination a) (flag_value Illumination b) = 3.
Proof. exists 6144, 0, 0. repeat split; unfold in_short; lia. Qed.

Lemma flag_dec (f g : flag) : {f = g} + {f <> g}.
Proof. decide equality. Defined.

Lemma writes_commute f g w a b : f <> g -> in_short w -> 0 <= a <= flag_max f -> 0 <= b <= flag_max g ->
  disjoint_flags f g /\
  exists u v, (x <- set_flag f w a ;; set_flag g x b) = Ret u /\
    (x <- set_flag g w b ;; set_flag f x a) = Ret v /\
    get_flag f u = a /\ get_flag g u = b /\
    forall h, get_flag h u = get_flag h v /\ (h <> f -> h <> g -> get_flag h u = get_flag h w).
Proof.
  intros N W A B; split; [apply layout_disjoint; auto|].
  destruct (set_get_flag f w a W A) as (x & X1 & X2 & X3 & X4).
  destruct (set_get_flag g x b X2 B) as (u & U1 & U2 & U3 & U4).
  destruct (set_get_flag g w b W B) as (y & Y1 & Y2 & Y3 & Y4).
  destruct (set_get_flag f y a Y2 A) as (v & V1 & V2 & V3 & V4).
  exists u, v. rewrite X1, Y1. cbn [bind]. split; [auto|]. split; [auto|].
  split; [rewrite U4 by auto; auto|]. split; [auto|].
  intros h. destruct (flag_dec h f) as [E|Nf].
  - subst h. split; [rewrite U4 by auto; congruence | congruence].
  - destruct (flag_dec h g) as [E|Ng].
    + subst h. split; [rewrite V4 by auto; congruence | congruence].
    + split; [rewrite U4, X4, V4, Y4 by auto; auto|]. intros; rewrite U4, X4 by auto; auto.
Qed.

(** ** merging many words *)
Lemma merge_all_spec old more : in_short old -> Forall in_short more -> forall first, in_short first -> Z.testbit first 15 = Z.testbit old 15 ->
  exists w, merge_all old first more = Ret w /\ in_short w /\ Z.testbit w 15 = Z.testbit old 15 /\
    forall f, flag_value f w = fold_right (merged f) (flag_value f first) (map (flag_value f) more).
Proof.
  intros O M. unfold merge_all. induction M as [|x l X L IH]; intros first F T.
  - exists first. cbn [fold_left map fold_right]. auto.
  - cbn [fold_left]. destruct (merge_spec old first x) as (w & E & W & V & B); auto.
    cbn [bind]. rewrite E. destruct (IH w W B) as (u & EU & SU & BU & VU).
    exists u. split; [exact EU|]. split; [exact SU|]. split; [exact BU|]. intros f. rewrite VU, V. cbn [map fold_right].
    clear. induction (map (flag_value f) l) as [|y t IH]; cbn [fold_right]; [unfold merged; destruct f; lia|].
    rewrite IH. unfold merged; destruct f; lia.
Qed.

Lemma merge_all_spec' old first x more : in_short old -> in_short first -> in_short x -> Forall in_short more ->
  exists w, merge_all old first (x :: more) = Ret w /\ in_short w /\ Z.testbit w 15 = Z.testbit old 15 /\
    forall f, flag_value f w = fold_right (merged f) (flag_value f first) (map (flag_value f) (x :: more)).
Proof.
  intros O F X M. unfold merge_all. cbn [fold_left bind].
  destruct (merge_spec old first x) as (w & E & W & V & B); auto. rewrite E.
  destruct (merge_all_spec old more O M w W B) as (u & EU & SU & BU & VU).
  exists u. split; [exact EU|]. split; [exact SU|]. split; [exact BU|]. intros f. rewrite VU, V. cbn [map fold_right].
  clear. induction (map (flag_value f) more) as [|y t IH]; cbn [fold_right]; [unfold merged; destruct f; lia|].
  rewrite IH. unfold merged; destruct f; lia.
Qed.

Lemma fold_merged_perm f l l' : Permutation l l' -> forall a, fold_right (merged f) a l = fold_right (merged f) a l'.
Proof.
  induction 1 as [| | |a b c _ IH1 _ IH2]; intros z; cbn [fold_right]; [auto|congruence|unfold merged; destruct f; lia|].
  rewrite IH1. apply IH2.
Qed.

Lemma fold_merged_cons f a l : fold_right (merged f) a l = match l with [] => a | x :: t => merged f a (fold_right (merged f) x t) end.
Proof.
  destruct l as [|x t]; [reflexivity|]. cbn [fold_right]. induction t as [|y t IH]; cbn [fold_right]; [unfold merged; destruct f; lia|].
  transitivity (merged f y (merged f x (fold_right (merged f) a t))); [unfold merged; destruct f; lia|].
  rewrite IH. unfold merged; destruct f; lia.
Qed.

Lemma fold_merged_any f a l a' l' : Permutation (a :: l) (a' :: l') ->
  fold_right (merged f) (flag_value f a) (map (flag_value f) l) = fold_right (merged f) (flag_value f a') (map (flag_value f) l').
Proof.
  intros P. apply (Permutation_map (flag_value f)) in P. cbn [map] in P.
  set (u := flag_value f a) in *. set (v := flag_value f a') in *.
  set (m := map (flag_value f) l) in *. set (m' := map (flag_value f) l') in *.
  assert (forall z t, fold_right (merged f) z t = fold_right (merged f) z (z :: t)) as D.
  { intros z t. cbn [fold_right]. induction t as [|y t IH]; cbn [fold_right]; [unfold merged; destruct f; lia|].
    rewrite IH at 1. unfold merged; destruct f; lia. }
  assert (forall z t y, In y (z :: t) -> fold_right (merged f) z (z :: t) = fold_right (merged f) y (z :: t)) as J.
  { intros z t y [<-|I]; [reflexivity|]. rewrite <- D. cbn [fold_right]. revert I. induction t as [|x t IH]; intros []; cbn [fold_right].
    - subst x. rewrite D. cbn [fold_right]. clear. induction t as [|x t IH]; cbn [fold_right]; [unfold merged; destruct f; lia|].
      transitivity (merged f x (merged f y (merged f z (fold_right (merged f) z t)))); [unfold merged; destruct f; lia|].
      rewrite IH. unfold merged; destruct f; lia.
    - rewrite IH by assumption. unfold merged; destruct f; lia. }
  rewrite D. rewrite (J u m v) by (apply (Permutation_in _ (Permutation_sym P)); now left).
  rewrite (fold_merged_perm f _ _ P). rewrite <- D. reflexivity.
Qed.

Lemma merge_all_order old a l a' l' : in_short old -> Forall in_short (a :: l) -> Permutation (a :: l) (a' :: l') ->
  merge_all old a l = merge_all old a' l'.
Proof.
  intros O S P. assert (Forall in_short (a' :: l')) as S' by (eapply Permutation_Forall; eassumption).
  destruct l as [|x l].
  - apply Permutation_length_1_inv in P. injection P as -> ->. reflexivity.
  - destruct l' as [|x' l']; [apply Permutation_length in P; discriminate|].
    apply Forall_cons_iff in S, S'. destruct S as (SA & S), S' as (SA' & S').
    apply Forall_cons_iff in S, S'. destruct S as (SX & S), S' as (SX' & S').
    destruct (merge_all_spec' old a x l) as (w & -> & W & B & V); auto.
    destruct (merge_all_spec' old a' x' l') as (w' & -> & W' & B' & V'); auto.
    f_equal. apply set_flags_det; auto; [|congruence]. intros f. rewrite V, V'. apply fold_merged_any, P.
Qed.

Lemma merge_all_value old a x l : in_short old -> Forall in_short (a :: x :: l) -> exists w, merge_all old a (x :: l) = Ret w /\ in_short w /\
  forall f, f <> Illumination -> flag_value f w = fold_right (worst f) (flag_value f a) (map (flag_value f) (x :: l)).
Proof.
  intros O S. apply Forall_cons_iff in S. destruct S as (SA & S). apply Forall_cons_iff in S. destruct S as (SX & S).
  destruct (merge_all_spec' old a x l) as (w & E & W & _ & V); auto. exists w. split; [exact E|]. split; [exact W|].
  intros f N. rewrite V. destruct f; try reflexivity. now elim N.
Qed.
