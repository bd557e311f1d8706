(** C143: matching of cloud shadows. *)
From Coq Require Import Reals Lra Lia ZifyBool.
From Flocq Require Import Core.
From Verif Require Import Base RoundModel RoundFacts ShmModel ShmSpec ShmProofs L1Cal.
#[local] Open Scope R_scope.

(** A thing at (E, N) in height h that the sensor sees in the centre of pixel (x, y) casts its shadow within half a pixel of the position that is found. *)
Theorem C143_position E N h x y r vz va sz saz px py : 0 < r -> ground E N h (direction vz va) = centre r x y -> shadow_position h x y r (direction sz saz) (direction vz va) = Ret (px, py) ->
  within r (1 / 2) (centre r px py) (ground E N h (direction sz saz)).
Proof. intros R G H. eapply pos_within; eauto. Qed.
(** With the sun behind the sensor the shadow is hidden by the cloud, and things on the ground cast their shadow where they are. *)
Theorem C143_hidden h x y r a : 0 < r -> (-2147483648 <= x <= 2147483647)%Z -> (-2147483648 <= y <= 2147483647)%Z -> shadow_position h x y r a a = Ret (x, y).
Proof.
  intros R X Y. unfold shadow_position. replace (IZR x + h * tz a / r * sa a - h * tz a / r * sa a) with (IZR x) by ring. replace (IZR y - h * tz a / r * ca a + h * tz a / r * ca a) with (IZR y) by ring.
  rewrite (int_of_in _ x X) by (rewrite Rminus_eq_0, Rabs_R0; lra). rewrite (int_of_in _ y Y) by (rewrite Rminus_eq_0, Rabs_R0; lra). reflexivity.
Qed.
Theorem C143_on_the_ground x y r s v : 0 < r -> (-2147483648 <= x <= 2147483647)%Z -> (-2147483648 <= y <= 2147483647)%Z -> shadow_position 0 x y r s v = Ret (x, y).
Proof.
  intros R X Y. unfold shadow_position. replace (IZR x + 0 * tz v / r * sa v - 0 * tz s / r * sa s) with (IZR x) by (field; lra). replace (IZR y - 0 * tz v / r * ca v + 0 * tz s / r * ca s) with (IZR y) by (field; lra).
  rewrite (int_of_in _ x X) by (rewrite Rminus_eq_0, Rabs_R0; lra). rewrite (int_of_in _ y Y) by (rewrite Rminus_eq_0, Rabs_R0; lra). reflexivity.
Qed.

Lemma tested_range step bmax base b : 1 / 500 <= step -> 200 <= base -> bmax <= 12000 -> tested step bmax base b -> base <= b <= bmax.
Proof.
  intros S B M T. induction T as [base L|base b L T IH]; [lra|].
  assert (N : base <= rnd32 (base + step)) by (destruct (Rle_or_lt step 1000000); [pose proof (next_up base step); lra|pose proof (next_big base step); lra]). specialize (IH ltac:(lra)). lra.
Qed.
Lemma objects_sound f sc step low high l : forall d d', match_objects f sc step low high l d = Ret (Some d') -> forall p, In p d' -> In p d \/ exists c b P, In c l /\ tested_of step low high c b /\ project sc (lifted c b) = Ret P /\ 0 < match_of sc (id c) P /\ In p (keep P).
Proof.
  induction l as [|c l IH]; intros d d' H p I; cbn [match_objects] in H; [injection H as <-; auto|]. apply bind_ret in H as (r & R & H). destruct r as [r|]; [|discriminate]. destruct (IH r d' H p I) as [J|(c' & b & P & A & B)].
  - apply object_spec in R as (_ & R & _). destruct (R p J) as [K|(b & P & K)]; [auto|]. right. exists c, b, P. split; [left|]; auto.
  - right. exists c', b, P. split; [right|]; auto.
Qed.
Lemma objects_mono f sc step low high l : forall d d', match_objects f sc step low high l d = Ret (Some d') -> forall p, In p d -> In p d'.
Proof.
  induction l as [|c l IH]; intros d d' H p I; cbn [match_objects] in H; [injection H as <-; auto|]. apply bind_ret in H as (r & R & H). destruct r as [r|]; [|discriminate]. apply (IH r d' H). apply object_spec in R as (_ & _ & R & _). auto.
Qed.
Lemma objects_each f sc step low high l : forall d d' c, match_objects f sc step low high l d = Ret (Some d') -> In c l -> exists e e', match_object f sc step low high c e = Ret (Some e') /\ forall p, In p e' -> In p d'.
Proof.
  induction l as [|a l IH]; intros d d' c H I; [contradiction|]. cbn [match_objects] in H. apply bind_ret in H as (r & R & H). destruct r as [r|]; [|discriminate]. destruct I as [->|I]; [|eapply IH; eauto]. exists d, r. split; [exact R|]. apply (objects_mono _ _ _ _ _ _ _ _ H).
Qed.
Lemma keep_casts sc c b P p : sane sc -> project sc (lifted c b) = Ret P -> In p (keep P) -> exists h x y, part c b h x y /\ casts sc h x y p.
Proof. intros S E I. apply keep_in in I as (I & N). apply (project_in sc _ P E) in I as (h & x & y & I & J). exists h, x, y. split; [apply lifted_part; exact I|]. apply project1_casts; auto. Qed.
Lemma casts_keep sc c b P h x y p : sane sc -> project sc (lifted c b) = Ret P -> part c b h x y -> casts_inside sc h x y p -> In p (keep P).
Proof. intros S E I J. destruct (project1_inside sc h x y p S J) as (A & B). apply keep_in. split; [|exact B]. apply (project_in sc _ P E). exists h, x, y. split; [apply lifted_part; exact I|exact A]. Qed.

(** Every shadow pixel is hit by the shadow of a cloud pixel, for a tested base height of the cloud between 200 m and 12 km, at which the shadow matches somewhere. *)
Theorem C143_shadow_of_cloud f sc tzmid low high l d p : sane sc -> 1 / 500 <= rnd32 (50 / tzmid) -> shadow_matching f sc tzmid low high l = Ret (Some d) -> In p d ->
  exists c b h x y m, In c l /\ base_min low (basetemp c) <= b <= base_max high (basetemp c) /\ 200 <= b <= 12000 /\ part c b h x y /\ casts sc h x y p /\ matches sc c b m /\ 0 < m.
Proof.
  intros S ST H I. unfold shadow_matching in H. destruct (objects_sound _ _ _ _ _ _ _ _ H p I) as [[]|(c & b & P & C & T & E & M & K)]. destruct (keep_casts sc c b P p S E K) as (h & x & y & A & B). exists c, b, h, x, y, (match_of sc (id c) P).
  pose proof (base_min_ge low (basetemp c)) as G1. pose proof (base_max_le high (basetemp c)) as G2. pose proof (tested_range _ _ _ _ ST G1 G2 T). split; [exact C|]. split; [auto|]. split; [lra|]. split; [exact A|]. split; [exact B|]. split; [exists P; auto|exact M].
Qed.
(** The shadow is drawn at every base height with an excellent match. *)
Theorem C143_excellent f sc tzmid low high l d c b m : sane sc -> shadow_matching f sc tzmid low high l = Ret (Some d) -> In c l -> tested_of (rnd32 (50 / tzmid)) low high c b -> matches sc c b m -> 85 / 100 <= m -> whole sc c b d.
Proof.
  intros S H C T (P & E & M) G. destruct (objects_each _ _ _ _ _ _ _ _ c H C) as (e & e' & R & K). apply object_spec in R as (_ & _ & _ & R & _). intros h x y p A B. apply K. apply (R b P T E); [lra|]. eapply casts_keep; eauto.
Qed.
(** Every cloud with any match gets a shadow, at a base height with the best match. *)
Theorem C143_best f sc tzmid low high l d c b m : sane sc -> shadow_matching f sc tzmid low high l = Ret (Some d) -> In c l -> tested_of (rnd32 (50 / tzmid)) low high c b -> matches sc c b m -> 0 < m ->
  exists b0 m0, tested_of (rnd32 (50 / tzmid)) low high c b0 /\ matches sc c b0 m0 /\ (forall b' m', tested_of (rnd32 (50 / tzmid)) low high c b' -> matches sc c b' m' -> m' <= m0) /\ whole sc c b0 d.
Proof.
  intros S H C T M G. destruct (objects_each _ _ _ _ _ _ _ _ c H C) as (e & e' & R & K). apply object_spec in R as (_ & _ & _ & _ & R). destruct (R b m T M G) as (b0 & P0 & T0 & E0 & B0 & D0). exists b0, (match_of sc (id c) P0). split; [exact T0|]. split; [exists P0; auto|]. split; [exact B0|].
  intros h x y p A B. apply K, D0. eapply casts_keep; eauto.
Qed.
(** Without any match there is no shadow. *)
Theorem C143_none f sc tzmid low high l d : shadow_matching f sc tzmid low high l = Ret (Some d) -> (forall c b m, In c l -> tested_of (rnd32 (50 / tzmid)) low high c b -> matches sc c b m -> m <= 0) -> d = [].
Proof.
  intros H N. destruct d as [|p d]; [reflexivity|exfalso]. destruct (objects_sound _ _ _ _ _ _ _ _ H p (or_introl eq_refl)) as [[]|(c & b & P & C & T & E & M & K)]. specialize (N c b (match_of sc (id c) P) C T (ex_intro _ P (conj E eq_refl))). lra.
Qed.
(** The search over the base height ends if the sun is above the horizon (tangent of the zenith up to 25000: 89.997 degrees). *)
Theorem C143_ends tzmid low high : 1 / 500 <= rnd32 (50 / tzmid) -> exists n, forall f, (n < f)%nat -> forall sc l, shadow_matching f sc tzmid low high l <> Ret None.
Proof. intros S. destruct (objects_end _ low high S) as (n & N). exists n. intros f F sc l. apply N. exact F. Qed.
Theorem C143_sun_up tzmid : 0 < tzmid <= 24000 -> 1 / 500 <= rnd32 (50 / tzmid).
Proof.
  intros T. assert (1 / 480 <= 50 / tzmid) by (apply Rmult_le_reg_r with tzmid; [lra|]; unfold Rdiv at 2; rewrite Rmult_assoc, Rinv_l by lra; lra).
  apply Rle_trans with (rnd32 (1 / 480)); [|apply rnd32_le; exact H]. pose proof (rnd32_err (1 / 480) 1 ltac:(lra)) as E. rewrite Rabs_pos_eq in E by lra. specialize (E ltac:(lra)). apply Rabs_le_inv in E. lra.
Qed.

(** With the sun below the horizon it never ends. *)
Definition night : scene := {| nx := 100; ny := 100; res := 30; sun := fun _ _ => {| tz := -625 / 100; sa := 0; ca := 1 |}; view := fun _ _ => {| tz := 0; sa := 0; ca := 1 |}; spr := fun _ => 0%Z; cld := fun _ => false; flatwater := fun _ => false; ccl := fun _ => 0%Z; thr := 2000 |}.
Definition lone : cloud := {| id := 0; pix := [(50, 50, 0); (51, 50, 0); (52, 50, 0)]%Z; basetemp := None |}.
Lemma int_of_def x : Rabs x <= 2000000000 -> exists z, int_of x = Ret z.
Proof.
  intros H. exists (Znearest (Zle_bool 0) x). unfold int_of. pose proof (Znearest_half (Zle_bool 0) x) as N. apply Rabs_le_inv in H. apply Rabs_le_inv in N. set (z := Znearest (Zle_bool 0) x) in *. assert (-2147483648 <= z)%Z by (apply le_IZR; lra). assert (z <= 2147483647)%Z by (apply le_IZR; lra).
  replace ((-2147483648 <=? z) && (z <=? 2147483647))%Z with true by lia. reflexivity.
Qed.
Definition lowest : R := - (IZR 8388609 * bpow radix2 5).
Lemma lowest_val : lowest = - 268435488. Proof. unfold lowest. change (bpow radix2 5) with 32. lra. Qed.
Lemma night_step base : lowest <= base <= 12000 -> lowest <= rnd32 (base + -8) <= 12000.
Proof.
  intros B. split.
  - apply Rle_trans with (rnd32 (lowest + -8)); [|apply rnd32_le; lra]. right. replace (lowest + -8) with (- (IZR 8388609 * bpow radix2 5 + 8)) by (unfold lowest; ring). rewrite rnd32_opp. unfold lowest. f_equal. symmetry. apply rnd32_near; [lia|lia|]. change (bpow radix2 5) with 32. apply Rabs_def1; lra.
  - change 12000 with (IZR 12000). rewrite <- (rnd32_int 12000) by (cbn; lia). apply rnd32_le. lra.
Qed.
Lemma night_project1 base x : (0 <= x <= 100)%Z -> lowest <= base <= 12000 -> exists p, project1 night base x 50 = Ret p.
Proof.
  intros X B. rewrite lowest_val in B. unfold project1, shadow_position, night. cbn [res sun view tz sa ca nx ny].
  assert (X' : 0 <= IZR x <= 100) by (split; apply IZR_le; lia). destruct (int_of_def (IZR x + base * 0 / 30 * 0 - base * (-625 / 100) / 30 * 0)) as (a & ->); [apply Rabs_le; lra|]. destruct (int_of_def (50 - base * 0 / 30 * 1 + base * (-625 / 100) / 30 * 1)) as (b & ->); [apply Rabs_le; lra|]. cbn [bind]. eexists. reflexivity.
Qed.
Theorem C143_night_refuted : forall f, shadow_matching f night (-625 / 100) 0 0 [lone] = Ret None.
Proof.
  assert (K : forall f base best bestP drawn, lowest <= base <= 12000 -> lift f night lone base 12000 (-8) best bestP drawn = Ret None).
  { intros f. induction f as [|f IH]; intros base best bestP drawn B; cbn [lift]; [reflexivity|]. rewrite Rle_bool_true by lra. unfold lifted, lone. cbn [pix map fst snd basetemp above id project]. rewrite !Rplus_0_l.
    destruct (night_project1 base 50 ltac:(lia) B) as (p1 & ->). destruct (night_project1 base 51 ltac:(lia) B) as (p2 & ->). destruct (night_project1 base 52 ltac:(lia) B) as (p3 & ->). cbn [bind]. pose proof (night_step base B). destruct (Rlt_bool _ _); apply IH; auto. }
  intros f. unfold shadow_matching. replace (rnd32 (50 / (-625 / 100))) with (-8) by (replace (50 / (-625 / 100)) with (IZR (-8)) by lra; symmetry; apply rnd32_int; cbn; lia).
  cbn [match_objects]. unfold match_object. cbn [basetemp lone base_min base_max]. rewrite Rlt_bool_false by lra. rewrite K by (rewrite lowest_val; lra). reflexivity.
Qed.
(** The match is not a fraction: it exceeds 1 where the shadow probability is high. *)
Definition dark : scene := {| nx := 100; ny := 100; res := 30; sun := fun _ _ => {| tz := 1; sa := 0; ca := 1 |}; view := fun _ _ => {| tz := 0; sa := 0; ca := 1 |}; spr := fun _ => 9000%Z; cld := fun p => (5050 <=? p)%Z && (p <=? 5052)%Z; flatwater := fun _ => false; ccl := fun p => if ((5050 <=? p) && (p <=? 5052))%Z then 1%Z else 0%Z; thr := 2000 |}.
Lemma dark_int x z : (Z.abs z <= 1000)%Z -> Rabs (IZR z - x) < / 2 -> int_of x = Ret z.
Proof. intros Z H. apply int_of_in; [lia|exact H]. Qed.
Lemma dark_project1 x : project1 dark 200 x 50 = Ret (5700 + x)%Z \/ ~ (0 <= x < 100)%Z.
Proof.
  destruct (Z_lt_le_dec x 0); [right; lia|]. destruct (Z_lt_le_dec x 100); [left|right; lia]. unfold project1, shadow_position, dark. cbn [res sun view tz sa ca nx ny].
  rewrite (dark_int _ x) by (lia || (apply Rabs_def1; lra)). rewrite (dark_int _ 57) by (lia || (apply Rabs_def1; lra)). cbn [bind fst snd]. replace ((57 <? 0) || (100 <=? 57) || (x <? 0) || (100 <=? x))%Z with false by lia. f_equal.
Qed.
Lemma dark_project : project dark (lifted lone 200) = Ret [5750; 5751; 5752]%Z.
Proof.
  unfold lifted, lone. cbn [pix map fst snd basetemp above project]. rewrite !Rplus_0_l. destruct (dark_project1 50) as [->|]; [|lia]. destruct (dark_project1 51) as [->|]; [|lia]. destruct (dark_project1 52) as [->|]; [|lia]. reflexivity.
Qed.
Lemma dark_match : match_of dark 0 [5750; 5751; 5752]%Z = 12.
Proof. unfold match_of. change (total_count dark 0 [5750; 5751; 5752]%Z) with 3%Z. cbn [Z.ltb Z.compare]. unfold shadow_sum, hits, dark. cbn [Z.eqb thr spr cld flatwater]. rewrite Rlt_bool_true by lra. cbn [andb negb]. cbn. lra. Qed.
Theorem C143_fraction_refuted : exists sc c b m, sane sc /\ (forall p, 0 <= spr sc p <= 10000)%Z /\ tested_of 50 0 0 c b /\ matches sc c b m /\ 1 < m.
Proof.
  exists dark, lone, 200, 12. split; [unfold sane, dark; cbn [res nx ny]; split; [lra|lia]|]. split; [intros p; cbn; lia|]. split; [apply t_here; cbn; lra|]. split; [|lra]. exists [5750; 5751; 5752]%Z. split; [apply dark_project|apply dark_match].
Qed.
(** At 10 m a cloud of four pixels can fall between the pixels that are used; then it has no shadow, whatever the image. *)
Theorem C143_sampling_refuted : (forall i j, In (i, j) [(1, 1); (1, 2); (2, 1); (2, 2)]%Z -> sampled 10 i j = false) /\
  forall f sc step low high i bt d d', match_object f sc step low high {| id := i; pix := []; basetemp := bt |} d = Ret (Some d') -> forall p, In p d' <-> In p d.
Proof.
  split.
  - assert (K : Zfloor (30 / 10) = 3%Z) by (replace (30 / 10) with 3 by lra; apply (Zfloor_IZR 3)). intros i j I. unfold sampled. rewrite K, Rlt_bool_true by lra. cbn [In] in I. repeat (destruct I as [I|I]; [injection I as <- <-; reflexivity|]). contradiction.
  - intros f sc step low high i bt d d' H p. apply object_spec in H as (_ & A & B & _). split; [|apply B]. intros I. destruct (A p I) as [?|(b & P & _ & E & _ & K)]; [auto|]. cbn in E. injection E as <-. destruct K.
Qed.

(** The hypotheses are met: the cloud above with the dark ground around it. Its base is between 200 and 210 m by its temperature. *)
Definition warm : cloud := {| id := 0; pix := [(50, 50, 28000); (51, 50, 28000); (52, 50, 28000)]%Z; basetemp := Some 28000 |}.
Example C143_example : shadow_matching 5 dark 1 28000 27621 [warm] = Ret (Some [5750; 5751; 5752]%Z) /\ sane dark /\ 1 / 500 <= rnd32 (50 / 1).
Proof.
  assert (ST : rnd32 (50 / 1) = 50) by (replace (50 / 1) with (IZR 50) by lra; apply rnd32_int; cbn; lia). split; [|split; [unfold sane, dark; cbn [res nx ny]; split; [lra|lia]|rewrite ST; lra]].
  unfold shadow_matching. rewrite ST. cbn [match_objects]. unfold match_object. cbn [basetemp warm base_min base_max].
  assert (B1 : rnd32 ((28000 - 400 - 28000) / (98 / 100)) < 200). { apply Rle_lt_trans with (rnd32 0); [apply rnd32_le; lra|rewrite rnd32_0; lra]. } rewrite (Rlt_bool_true _ _ B1).
  replace ((27621 + 400 - 28000) / (10 / 100)) with (IZR 210) by lra. rewrite (rnd32_int 210) by (cbn; lia). rewrite (Rlt_bool_false 12000 210) by lra. rewrite (Rlt_bool_false 210 200) by lra. cbn [lift]. rewrite (Rle_bool_true 200 210) by lra.
  assert (LW : lifted warm 200 = lifted lone 200). { unfold lifted, warm, lone. cbn [pix map fst snd basetemp above]. rewrite Rlt_bool_false by lra. replace ((28000 - 28000) / (65 / 100) + 200) with (0 + 200) by lra. reflexivity. }
  rewrite LW, dark_project. cbn [bind id warm]. rewrite dark_match. rewrite (Rle_bool_true (85 / 100) 12) by lra. rewrite (Rlt_bool_true 0 12) by lra. replace (200 + 50) with (IZR 250) by lra. rewrite (rnd32_int 250) by (cbn; lia). rewrite (Rle_bool_false 250 210) by lra. cbn [bind]. rewrite (Rlt_bool_false 12 (85 / 100)) by lra. reflexivity.
Qed.

Print Assumptions C143_position.
Print Assumptions C143_hidden.
Print Assumptions C143_on_the_ground.
Print Assumptions C143_shadow_of_cloud.
Print Assumptions C143_excellent.
Print Assumptions C143_best.
Print Assumptions C143_none.
Print Assumptions C143_ends.
Print Assumptions C143_sun_up.
Print Assumptions C143_night_refuted.
Print Assumptions C143_fraction_refuted.
Print Assumptions C143_sampling_refuted.
