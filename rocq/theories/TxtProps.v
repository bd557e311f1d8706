(** C95: texture (grey-scale morphology). *)
From Verif Require Import Base BaseFacts Loops LoopsFacts TxtModel TxtSpec TxtProofs.
From Coq Require Import ZifyBool ZifyNat.
#[local] Open Scope Z_scope.

(** The structuring element of radius [r] is an element in the sense of the specification, keeps the
    radius, contains the disc of radius [r] and exceeds it by at most half a pixel. *)
Lemma half_width_spec r a : - r <= a <= r -> let s := half_width r a in 0 <= s <= r /\ 4 * s * s - 4 * s + 1 <= 4 * (r * r - a * a) + 1 /\ r * r - a * a <= s * s + s.
Proof.
  intros A. unfold half_width. set (q := r * r - a * a). assert (0 <= q <= r * r) as Q by (unfold q; nia).
  pose proof (Z.sqrt_spec q (proj1 Q)) as S. pose proof (Z.sqrt_nonneg q) as N. unfold Z.succ in S. cbv zeta in *. cbv zeta. set (s := Z.sqrt q) in *.
  destruct (s * s + s <? q) eqn:C; [|nia]. assert (s * s + s < q) by lia. clear C. nia.
Qed.
Lemma ellipse_In r a b : In (a, b) (ellipse r) <-> - r <= a <= r /\ - half_width r a <= b <= half_width r a.
Proof.
  unfold ellipse. rewrite in_flat_map. split.
  - intros (x & X & I). apply in_map_iff in I. destruct I as (y & E & Y). injection E as <- <-. now rewrite zrange_In in X, Y.
  - intros [A B]. exists a. rewrite zrange_In. split; auto. apply in_map_iff. exists b. rewrite zrange_In. auto.
Qed.
Theorem C95_structuring_element : forall r, 0 <= r -> element (ellipse r) /\ within_radius (ellipse r) r /\
  (forall a b, a * a + b * b <= r * r -> In (a, b) (ellipse r)) /\
  (forall a b, In (a, b) (ellipse r) -> b = 0 \/ 4 * a * a + (2 * Z.abs b - 1) * (2 * Z.abs b - 1) <= 4 * r * r + 1).
Proof.
  intros r R. assert (forall a, half_width r (- a) = half_width r a) as Ev by (intros a; unfold half_width; now rewrite Z.mul_opp_opp). split; [|split; [|split]].
  - split; [apply ellipse_In; pose proof (half_width_spec r 0 ltac:(lia)); cbv zeta in *; lia|].
    intros a b. rewrite !ellipse_In, Ev. lia.
  - intros a b. rewrite ellipse_In. intros [A B]. pose proof (half_width_spec r a A). cbv zeta in *. lia.
  - intros a b D. apply ellipse_In. assert (- r <= a <= r) as A by nia. split; auto. pose proof (half_width_spec r a A) as (H1 & _ & H3). cbv zeta in *. nia.
  - intros a b. rewrite ellipse_In. intros [A B]. destruct (Z.eq_dec b 0) as [|N]; auto. right. pose proof (half_width_spec r a A) as (H1 & H2 & _). cbv zeta in *.
    assert (1 <= Z.abs b <= half_width r a) as C by lia. revert C. generalize (Z.abs b). generalize dependent (half_width r a). intros s _ H1 H2 c C. nia.
Qed.

(** Erosion and dilation: smallest and largest value of the pixels reached in ITERATIONS steps. *)
Theorem C95_erosion_dilation : forall K iter nx ny img p, element K -> 0 < nx -> 0 < ny -> inside nx ny p ->
  smallest (reach K nx ny (Z.to_nat iter) p) (val img) (val (operation ERO K iter nx ny img) p) /\
  largest (reach K nx ny (Z.to_nat iter) p) (val img) (val (operation DIL K iter nx ny img) p).
Proof. intros. split; [now apply erodes_val|now apply dilates_val]. Qed.

Section Ops.
Context (K : list (Z * Z)) (iter nx ny : Z) (EL : element K) (NX : 0 < nx) (NY : 0 < ny).
Lemma op_len m img : length img = Z.to_nat (nx * ny) -> length (operation m K iter nx ny img) = Z.to_nat (nx * ny).
Proof.
  intros L. destruct m; unfold operation, diff, erode, dilate; rewrite ?map_length, ?combine_length; rewrite ?times_len; auto; try (rewrite ?times_len; lia).
Qed.
End Ops.
Ltac lens := unfold erode, dilate; repeat (apply times_len); auto; try lia.

(** Opening never brightens, closing never darkens; the differences are what their names say. *)
Theorem C95_order : forall K iter nx ny img p, element K -> 0 < nx -> 0 < ny -> length img = Z.to_nat (nx * ny) -> inside nx ny p ->
  let v m := val (operation m K iter nx ny img) p in
  v ERO <= v OPN <= val img p /\ val img p <= v CLS <= v DIL /\
  v GRD = Z.min 32767 (v DIL - v ERO) /\ v THT = Z.min 32767 (val img p - v OPN) /\ v BHT = Z.min 32767 (v CLS - val img p) /\
  0 <= v GRD /\ 0 <= v THT /\ 0 <= v BHT.
Proof.
  intros K iter nx ny img p EL NX NY L P. cbv zeta. unfold operation.
  set (E := times iter (erode K nx ny)). set (D := times iter (dilate K nx ny)).
  assert (forall x, length x = Z.to_nat (nx * ny) -> length (E x) = Z.to_nat (nx * ny)) as LE by (intros; unfold E; lens).
  assert (forall x, length x = Z.to_nat (nx * ny) -> length (D x) = Z.to_nat (nx * ny)) as LD by (intros; unfold D; lens).
  rewrite !(diff_val K nx ny) by auto.
  assert (val (D (E img)) p <= val img p) as H1 by now apply open_le.
  assert (val img p <= val (E (D img)) p) as H2 by now apply close_ge.
  assert (val (E img) p <= val (D (E img)) p) as H3. { destruct (dilates_val K nx ny EL NX (E img) p iter P) as [_ B]. apply B. now apply reach_self. }
  assert (val (E (D img)) p <= val (D img) p) as H4. { destruct (erodes_val K nx ny EL NX (D img) p iter P) as [_ B]. apply B. now apply reach_self. }
  unfold sat_short. lia.
Qed.
(** A second pass changes nothing. *)
Theorem C95_idempotent : forall K iter nx ny img m, element K -> 0 < nx -> 0 < ny -> length img = Z.to_nat (nx * ny) -> m = OPN \/ m = CLS ->
  operation m K iter nx ny (operation m K iter nx ny img) = operation m K iter nx ny img.
Proof. intros K iter nx ny img m EL NX NY L [-> | ->]; [now apply open_idem|now apply close_idem]. Qed.
(** A brighter image gives brighter results. *)
Theorem C95_monotone : forall K iter nx ny a b m, element K -> 0 < nx -> 0 < ny -> m = ERO \/ m = DIL \/ m = OPN \/ m = CLS ->
  (forall p, inside nx ny p -> val a p <= val b p) -> forall p, inside nx ny p -> val (operation m K iter nx ny a) p <= val (operation m K iter nx ny b) p.
Proof.
  intros K iter nx ny a b m EL NX NY M H p P.
  destruct M as [-> |[-> |[-> | ->]]]; cbn [operation].
  - now apply erodes_mono.
  - now apply dilates_mono.
  - apply dilates_mono; auto. now apply erodes_mono.
  - apply erodes_mono; auto. now apply dilates_mono.
Qed.
(** What is written: nodata where the feature is not valid and FEATURE_EXCLUDE is set, else the result. *)
Theorem C95_written : forall m K iter nx ny exclude nodata msk img p b, 0 < nx -> 0 < ny -> length img = Z.to_nat (nx * ny) -> length msk = length img ->
  inside nx ny p -> nth_error msk (Z.to_nat p) = Some b ->
  val (texture m K iter nx ny exclude nodata msk img) p = if exclude && negb b then nodata else val (operation m K iter nx ny img) p.
Proof.
  intros m K iter nx ny exclude nodata msk img p b NX NY L Lm P B. unfold texture, val. set (f := fun mv : bool * Z => _).
  pose proof (op_len K iter nx ny NX NY m img L) as Lo.
  rewrite nth_indep with (d' := f (false, 0)) by (unfold inside in P; rewrite map_length, combine_length; lia).
  rewrite map_nth, combine_nth by congruence. rewrite (nth_error_nth _ _ false B). unfold f. cbn [fst snd]. destruct b, exclude; reflexivity.
Qed.
(** The module works on strips of the tile that overlap by RADIUS x ITERATIONS: erosion, dilation and gradient
    of a strip are those of the tile.  Missing: opening, closing and their differences need twice the overlap. *)
Theorem C95_strips_partial : forall K r iter nx ny a n img p m, element K -> within_radius K r -> 0 <= r -> 0 <= iter -> 0 < nx -> 0 < n -> 0 <= a -> a + n <= ny ->
  length img = Z.to_nat (nx * ny) -> inside nx n p ->
  (m = ERO \/ m = DIL \/ m = GRD -> far a n ny (overlap r iter) (p / nx)) ->
  (m = OPN \/ m = CLS \/ m = THT \/ m = BHT -> far a n ny (2 * overlap r iter) (p / nx)) ->
  val (operation m K iter nx n (strip nx a n img)) p = val (operation m K iter nx ny img) (p + a * nx).
Proof.
  intros K r iter nx ny a n img p m EL WR R0 I0 NX NN A AN L P F1 F2. unfold overlap in *.
  pose proof (strip_len nx ny a n NX NN A AN img L) as Ls.
  assert (inside nx ny (p + a * nx)) as P' by now apply (up_inside nx ny a n).
  set (st := strip nx a n img) in *.
  assert (far a n ny (r * iter) (p / nx)) as F. { destruct m; try (apply F1; auto; fail); assert (far a n ny (2 * (r * iter)) (p / nx)) as F by (apply F2; auto); unfold far in *; nia. }
  assert (val (times iter (erode K nx n) st) p = val (times iter (erode K nx ny) img) (p + a * nx)) as HE.
  { apply (erodes_strip K nx ny a n EL NX NN A AN r WR R0); auto; try (intros q Q _; now apply (val_strip nx ny a n)). }
  assert (val (times iter (dilate K nx n) st) p = val (times iter (dilate K nx ny) img) (p + a * nx)) as HD.
  { apply (dilates_strip K nx ny a n EL NX NN A AN r WR R0); auto; try (intros q Q _; now apply (val_strip nx ny a n)). }
  assert (far a n ny (2 * (r * iter)) (p / nx) -> val (times iter (dilate K nx n) (times iter (erode K nx n) st)) p = val (times iter (dilate K nx ny) (times iter (erode K nx ny) img)) (p + a * nx)) as HO.
  { intros G. apply (dilates_strip K nx ny a n EL NX NN A AN r WR R0); auto; [lens|]. intros q Q Rq.
    apply (erodes_strip K nx ny a n EL NX NN A AN r WR R0); auto; [|intros t Qt _; now apply (val_strip nx ny a n)].
    apply (far_reach K nx ny a n NX NN A AN r WR R0 (r * iter) (Z.to_nat iter) p q); auto; [nia|]. rewrite Z2Nat.id by auto. replace (r * iter + r * iter) with (2 * (r * iter)) by lia. auto. }
  assert (far a n ny (2 * (r * iter)) (p / nx) -> val (times iter (erode K nx n) (times iter (dilate K nx n) st)) p = val (times iter (erode K nx ny) (times iter (dilate K nx ny) img)) (p + a * nx)) as HC.
  { intros G. apply (erodes_strip K nx ny a n EL NX NN A AN r WR R0); auto; [lens|]. intros q Q Rq.
    apply (dilates_strip K nx ny a n EL NX NN A AN r WR R0); auto; [|intros t Qt _; now apply (val_strip nx ny a n)].
    apply (far_reach K nx ny a n NX NN A AN r WR R0 (r * iter) (Z.to_nat iter) p q); auto; [nia|]. rewrite Z2Nat.id by auto. replace (r * iter + r * iter) with (2 * (r * iter)) by lia. auto. }
  pose proof (val_strip nx ny a n NX NN A AN img p P L) as HV. fold st in HV.
  destruct m; cbn [operation]; auto.
  - rewrite (diff_val K nx n), (diff_val K nx ny) by (auto; lens). congruence.
  - rewrite (diff_val K nx n), (diff_val K nx ny) by (auto; lens). rewrite HO, HV; auto.
  - rewrite (diff_val K nx n), (diff_val K nx ny) by (auto; lens). rewrite HC, HV; auto.
Qed.
(** One column, radius 1: row 2 of the tile, read with an overlap of one row, is opened to 5 instead of 0. *)
Theorem C95_strips_refuted : exists nx ny a n img p r iter, 0 < nx /\ 0 < n /\ 0 <= a /\ a + n <= ny /\ length img = Z.to_nat (nx * ny) /\ inside nx n p /\
  far a n ny (overlap r iter) (p / nx) /\
  val (operation OPN (ellipse r) iter nx n (strip nx a n img)) p <> val (operation OPN (ellipse r) iter nx ny img) (p + a * nx).
Proof. exists 1, 5, 1, 3, [0; 5; 5; 0; 0], 1, 1, 1. vm_compute. intuition congruence. Qed.
(** The value of a valid pixel next to a pixel without data is nodata: missing values take part in the operations. *)
Theorem C95_only_valid_pixels_refuted : exists nx ny img msk p nodata, length img = Z.to_nat (nx * ny) /\ length msk = length img /\
  (forall q, inside nx ny q -> nth (Z.to_nat q) msk false = true <-> val img q <> nodata) /\
  nth (Z.to_nat p) msk false = true /\ inside nx ny p /\ val (texture ERO (ellipse 1) 1 nx ny true nodata msk img) p = nodata.
Proof.
  exists 3, 1, [100; 200; -9999], [true; true; false], 1, (-9999). repeat split; try reflexivity; try (intro; discriminate).
  - destruct (Z.to_nat q) as [|[|[|k]]] eqn:E; cbn; intros; unfold val; rewrite E; cbn; try lia; try discriminate. destruct k; discriminate.
  - unfold val. destruct (Z.to_nat q) as [|[|[|k]]] eqn:E; cbn; intros; try lia; auto. unfold inside in H. lia.
Qed.
(** Without FEATURE_EXCLUDE the processing mask has no effect: pixels outside of it are written. *)
Theorem C95_mask_unused : forall m K iter nx ny nodata msk img, 0 < nx -> 0 < ny -> length img = Z.to_nat (nx * ny) -> length msk = length img ->
  texture m K iter nx ny false nodata msk img = operation m K iter nx ny img.
Proof.
  intros m K iter nx ny nodata msk img NX NY L Lm. unfold texture. pose proof (op_len K iter nx ny NX NY m img L) as Lo.
  rewrite <- L, <- Lm in Lo. generalize dependent (operation m K iter nx ny img). clear. induction msk as [|b msk IH]; intros [|v l] E; try discriminate; cbn; auto.
  rewrite andb_false_r. f_equal. apply IH. injection E; auto.
Qed.
Theorem C95_mask_refuted : exists nx ny img msk p nodata, length img = Z.to_nat (nx * ny) /\ length msk = length img /\ inside nx ny p /\
  nth (Z.to_nat p) msk true = false /\ val (texture DIL (ellipse 1) 1 nx ny false nodata msk img) p <> nodata.
Proof. exists 2, 1, [100; 200], [false; true], 0, (-9999). vm_compute. intuition congruence. Qed.
(** A 4 x 3 image, radius 1 (a cross), one iteration. *)
Example C95_case : element (ellipse 1) /\ ellipse 1 = [(-1, 0); (0, -1); (0, 0); (0, 1); (1, 0)] /\
  let img := [9; 9; 9; 1; 9; 9; 9; 2; 9; 9; 9; 3] in
  operation ERO (ellipse 1) 1 4 3 img = [9; 9; 1; 1; 9; 9; 2; 1; 9; 9; 3; 2] /\
  operation OPN (ellipse 1) 1 4 3 img = [9; 9; 9; 1; 9; 9; 9; 2; 9; 9; 9; 3] /\
  operation THT (ellipse 1) 1 4 3 [0; 0; 0; 0; 0; 7; 0; 0; 0; 0; 0; 0] = [0; 0; 0; 0; 0; 7; 0; 0; 0; 0; 0; 0].
Proof. split; [apply (C95_structuring_element 1); lia|]. vm_compute. auto. Qed.

Print Assumptions C95_structuring_element. Print Assumptions C95_erosion_dilation. Print Assumptions C95_order. Print Assumptions C95_idempotent. Print Assumptions C95_monotone.
Print Assumptions C95_written. Print Assumptions C95_strips_partial. Print Assumptions C95_strips_refuted. Print Assumptions C95_only_valid_pixels_refuted. Print Assumptions C95_mask_unused. Print Assumptions C95_mask_refuted.
