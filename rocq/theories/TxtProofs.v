(** Proofs on grey-scale morphology. *)
From Verif Require Import Base BaseFacts Loops LoopsFacts TxtModel TxtSpec.
From Coq Require Import ZifyBool ZifyNat.
#[local] Open Scope Z_scope.

Lemma row_of_pos nx y x : 0 <= x < nx -> (y * nx + x) / nx = y.
Proof. intros H. rewrite Z.add_comm, Z.div_add by lia. rewrite Z.div_small by lia. lia. Qed.
Lemma col_of_pos nx y x : 0 <= x < nx -> (y * nx + x) mod nx = x.
Proof. intros H. rewrite Z.add_comm, Z.mod_add by lia. apply Z.mod_small; lia. Qed.
Lemma pos_of nx q : 0 < nx -> q / nx * nx + q mod nx = q.
Proof. intros H. pose proof (Z.div_mod q nx ltac:(lia)). lia. Qed.
Lemma pos_inside nx ny y x : 0 <= y < ny -> 0 <= x < nx -> inside nx ny (y * nx + x).
Proof. unfold inside. intros. nia. Qed.
Lemma inside_rows nx ny q : 0 < nx -> inside nx ny q -> 0 <= q / nx < ny /\ 0 <= q mod nx < nx.
Proof.
  unfold inside. intros X [A B]. split; [|apply Z.mod_pos_bound; auto]. split; [apply Z.div_pos; lia|].
  apply Z.div_lt_upper_bound; lia.
Qed.

Section Img.
Context (K : list (Z * Z)) (nx ny : Z) (EL : element K) (NX : 0 < nx) (NY : 0 < ny).
Let T := touches K nx ny.

Lemma around_In p q : inside nx ny p -> In q (around K nx ny p) <-> T p q.
Proof.
  intros P. destruct (inside_rows _ _ _ NX P) as [Pr Pc]. unfold around, T, touches. rewrite in_map_iff. split.
  - intros ((a, b) & E & I). apply filter_In in I. destruct I as [I C]. cbn [fst snd] in *. subst q.
    assert (0 <= p / nx + a < ny /\ 0 <= p mod nx + b < nx) as [A B] by lia.
    split; [now apply pos_inside|]. exists (a, b). split; auto. unfold at_offset. cbn [fst snd]. rewrite row_of_pos, col_of_pos by auto. auto.
  - intros (I & (a, b) & D & O1 & O2). cbn [fst snd] in *. destruct (inside_rows _ _ _ NX I) as [Qr Qc]. exists (a, b). cbn [fst snd]. split.
    + rewrite <- O1, <- O2. now apply pos_of.
    + apply filter_In. split; auto. cbn [fst snd]. lia.
Qed.
Lemma touches_self p : inside nx ny p -> T p p.
Proof. intros P. split; auto. exists (0, 0). split; [apply EL|]. unfold at_offset. cbn [fst snd]. lia. Qed.
Lemma touches_sym p q : inside nx ny p -> T p q -> T q p.
Proof.
  intros P (Q & (a, b) & D & O1 & O2). split; auto. exists (- a, - b). split; [now apply EL|]. unfold at_offset in *. cbn [fst snd] in *. lia.
Qed.

Lemma pix_val img p : 0 <= p -> pix img p = val img p.
Proof.
  intros P. unfold pix, val. destruct (get_at img p) eqn:E.
  - unfold get_at in E. destruct (p <? 0) eqn:N; [lia|]. symmetry. now apply nth_error_nth.
  - unfold get_at in E. destruct (p <? 0) eqn:N; [lia|]. apply nth_error_None in E. now rewrite nth_overflow.
Qed.
Lemma morph_len op img : zlen (morph op K nx ny img) = nx * ny.
Proof. unfold morph, zlen. rewrite map_length, zupto_zrange, zrange_length. nia. Qed.
Lemma nth_map_zupto (f : Z -> Z) n p : 0 <= p < n -> nth (Z.to_nat p) (map f (zupto n)) 0 = f p.
Proof.
  intros P. unfold zupto. rewrite map_map. rewrite nth_indep with (d' := f (Z.of_nat 0)).
  - rewrite (map_nth (fun x => f (Z.of_nat x)) _ 0%nat). rewrite seq_nth by lia. f_equal. lia.
  - rewrite map_length, seq_length. lia.
Qed.
Lemma morph_val op img p : inside nx ny p -> val (morph op K nx ny img) p = fold_left (fun m q => op m (pix img q)) (around K nx ny p) (pix img p).
Proof. intros P. unfold val, morph. now rewrite nth_map_zupto. Qed.

Lemma fold_min l (f : Z -> Z) : forall a, let v := fold_left (fun m q => Z.min m (f q)) l a in
  (v = a \/ exists q, In q l /\ f q = v) /\ v <= a /\ forall q, In q l -> v <= f q.
Proof.
  induction l as [|x l IH]; intros a; cbn [fold_left]; [cbn; intuition lia|].
  destruct (IH (Z.min a (f x))) as (A & B & C). cbv zeta in *. split; [|split].
  - destruct A as [A|(q & I & E)]; [|right; exists q; cbn; auto].
    destruct (Z.min_spec a (f x)) as [[_ M]|[_ M]]; [left; lia|right; exists x; cbn; split; auto; lia].
  - lia.
  - intros q [<-|I]; [lia|auto].
Qed.
Lemma fold_max l (f : Z -> Z) : forall a, let v := fold_left (fun m q => Z.max m (f q)) l a in
  (v = a \/ exists q, In q l /\ f q = v) /\ a <= v /\ forall q, In q l -> f q <= v.
Proof.
  induction l as [|x l IH]; intros a; cbn [fold_left]; [cbn; intuition lia|].
  destruct (IH (Z.max a (f x))) as (A & B & C). cbv zeta in *. split; [|split].
  - destruct A as [A|(q & I & E)]; [|right; exists q; cbn; auto].
    destruct (Z.max_spec a (f x)) as [[_ M]|[_ M]]; [right; exists x; cbn; split; auto; lia|left; lia].
  - lia.
  - intros q [<-|I]; [lia|auto].
Qed.
Lemma erode_val img p : inside nx ny p -> smallest (T p) (val img) (val (erode K nx ny img) p).
Proof.
  intros P. unfold erode. rewrite morph_val by auto. destruct (fold_min (around K nx ny p) (pix img) (pix img p)) as (A & B & C). split.
  - destruct A as [A|(q & I & E)].
    + exists p. split; [now apply touches_self|]. rewrite <- pix_val by (unfold inside in P; lia). auto.
    + apply around_In in I; auto. exists q. split; auto. rewrite <- pix_val by (destruct I as [[I _] _]; lia). auto.
  - intros q Q. rewrite <- pix_val by (destruct Q as [[Q _] _]; lia). apply C. now apply around_In.
Qed.
Lemma dilate_val img p : inside nx ny p -> largest (T p) (val img) (val (dilate K nx ny img) p).
Proof.
  intros P. unfold dilate. rewrite morph_val by auto. destruct (fold_max (around K nx ny p) (pix img) (pix img p)) as (A & B & C). split.
  - destruct A as [A|(q & I & E)].
    + exists p. split; [now apply touches_self|]. rewrite <- pix_val by (unfold inside in P; lia). auto.
    + apply around_In in I; auto. exists q. split; auto. rewrite <- pix_val by (destruct I as [[I _] _]; lia). auto.
  - intros q Q. rewrite <- pix_val by (destruct Q as [[Q _] _]; lia). apply C. now apply around_In.
Qed.

Lemma reach_inside n : forall p q, inside nx ny p -> reach K nx ny n p q -> inside nx ny q.
Proof. induction n as [|n IH]; cbn; [congruence|]. intros p q P (t & [I _] & R). eauto. Qed.
Lemma reach_self n p : inside nx ny p -> reach K nx ny n p p.
Proof. intros P. induction n as [|n IH]; cbn; auto. exists p. split; auto. now apply touches_self. Qed.
Lemma reach_snoc n : forall p t q, reach K nx ny n p t -> T t q -> reach K nx ny (S n) p q.
Proof.
  induction n as [|n IH]; cbn; intros p t q R L.
  - subst t. exists q. auto.
  - destruct R as (s & L' & R). exists s. split; auto. exact (IH s t q R L).
Qed.
Lemma reach_sym n : forall p q, inside nx ny p -> reach K nx ny n p q -> reach K nx ny n q p.
Proof.
  induction n as [|n IH]; intros p q P R; [cbn in *; congruence|]. cbn in R. destruct R as (t & L & R).
  apply (reach_snoc n q t p); [|now apply touches_sym]. apply IH; auto. apply L.
Qed.

Lemma erodes_val img p n : inside nx ny p -> smallest (reach K nx ny (Z.to_nat n) p) (val img) (val (times n (erode K nx ny) img) p).
Proof.
  unfold times. generalize (Z.to_nat n). clear n. intros n. revert p. induction n as [|n IH]; intros p P.
  - split; [exists p; split; reflexivity|]. intros q Q. cbn in Q. subst q. apply Z.le_refl.
  - cbn [Nat.iter nat_rect]. change (nat_rect _ _ _ n) with (Nat.iter n (erode K nx ny) img).
    destruct (erode_val (Nat.iter n (erode K nx ny) img) p P) as [(t & L & E) B]. split.
    + destruct (IH t (proj1 L)) as [(q & R & E') _]. exists q. split; [exists t; auto|]. congruence.
    + intros q (s & L' & R). specialize (B s L'). destruct (IH s (proj1 L')) as [_ C]. specialize (C q R). lia.
Qed.
Lemma dilates_val img p n : inside nx ny p -> largest (reach K nx ny (Z.to_nat n) p) (val img) (val (times n (dilate K nx ny) img) p).
Proof.
  unfold times. generalize (Z.to_nat n). clear n. intros n. revert p. induction n as [|n IH]; intros p P.
  - split; [exists p; split; reflexivity|]. intros q Q. cbn in Q. subst q. apply Z.le_refl.
  - cbn [Nat.iter nat_rect]. change (nat_rect _ _ _ n) with (Nat.iter n (dilate K nx ny) img).
    destruct (dilate_val (Nat.iter n (dilate K nx ny) img) p P) as [(t & L & E) B]. split.
    + destruct (IH t (proj1 L)) as [(q & R & E') _]. exists q. split; [exists t; auto|]. congruence.
    + intros q (s & L' & R). specialize (B s L'). destruct (IH s (proj1 L')) as [_ C]. specialize (C q R). lia.
Qed.

Lemma times_len n op img : length img = Z.to_nat (nx * ny) -> length (times n (morph op K nx ny) img) = Z.to_nat (nx * ny).
Proof.
  intros L. unfold times. destruct (Z.to_nat n) as [|m]; auto. cbn [Nat.iter nat_rect].
  pose proof (morph_len op (nat_rect (fun _ => list Z) img (fun _ => morph op K nx ny) m)) as M. unfold zlen in M. lia.
Qed.
Lemma img_eq (a b : list Z) : length a = Z.to_nat (nx * ny) -> length b = Z.to_nat (nx * ny) -> (forall p, inside nx ny p -> val a p = val b p) -> a = b.
Proof.
  intros La Lb H. apply (nth_ext a b 0 0); [congruence|]. intros k Hk. specialize (H (Z.of_nat k)). unfold val, inside in H. rewrite Nat2Z.id in H. apply H. lia.
Qed.

(** Opening and closing. *)
Let E n := times n (erode K nx ny).
Let D n := times n (dilate K nx ny).
Lemma open_le n img p : inside nx ny p -> val (D n (E n img)) p <= val img p.
Proof.
  intros P. destruct (dilates_val (E n img) p n P) as [(q & R & Eq) _]. fold (D n) in Eq. rewrite <- Eq. destruct (erodes_val img q n) as [_ B]; [exact (reach_inside _ _ _ P R)|].
  apply B. now apply reach_sym.
Qed.
Lemma close_ge n img p : inside nx ny p -> val img p <= val (E n (D n img)) p.
Proof.
  intros P. destruct (erodes_val (D n img) p n P) as [(q & R & Eq) _]. fold (E n) in Eq. rewrite <- Eq. destruct (dilates_val img q n) as [_ B]; [exact (reach_inside _ _ _ P R)|].
  apply B. now apply reach_sym.
Qed.
Lemma erodes_mono n a b : (forall p, inside nx ny p -> val a p <= val b p) -> forall p, inside nx ny p -> val (E n a) p <= val (E n b) p.
Proof.
  intros H p P. destruct (erodes_val b p n P) as [(q & R & Eq) _]. fold (E n) in Eq. rewrite <- Eq. destruct (erodes_val a p n P) as [_ B]. specialize (B q R).
  specialize (H q (reach_inside _ _ _ P R)). unfold E. lia.
Qed.
Lemma dilates_mono n a b : (forall p, inside nx ny p -> val a p <= val b p) -> forall p, inside nx ny p -> val (D n a) p <= val (D n b) p.
Proof.
  intros H p P. destruct (dilates_val a p n P) as [(q & R & Eq) _]. fold (D n) in Eq. rewrite <- Eq. destruct (dilates_val b p n P) as [_ B]. specialize (B q R).
  specialize (H q (reach_inside _ _ _ P R)). unfold D. lia.
Qed.
Lemma open_idem n img : length img = Z.to_nat (nx * ny) -> D n (E n (D n (E n img))) = D n (E n img).
Proof.
  intros L. apply img_eq.
  - unfold D, E, dilate, erode. repeat (apply times_len). auto.
  - unfold D, E, dilate, erode. repeat (apply times_len). auto.
  - intros p P. apply Z.le_antisymm; [now apply open_le|]. apply dilates_mono; auto. intros q Q. now apply close_ge.
Qed.
Lemma close_idem n img : length img = Z.to_nat (nx * ny) -> E n (D n (E n (D n img))) = E n (D n img).
Proof.
  intros L. apply img_eq.
  - unfold D, E, dilate, erode. repeat (apply times_len). auto.
  - unfold D, E, dilate, erode. repeat (apply times_len). auto.
  - intros p P. apply Z.le_antisymm; [|now apply close_ge]. apply erodes_mono; auto. intros q Q. now apply open_le.
Qed.
Lemma diff_val a b p : length a = Z.to_nat (nx * ny) -> length b = Z.to_nat (nx * ny) -> inside nx ny p -> val (diff a b) p = sat_short (val a p - val b p).
Proof.
  intros La Lb P. unfold val, diff. rewrite nth_indep with (d' := (fun xy => sat_short (fst xy - snd xy)) (0, 0)).
  - rewrite (map_nth (fun xy => sat_short (fst xy - snd xy)) (combine a b) (0, 0)). rewrite combine_nth by congruence. reflexivity.
  - unfold inside in P. rewrite map_length, combine_length. lia.
Qed.
End Img.

(** Strips. *)
Section Strip.
Context (K : list (Z * Z)) (nx ny a n : Z) (EL : element K) (NX : 0 < nx) (NN : 0 < n) (A : 0 <= a) (AN : a + n <= ny).
Context (r : Z) (R : within_radius K r) (R0 : 0 <= r).
Let up p := p + a * nx.

Lemma up_row p : up p / nx = p / nx + a.
Proof. unfold up. rewrite Z.div_add by lia. lia. Qed.
Lemma up_col p : up p mod nx = p mod nx.
Proof. unfold up. apply Z.mod_add. lia. Qed.
Lemma up_inside p : inside nx n p -> inside nx ny (up p).
Proof. unfold inside, up. nia. Qed.
Lemma val_strip img q : inside nx n q -> length img = Z.to_nat (nx * ny) -> val (strip nx a n img) q = val img (up q).
Proof.
  intros Q L. unfold val, strip, up. unfold inside in Q.
  assert (Z.to_nat (q + a * nx) = Z.to_nat (a * nx) + Z.to_nat q)%nat as -> by nia.
  assert (forall (m k : nat) (l : list Z), (k < m)%nat -> nth k (firstn m l) 0 = nth k l 0) as G.
  { induction m as [|m IH]; intros k l H; [lia|]. destruct l, k; cbn; auto. apply IH. lia. }
  rewrite G by nia.
  assert (forall (m k : nat) (l : list Z), nth k (skipn m l) 0 = nth (m + k) l 0) as G2.
  { induction m as [|m IH]; intros k l; auto. destruct l; cbn [skipn Nat.add]; [destruct k; auto|]. cbn [nth]. apply IH. }
  apply G2.
Qed.
Lemma strip_len img : length img = Z.to_nat (nx * ny) -> length (strip nx a n img) = Z.to_nat (nx * n).
Proof. intros L. unfold strip. rewrite firstn_length, skipn_length, L. nia. Qed.

Lemma touches_up p t : touches K nx n p t -> touches K nx ny (up p) (up t).
Proof.
  intros (I & d & D & O1 & O2). split; [now apply up_inside|]. exists d. split; auto. unfold at_offset. rewrite !up_row, !up_col. lia.
Qed.
Lemma touches_down p t' : inside nx n p -> far a n ny r (p / nx) -> touches K nx ny (up p) t' -> exists t, t' = up t /\ touches K nx n p t.
Proof.
  intros P F (I & (da, db) & D & O1 & O2). cbn [fst snd] in *. rewrite up_row in O1. rewrite up_col in O2.
  destruct (inside_rows _ _ _ NX I) as [Ir Ic]. destruct (inside_rows _ _ _ NX P) as [Pr Pc]. destruct (R da db D) as [Ra Rb].
  assert (0 <= p / nx + da < n) as Rw. { unfold far in F. lia. }
  exists (t' - a * nx). split; [unfold up; lia|].
  assert ((t' - a * nx) / nx = t' / nx - a) as E1. { replace (t' - a * nx) with (t' + (- a) * nx) by lia. rewrite Z.div_add by lia. lia. }
  assert ((t' - a * nx) mod nx = t' mod nx) as E2. { replace (t' - a * nx) with (t' + (- a) * nx) by lia. apply Z.mod_add. lia. }
  split.
  - rewrite <- (pos_of nx (t' - a * nx) NX). apply pos_inside; lia.
  - exists (da, db). split; auto. unfold at_offset. cbn [fst snd]. lia.
Qed.
Lemma far_step m p t : 0 <= m -> touches K nx n p t -> far a n ny (r + m) (p / nx) -> far a n ny m (t / nx).
Proof.
  intros M (I & (da, db) & D & O1 & O2) F. cbn [fst snd] in *. destruct (R da db D) as [Ra Rb]. unfold far in *. lia.
Qed.
Lemma reach_up k : forall p q, reach K nx n k p q -> reach K nx ny k (up p) (up q).
Proof. induction k as [|k IH]; cbn; [congruence|]. intros p q (t & L & H). exists (up t). split; [now apply touches_up|auto]. Qed.
Lemma reach_down k : forall p q', inside nx n p -> far a n ny (r * Z.of_nat k) (p / nx) -> reach K nx ny k (up p) q' -> exists q, q' = up q /\ reach K nx n k p q.
Proof.
  induction k as [|k IH]; cbn [reach]; intros p q' P F H; [exists p; auto|].
  destruct H as (t' & L & H). destruct (touches_down p t' P) as (t & -> & Lt); auto.
  { unfold far in *. nia. }
  destruct (IH t q') as (q & -> & Q).
  - apply Lt.
  - apply (far_step _ p t); [nia|auto|]. unfold far in *. nia.
  - auto.
  - exists q. split; auto. exists t. auto.
Qed.
Lemma far_reach m k : forall p q, 0 <= m -> inside nx n p -> far a n ny (r * Z.of_nat k + m) (p / nx) -> reach K nx n k p q -> far a n ny m (q / nx).
Proof.
  induction k as [|k IH]; cbn [reach]; intros p q M P F H.
  - subst q. unfold far in *. lia.
  - destruct H as (t & L & H). apply (IH t q M (proj1 L)); auto. apply (far_step _ p t); [nia|auto|]. unfold far in *. nia.
Qed.

Lemma erodes_strip img img' k p : 0 <= k -> length img = Z.to_nat (nx * ny) -> inside nx n p -> far a n ny (r * k) (p / nx) ->
  (forall q, inside nx n q -> reach K nx n (Z.to_nat k) p q -> val img' q = val img (up q)) ->
  val (times k (erode K nx n) img') p = val (times k (erode K nx ny) img) (up p).
Proof.
  intros K0 L P F H. assert (r * Z.of_nat (Z.to_nat k) = r * k) as EK by (rewrite Z2Nat.id by auto; reflexivity).
  destruct (erodes_val K nx n EL NX img' p k P) as [(q1 & R1 & E1) B1].
  destruct (erodes_val K nx ny EL NX img (up p) k (up_inside p P)) as [(q2 & R2 & E2) B2].
  apply Z.le_antisymm.
  - destruct (reach_down (Z.to_nat k) p q2 P) as (q & -> & Q); [now rewrite EK|auto|]. rewrite <- E2. rewrite <- H; auto. exact (reach_inside K nx n _ _ _ P Q).
  - rewrite <- E1. rewrite H; auto; [apply B2; now apply reach_up|exact (reach_inside K nx n _ _ _ P R1)].
Qed.
Lemma dilates_strip img img' k p : 0 <= k -> length img = Z.to_nat (nx * ny) -> inside nx n p -> far a n ny (r * k) (p / nx) ->
  (forall q, inside nx n q -> reach K nx n (Z.to_nat k) p q -> val img' q = val img (up q)) ->
  val (times k (dilate K nx n) img') p = val (times k (dilate K nx ny) img) (up p).
Proof.
  intros K0 L P F H. assert (r * Z.of_nat (Z.to_nat k) = r * k) as EK by (rewrite Z2Nat.id by auto; reflexivity).
  destruct (dilates_val K nx n EL NX img' p k P) as [(q1 & R1 & E1) B1].
  destruct (dilates_val K nx ny EL NX img (up p) k (up_inside p P)) as [(q2 & R2 & E2) B2].
  apply Z.le_antisymm.
  - rewrite <- E1. rewrite H; auto; [apply B2; now apply reach_up|exact (reach_inside K nx n _ _ _ P R1)].
  - destruct (reach_down (Z.to_nat k) p q2 P) as (q & -> & Q); [now rewrite EK|auto|]. rewrite <- E2. rewrite <- H; auto. exact (reach_inside K nx n _ _ _ P Q).
Qed.
End Strip.
