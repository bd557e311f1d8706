From Coq Require Import Lia.
From Verif Require Import Base BaseFacts Loops LoopsFacts ImgSpec ImgFacts BufferModel.
#[local] Open Scope Z_scope.

(** Painting cells. *)
Definition paints (nx ny : Z) (t t' : list bool) (P : Z -> Z -> Prop) : Prop :=
  zlen t' = zlen t /\
  forall y x, inside nx ny y x -> (pix t' nx y x = Some true <-> pix t nx y x = Some true \/ P y x).

Lemma put_paints nx ny t y x : zlen t = nx * ny -> inside nx ny y x ->
  exists t', put t (nx * y + x) = Ret t' /\ paints nx ny t t' (fun y' x' => y' = y /\ x' = x).
Proof.
  intros L I. unfold put. rewrite set_at_some by (rewrite L; now apply index_range). cbn [of_option].
  eexists; split; [reflexivity|].
  assert (E : set_at t (nx * y + x) true = Some (list_set t (Z.to_nat (nx * y + x)) true)) by (apply set_at_some; rewrite L; now apply index_range).
  split; [exact (set_at_length _ _ _ _ E)|]. intros y' x' I'. rewrite (pix_set _ _ nx ny _ _ _ _ _ I I' E).
  destruct (Z.eq_dec y y') as [->|]; [destruct (Z.eq_dec x x') as [->|]|].
  - split; [intros _; right; auto|reflexivity].
  - split; [tauto|]. intros [|[_ X]]; [tauto|congruence].
  - split; [tauto|]. intros [|[X _]]; [tauto|congruence].
Qed.

Lemma paints_trans nx ny t1 t2 t3 P Q : paints nx ny t1 t2 P -> paints nx ny t2 t3 Q -> paints nx ny t1 t3 (fun y x => P y x \/ Q y x).
Proof. intros (A & B) (C & D). split; [congruence|]. intros y x I. rewrite D, B by exact I. tauto. Qed.

Lemma paints_ext nx ny t1 t2 (P Q : Z -> Z -> Prop) : (forall y x, inside nx ny y x -> (P y x <-> Q y x)) -> paints nx ny t1 t2 P -> paints nx ny t1 t2 Q.
Proof. intros H (A & B). split; [exact A|]. intros y x I. rewrite B by exact I. rewrite (H y x I). tauto. Qed.

Lemma ofold_paints {A} nx ny (f : list bool -> A -> outcome (list bool)) (P : A -> Z -> Z -> Prop) : forall l,
  (forall a t, In a l -> zlen t = nx * ny -> exists t', f t a = Ret t' /\ paints nx ny t t' (P a)) ->
  forall t, zlen t = nx * ny -> exists t', ofold f l t = Ret t' /\ paints nx ny t t' (fun y x => exists a, In a l /\ P a y x).
Proof.
  induction l as [|a l IH]; intros H t L; cbn [ofold].
  - exists t. split; [reflexivity|]. split; [reflexivity|]. intros y x _. split; [tauto|]. intros [|(a & [] & _)]; tauto.
  - destruct (H a t (or_introl eq_refl) L) as (t1 & -> & P1). cbn [bind].
    destruct (IH (fun b u Hb => H b u (or_intror Hb)) t1) as (t2 & -> & P2); [destruct P1; congruence|].
    exists t2. split; [reflexivity|]. eapply paints_ext; [|exact (paints_trans _ _ _ _ _ _ _ P1 P2)]. cbn. intros y x _. split.
    + intros [X|(b & X & Y)]; [exists a; auto|exists b; auto].
    + intros (b & [<-|X] & Y); [auto|right; exists b; auto].
Qed.

(** The octant. *)
Definition covers (l : list (Z * Z)) (u v : Z) : Prop := exists a b, In (a, b) l /\ ((u = a /\ v <= b) \/ (u = b /\ v <= a)).

Lemma step_down r x y : 1 <= r -> 0 <= x <= y -> y <= r -> r * r < x * x + (y + 1) * (y + 1) ->
  0 <= 2 * ((x + 1) * (x + 1) + y * y - y - r * r) + r + 1 -> r * r < (x + 1) * (x + 1) + y * y.
Proof.
  intros Hr Hx Hy HI HD. destruct (Z_lt_ge_dec (r * r) ((x + 1) * (x + 1) + y * y)) as [|G]; [assumption|exfalso].
  assert (A : 2 * y <= r + 1) by lia.
  assert (B : r * r < 2 * y * y + 2 * y + 1) by nia.
  assert (C : r < 5) by nia.
  assert (R : r = 1 \/ r = 2 \/ r = 3 \/ r = 4) by lia.
  assert (Y : y = 0 \/ y = 1 \/ y = 2) by lia.
  assert (X : x = 0 \/ x = 1 \/ x = 2) by lia.
  destruct R as [->|[->|[->| ->]]]; destruct Y as [->|[->| ->]]; destruct X as [->|[->| ->]]; lia.
Qed.

Lemma octant_spec r : 1 <= r <= 23170 -> forall fuel x y d,
  0 <= x -> x <= y + 2 -> 0 <= y + 1 -> y <= r -> r * r < x * x + (y + 1) * (y + 1) -> (x <= y -> x * x + y * y < (r + 1) * (r + 1)) ->
  d = 2 * ((x + 1) * (x + 1) + y * y - y - r * r) + r + 1 -> y - x + 1 < Z.of_nat fuel ->
  exists l, octant fuel x y d = Some (Ret l) /\
    Forall (fun ab => 0 <= fst ab <= snd ab /\ snd ab <= r /\ fst ab * fst ab + snd ab * snd ab < (r + 1) * (r + 1)) l /\
    (forall u v, x <= u <= y -> 0 <= v -> u * u + v * v <= r * r -> covers l u v).
Proof.
  intros Hr. induction fuel as [|f IH]; intros x y d Hx Hxy Hy0 Hy HI HE HD HF.
  - cbn [octant]. destruct (Z.leb_spec x y) as [L|L]; cbn [negb]; [lia|].
    exists []. split; [reflexivity|]. split; [constructor|]. intros; lia.
  - cbn [octant]. destruct (Z.leb_spec x y) as [L|L]; cbn [negb].
    2: { exists []. split; [reflexivity|]. split; [constructor|]. intros; lia. }
    specialize (HE L).
    assert (ST : forall y' d', (y' = y /\ d < 0 /\ d' = d + 4 * x + 6) \/ (y' = y - 1 /\ 0 <= d /\ d' = d + 4 * (x - y) + 10) ->
      in_intb d' = true /\ exists l, octant f (x + 1) y' d' = Some (Ret l) /\
      Forall (fun ab => 0 <= fst ab <= snd ab /\ snd ab <= r /\ fst ab * fst ab + snd ab * snd ab < (r + 1) * (r + 1)) l /\
      (forall u v, x + 1 <= u <= y' -> 0 <= v -> u * u + v * v <= r * r -> covers l u v) /\
      r * r < (x + 1) * (x + 1) + (y' + 1) * (y' + 1)).
    { intros y' d' HC.
      assert (I' : r * r < (x + 1) * (x + 1) + (y' + 1) * (y' + 1)).
      { destruct HC as [(-> & _)|(-> & D0 & _)]; [nia|]. replace (y - 1 + 1) with y by lia. apply step_down; try lia. }
      assert (E' : x + 1 <= y' -> (x + 1) * (x + 1) + y' * y' < (r + 1) * (r + 1)).
      { intros L'. destruct HC as [(-> & D0 & _)|(-> & D0 & _)]; [nia|]. nia. }
      assert (D' : d' = 2 * ((x + 1 + 1) * (x + 1 + 1) + y' * y' - y' - r * r) + r + 1) by (destruct HC as [(-> & _ & ->)|(-> & _ & ->)]; subst d; ring).
      split.
      - apply in_intb_spec. unfold in_int. rewrite D'. destruct HC as [(-> & _)|(-> & _)]; split; nia.
      - destruct (IH (x + 1) y' d') as (l & E & F & C); auto; try lia. exists l. auto. }
    destruct (Z.ltb_spec d 0) as [D|D].
    + destruct (ST y (d + 4 * x + 6) ltac:(left; lia)) as (IB & l & E & F & C & I'). rewrite IB. cbn [negb]. rewrite E.
      exists ((x, y) :: l). split; [reflexivity|]. split; [constructor; [cbn [fst snd]; lia|exact F]|].
      intros u v Hu Hv Huv. destruct (Z.eq_dec u x) as [->|N].
      * exists x, y. split; [left; reflexivity|left; split; [reflexivity|nia]].
      * destruct (C u v ltac:(lia) Hv Huv) as (a & b & P & Q). exists a, b. split; [right; exact P|exact Q].
    + destruct (ST (y - 1) (d + 4 * (x - y) + 10) ltac:(right; lia)) as (IB & l & E & F & C & I'). rewrite IB. cbn [negb]. rewrite E.
      exists ((x, y) :: l). split; [reflexivity|]. split; [constructor; [cbn [fst snd]; lia|exact F]|].
      intros u v Hu Hv Huv. destruct (Z.eq_dec u x) as [->|N].
      * exists x, y. split; [left; reflexivity|left; split; [reflexivity|nia]].
      * destruct (Z.eq_dec u y) as [->|N2].
        -- exists x, y. split; [left; reflexivity|right; split; [reflexivity|]]. replace (y - 1 + 1) with y in I' by lia. nia.
        -- destruct (C u v ltac:(lia) Hv Huv) as (a & b & P & Q). exists a, b. split; [right; exact P|exact Q].
Qed.

Lemma octant_ok r : 1 <= r <= 23170 -> exists l, octant (Z.to_nat (r + 2)) 0 r (3 - r) = Some (Ret l) /\
    Forall (fun ab => 0 <= fst ab <= snd ab /\ snd ab <= r /\ fst ab * fst ab + snd ab * snd ab < (r + 1) * (r + 1)) l /\
    (forall u v, 0 <= u <= r -> 0 <= v -> u * u + v * v <= r * r -> covers l u v).
Proof. intros H. apply octant_spec; try lia; nia. Qed.

(** Drawing one pixel. *)
Definition reach (l : list (Z * Z)) (i j y x : Z) : Prop :=
  exists a b, In (a, b) l /\ ((Z.abs (y - i) <= b /\ Z.abs (x - j) = a) \/ (Z.abs (y - i) <= a /\ Z.abs (x - j) = b)).

Lemma column_paints nx ny i j h w : 0 <= w -> 0 <= h -> 0 <= i - h -> i + h < ny -> 0 <= j - w -> j + w < nx ->
  forall t, zlen t = nx * ny ->
  exists t', ofold (fun t k => t' <- put t (nx * k + j + w) ;; put t' (nx * k + j - w)) (zrange (i - h) (i + h)) t = Ret t' /\
    paints nx ny t t' (fun y x => Z.abs (y - i) <= h /\ Z.abs (x - j) = w).
Proof.
  intros Hw Hh A B C D t L.
  destruct (ofold_paints nx ny (fun t k => t' <- put t (nx * k + j + w) ;; put t' (nx * k + j - w))
    (fun k y x => y = k /\ Z.abs (x - j) = w) (zrange (i - h) (i + h))) with (t := t) as (t' & E & P); auto.
  - intros k t0 Hk L0. apply zrange_In in Hk.
    replace (nx * k + j + w) with (nx * k + (j + w)) by ring. replace (nx * k + j - w) with (nx * k + (j - w)) by ring.
    destruct (put_paints nx ny t0 k (j + w) L0) as (t1 & -> & P1); [unfold inside; lia|]. cbn [bind].
    destruct (put_paints nx ny t1 k (j - w)) as (t2 & -> & P2); [destruct P1; congruence|unfold inside; lia|].
    exists t2. split; [reflexivity|]. eapply paints_ext; [|exact (paints_trans _ _ _ _ _ _ _ P1 P2)]. cbn. intros; lia.
  - exists t'. split; [exact E|]. eapply paints_ext; [|exact P]. cbn. intros y x I. split.
    + intros (k & Hk & -> & X). apply zrange_In in Hk. lia.
    + intros (X & Y). exists y. split; [apply zrange_In; lia|auto].
Qed.

Lemma draw_paints nx ny i j r : 0 <= i - r -> i + r < ny -> 0 <= j - r -> j + r < nx ->
  forall xy t, 0 <= fst xy <= snd xy -> snd xy <= r -> zlen t = nx * ny ->
  exists t', draw nx i j t xy = Ret t' /\ paints nx ny t t' (reach [xy] i j).
Proof.
  intros A B C D (a & b) t Hab Hb L. cbn [fst snd] in *. unfold draw.
  destruct (column_paints nx ny i j b a ltac:(lia) ltac:(lia) ltac:(lia) ltac:(lia) ltac:(lia) ltac:(lia) t L) as (t1 & -> & P1).
  cbn [bind].
  destruct (column_paints nx ny i j a b ltac:(lia) ltac:(lia) ltac:(lia) ltac:(lia) ltac:(lia) ltac:(lia) t1) as (t2 & -> & P2);
    [destruct P1; congruence|].
  exists t2. split; [reflexivity|]. eapply paints_ext; [|exact (paints_trans _ _ _ _ _ _ _ P1 P2)]. cbn. intros y x I. unfold reach. split.
  - intros H. exists a, b. split; [left; reflexivity|exact H].
  - intros (a' & b' & [E|[]] & H). injection E as -> ->. exact H.
Qed.

Lemma buffer_spec img nx ny r : image img nx ny -> 0 < r -> exists l out,
  (r <= 23170 -> octant (Z.to_nat (r + 2)) 0 r (3 - r) = Some (Ret l)) /\
  buffer img nx ny r = Ret out /\ zlen out = nx * ny /\
  (forall y x, inside nx ny y x -> (pix out nx y x = Some true <->
     exists i j, r <= i < ny - r /\ r <= j < nx - r /\ pix img nx i j = Some true /\ reach l i j y x)).
Proof.
  intros (Hx & Hy & HL & HI) Hr. unfold buffer. destruct (Z.leb_spec r 0); [lia|].
  assert (HO : exists l, (r <= 23170 -> octant (Z.to_nat (r + 2)) 0 r (3 - r) = Some (Ret l)) /\
     Forall (fun ab => 0 <= fst ab <= snd ab /\ snd ab <= r /\ fst ab * fst ab + snd ab * snd ab < (r + 1) * (r + 1)) l).
  { destruct (Z_le_gt_dec r 23170) as [LE|GT]; [destruct (octant_ok r ltac:(lia)) as (l & A & B & _); exists l; auto|exists []; split; [lia|constructor]]. }
  destruct HO as (l & HO & HF). exists l.
  assert (L0 : zlen (repeat false (Z.to_nat (nx * ny))) = nx * ny) by (unfold zlen; rewrite repeat_length; nia).
  destruct (ofold_paints nx ny (fun t i => ofold (buffer_pixel img nx i r) (zrange r (nx - r - 1)) t)
    (fun i y x => exists j, r <= j < nx - r /\ pix img nx i j = Some true /\ reach l i j y x) (zrange r (ny - r - 1)))
    with (t := repeat false (Z.to_nat (nx * ny))) as (out & E & P); auto.
  - intros i t Hi Lt. apply zrange_In in Hi.
    destruct (ofold_paints nx ny (buffer_pixel img nx i r) (fun j y x => pix img nx i j = Some true /\ reach l i j y x) (zrange r (nx - r - 1)))
      with (t := t) as (t' & E & P); auto.
    + intros j t0 Hj L1. apply zrange_In in Hj. unfold buffer_pixel.
      destruct (pix_some img nx ny i j HL ltac:(unfold inside; lia)) as (b & Eb). rewrite Eb. unfold pix in Eb. rewrite Eb. cbn [of_option bind].
      destruct b; cbn [negb].
      * assert (R : r <= 23170) by nia. rewrite (HO R). cbn [bind].
        destruct (ofold_paints nx ny (draw nx i j) (fun xy y x => reach [xy] i j y x) l) with (t := t0) as (t2 & E2 & P2); auto.
        { intros xy t1 Hxy L2. rewrite Forall_forall in HF. specialize (HF xy Hxy). apply (draw_paints nx ny i j r); lia. }
        exists t2. split; [exact E2|]. eapply paints_ext; [|exact P2]. cbn. intros y x _. split.
        -- intros ((a & b) & Hab & (a' & b' & [Q|[]] & H')). injection Q as -> ->. split; [reflexivity|]. exists a', b'. auto.
        -- intros (_ & a & b & Hab & H'). exists (a, b). split; [exact Hab|]. exists a, b. split; [left; reflexivity|exact H'].
      * exists t0. split; [reflexivity|]. split; [reflexivity|]. intros y x _. split; [tauto|]. intros [|[X _]]; [tauto|discriminate].
    + exists t'. split; [exact E|]. eapply paints_ext; [|exact P]. cbn. intros y x _. split.
      * intros (j & Hj & X). apply zrange_In in Hj. exists j. split; [lia|exact X].
      * intros (j & Hj & X). exists j. split; [apply zrange_In; lia|exact X].
  - exists out. split; [exact HO|]. split; [exact E|]. destruct P as (P1 & P2). split; [congruence|].
    intros y x I. rewrite P2 by exact I. split.
    + intros [X|(i & Hi & j & Hj & X)].
      * exfalso. unfold pix in X. apply get_at_In in X. apply repeat_spec in X. discriminate.
      * apply zrange_In in Hi. exists i, j. split; [lia|]. split; [lia|exact X].
    + intros (i & j & Hi & Hj & X). right. exists i. split; [apply zrange_In; lia|]. exists j. auto.
Qed.
