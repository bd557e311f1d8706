From Coq Require Import Lia List ZifyBool.
From Verif Require Import Base BaseFacts Loops LoopsFacts ImgSpec ImgFacts CclModel CclSpec.
Import ListNotations.
#[local] Open Scope Z_scope.

Lemma yields_bind {A B} (P : A -> Prop) (Q : B -> Prop) o (f : A -> outcome B) :
  yields P o -> (forall a, P a -> yields Q (f a)) -> yields Q (bind o f).
Proof. destruct o; cbn [yields bind]; auto. Qed.
Lemma yields_weaken {A} (P Q : A -> Prop) o : yields P o -> (forall a, P a -> Q a) -> yields Q o.
Proof. destruct o; cbn [yields]; auto. Qed.
Lemma yields_zrange {S} (f : S -> Z -> outcome S) (I : Z -> S -> Prop) lo hi s : lo <= hi + 1 -> I lo s ->
  (forall k st, lo <= k <= hi -> I k st -> yields (I (k + 1)) (f st k)) -> yields (I (hi + 1)) (ofold f (zrange lo hi) s).
Proof.
  intros Hlo H0 HS. remember (Z.to_nat (hi + 1 - lo)) as n eqn:En. revert lo s Hlo H0 HS En.
  induction n as [|n IH]; intros lo s Hlo H0 HS En.
  - rewrite zrange_nil by lia. cbn [ofold yields]. replace (hi + 1) with lo by lia. exact H0.
  - rewrite zrange_cons by lia. cbn [ofold]. eapply yields_bind; [apply (HS lo); [lia|exact H0]|].
    intros a Ia. apply IH; [lia|exact Ia| |lia]. intros k st Hk. apply HS. lia.
Qed.

Section Ccl.
Context (img : list bool) (nx ny : Z).
Hypothesis HI : image img nx ny.
Notation tr := (is_true img nx ny).
Notation conn := (connected img nx ny).
Notation ins := (inside nx ny).

Lemma conn_true_r y x y' x' : conn y x y' x' -> tr y' x'.
Proof. intros H. destruct H; assumption. Qed.
Lemma conn_true_l y x y' x' : conn y x y' x' -> tr y x.
Proof. induction 1; assumption. Qed.
Lemma conn_trans y x y1 x1 y2 x2 : conn y x y1 x1 -> conn y1 x1 y2 x2 -> conn y x y2 x2.
Proof. intros A B. induction B; [exact A|]. eapply conn_step; [apply IHB; exact A|eassumption..]. Qed.
Lemma adj_sym y x y' x' : adjacent y x y' x' -> adjacent y' x' y x.
Proof. unfold adjacent. intros (A & B & N). split; [lia|]. split; [lia|]. intros X. apply N. congruence. Qed.
Lemma conn_sym y x y' x' : conn y x y' x' -> conn y' x' y x.
Proof.
  induction 1 as [y x T|y x y1 x1 y2 x2 C IH A T]; [now constructor|].
  eapply conn_trans; [|exact IH]. eapply conn_step; [constructor; exact T|apply adj_sym; exact A|exact (conn_true_r _ _ _ _ C)].
Qed.

Definition px (l : list Z) (y x : Z) : Z := match pix l nx y x with Some v => v | None => 0 end.
Lemma px_pix l y x : zlen l = nx * ny -> ins y x -> pix l nx y x = Some (px l y x).
Proof. intros L I. unfold px. destruct (pix_some l nx ny y x L I) as (v & ->). reflexivity. Qed.
Lemma set_px l y x v : zlen l = nx * ny -> ins y x ->
  exists l', set_at l (y * nx + x) v = Some l' /\ zlen l' = nx * ny /\ px l' y x = v /\
    forall a b, ins a b -> (a, b) <> (y, x) -> px l' a b = px l a b.
Proof.
  intros L I. destruct (set_pix l nx ny y x v L I) as (l' & E & L' & V & O). exists l'. split; [exact E|]. split; [exact L'|].
  split; [unfold px; now rewrite V|]. intros a b Iab N. unfold px. now rewrite (O a b Iab N).
Qed.
Lemma img_px y x : ins y x -> tr y x \/ pix img nx y x = Some false.
Proof. intros I. destruct (pix_some img nx ny y x ltac:(apply HI) I) as ([] & E); [left; split; assumption|now right]. Qed.

(** Only background pixels are marked. *)
Definition marked (a b : list Z) : Prop := zlen a = nx * ny /\ zlen b = nx * ny /\
  forall y x, ins y x -> (tr y x -> px b y x = px a y x) /\ (~ tr y x -> px b y x = px a y x \/ px b y x = -1).

(** Only background pixels are marked and pixels connected with s get the label. *)
Definition labelled (sy sx label : Z) (a b : list Z) : Prop := zlen a = nx * ny /\ zlen b = nx * ny /\
  forall y x, ins y x -> (tr y x -> px b y x = px a y x \/ (px b y x = label /\ conn sy sx y x)) /\
                         (~ tr y x -> px b y x = px a y x \/ px b y x = -1).

Lemma marked_refl a : zlen a = nx * ny -> marked a a.
Proof. intros L. split; [exact L|]. split; [exact L|]. auto. Qed.
Lemma marked_trans a b c : marked a b -> marked b c -> marked a c.
Proof.
  intros (LA & LB & H) (_ & LC & K). split; [exact LA|]. split; [exact LC|]. intros y x I. destruct (H y x I) as (H1 & H2), (K y x I) as (K1 & K2).
  split; [intros T; rewrite K1, H1 by exact T; reflexivity|]. intros T. destruct (K2 T) as [->|]; auto.
Qed.
Lemma marked_labelled sy sx l a b : marked a b -> labelled sy sx l a b.
Proof. intros (LA & LB & H). split; [exact LA|]. split; [exact LB|]. intros y x I. destruct (H y x I). auto. Qed.
Lemma labelled_trans sy sx l a b c : labelled sy sx l a b -> labelled sy sx l b c -> labelled sy sx l a c.
Proof.
  intros (LA & LB & H) (_ & LC & K). split; [exact LA|]. split; [exact LC|]. intros y x I. destruct (H y x I) as (H1 & H2), (K y x I) as (K1 & K2). split.
  - intros T. destruct (K1 T) as [->|]; auto.
  - intros T. destruct (K2 T) as [->|]; auto.
Qed.

Lemma neighbor_ok dir : 0 <= dir < 8 -> exists a b, neighbor dir = Ret (a, b) /\ forall y x, adjacent y x (y + a) (x + b).
Proof.
  intros H. assert (D : dir = 0 \/ dir = 1 \/ dir = 2 \/ dir = 3 \/ dir = 4 \/ dir = 5 \/ dir = 6 \/ dir = 7) by lia.
  unfold adjacent. repeat (destruct D as [-> | D]; [eexists; eexists; split; [reflexivity|]; intros y x; split; [lia|]; split; [lia|]; intros X; injection X; lia|]).
  subst dir. eexists; eexists; split; [reflexivity|]. intros y x; split; [lia|]; split; [lia|]; intros X; injection X; lia.
Qed.

Lemma tracer_ok cy cx : forall n dir ccl, 0 <= dir < 8 -> zlen ccl = nx * ny -> tr cy cx ->
  exists y x d ccl', tracer n img nx ny cy cx dir ccl = Ret (y, x, d, ccl') /\ 0 <= d < 8 /\ tr y x /\
    ((y, x) = (cy, cx) \/ adjacent cy cx y x) /\ marked ccl ccl'.
Proof.
  induction n as [|n IH]; intros dir ccl Hd L T; cbn [tracer].
  - exists cy, cx, dir, ccl. split; [reflexivity|]. split; [exact Hd|]. split; [exact T|]. split; [now left|now apply marked_refl].
  - destruct (neighbor_ok dir Hd) as (a & b & -> & A). cbn [bind fst snd].
    assert (Hd' : 0 <= (dir + 1) mod 8 < 8) by (apply Z.mod_pos_bound; lia).
    destruct ((0 <=? cy + a) && (cy + a <? ny) && (0 <=? cx + b) && (cx + b <? nx)) eqn:E; [|exact (IH _ _ Hd' L T)].
    assert (I : ins (cy + a) (cx + b)) by (unfold inside; lia). rewrite get_pix.
    destruct (img_px _ _ I) as [T'|F'].
    + pose proof T' as (_ & ->). cbn [of_option bind]. exists (cy + a), (cx + b), dir, ccl.
      split; [reflexivity|]. split; [exact Hd|]. split; [exact T'|]. split; [right; apply A|now apply marked_refl].
    + rewrite F'. cbn [of_option bind]. destruct (set_px ccl _ _ (-1) L I) as (ccl1 & -> & L1 & V1 & O1). cbn [of_option bind].
      destruct (IH _ ccl1 Hd' L1 T) as (y & x & d & ccl' & E' & Hdd & T1 & Q & M). exists y, x, d, ccl'.
      split; [exact E'|]. split; [exact Hdd|]. split; [exact T1|]. split; [exact Q|]. eapply marked_trans; [|exact M].
      split; [exact L|]. split; [exact L1|]. intros y1 x1 I1. destruct (Z.eq_dec y1 (cy + a)) as [->|N]; [destruct (Z.eq_dec x1 (cx + b)) as [->|N]|].
      * split; [intros (_ & T2); congruence|intros _; now right].
      * rewrite O1 by (auto; congruence). auto.
      * rewrite O1 by (auto; congruence). auto.
Qed.

Lemma contour_ok sy sx fy fx label : forall fuel stop cy cx dir ccl, 0 <= dir < 8 -> zlen ccl = nx * ny -> conn sy sx cy cx ->
  yields (labelled sy sx label ccl) (contour fuel img nx ny sy sx fy fx label stop cy cx dir ccl).
Proof.
  induction fuel as [|f IH]; intros stop cy cx dir ccl Hd L C; cbn [contour]; [exact I|].
  pose proof (conn_true_r _ _ _ _ C) as T. pose proof T as (II & _).
  destruct (set_px ccl cy cx label L II) as (ccl1 & -> & L1 & V1 & O1). cbn [of_option bind].
  assert (S1 : labelled sy sx label ccl ccl1).
  { split; [exact L|]. split; [exact L1|]. intros y x Iyx. destruct (Z.eq_dec y cy) as [->|N]; [destruct (Z.eq_dec x cx) as [->|N]|].
    - split; [intros _; right; auto|intros X; tauto].
    - rewrite O1 by (auto; congruence). auto.
    - rewrite O1 by (auto; congruence). auto. }
  destruct (tracer_ok cy cx 7 ((dir + 6) mod 8) ccl1 ltac:(apply Z.mod_pos_bound; lia) L1 T) as (y & x & d & ccl2 & -> & Hd2 & T2 & Q & M). cbn [bind].
  assert (S2 : labelled sy sx label ccl ccl2) by (eapply labelled_trans; [exact S1|now apply marked_labelled]).
  assert (C2 : conn sy sx y x) by (destruct Q as [Q|Q]; [injection Q as -> ->; exact C|eapply conn_step; eauto]).
  assert (L2 : zlen ccl2 = nx * ny) by apply M.
  assert (R : forall st, yields (labelled sy sx label ccl) (contour f img nx ny sy sx fy fx label st y x d ccl2)).
  { intros st. eapply yields_weaken; [apply IH; assumption|]. intros c Hc. eapply labelled_trans; eassumption. }
  destruct ((x =? sx) && (y =? sy)); [apply R|]. destruct stop; [destruct ((x =? fx) && (y =? fy)); [exact S2|apply R]|apply R].
Qed.

Lemma contourtrace_ok fuel sy sx label dir ccl : 0 <= dir < 8 -> zlen ccl = nx * ny -> tr sy sx ->
  yields (labelled sy sx label ccl) (contourtrace fuel img nx ny sy sx label dir ccl).
Proof.
  intros Hd L T. unfold contourtrace. destruct (tracer_ok sy sx 7 dir ccl Hd L T) as (y & x & d & ccl1 & -> & Hd1 & T1 & Q & M). cbn [bind].
  assert (S1 : labelled sy sx label ccl ccl1) by now apply marked_labelled.
  destruct (negb (x =? sx) || negb (y =? sy)); [|exact S1].
  eapply yields_weaken; [apply contour_ok; [exact Hd1|apply M|]|intros c Hc; eapply labelled_trans; eassumption].
  destruct Q as [Q|Q]; [injection Q as -> ->; now constructor|]. eapply conn_step; [now constructor|exact Q|exact T1].
Qed.

(** Labels 1 .. k; equal labels are connected; done: pixels before position n. *)
Definition sound (n k : Z) (l : list Z) : Prop := 0 <= k /\ zlen l = nx * ny /\
  (forall y x, ins y x -> ~ tr y x -> px l y x <= 0) /\
  (forall y x, tr y x -> 0 <= px l y x <= k) /\
  (forall y x, tr y x -> y * nx + x < n -> 0 < px l y x) /\
  (forall y x y' x', tr y x -> tr y' x' -> 0 < px l y x -> px l y x = px l y' x' -> conn y x y' x').

Lemma sound_label n k l l' sy sx label : 0 < label <= k -> sound n k l -> tr sy sx ->
  (forall y x, tr y x -> px l y x = label -> conn sy sx y x) -> labelled sy sx label l l' -> sound n k l'.
Proof.
  intros Hl (K & L & B & T & D & S) Ts Hs (_ & L' & H). split; [exact K|]. split; [exact L'|].
  assert (HC : forall y x, tr y x -> px l' y x = label -> conn sy sx y x).
  { intros y x Tr E. destruct (proj1 (H y x (proj1 Tr)) Tr) as [Q|(Q & C)]; [apply Hs; [exact Tr|congruence]|exact C]. }
  split; [|split; [|split]].
  - intros y x I N. destruct (proj2 (H y x I) N) as [-> | ->]; [now apply B|lia].
  - intros y x Tr. destruct (proj1 (H y x (proj1 Tr)) Tr) as [-> |(-> & _)]; [now apply T|lia].
  - intros y x Tr Hn. destruct (proj1 (H y x (proj1 Tr)) Tr) as [-> |(-> & _)]; [now apply D|lia].
  - intros y x y' x' Tr Tr' P E. destruct (Z.eq_dec (px l' y x) label) as [Q|Q].
    + eapply conn_trans; [apply conn_sym; apply HC; assumption|apply HC; [exact Tr'|congruence]].
    + destruct (proj1 (H y x (proj1 Tr)) Tr) as [Q1|(Q1 & _)]; [|congruence].
      destruct (proj1 (H y' x' (proj1 Tr')) Tr') as [Q2|(Q2 & _)]; [|congruence].
      apply S; [exact Tr|exact Tr'|lia|congruence].
Qed.

(** State while row i is scanned up to column j. *)
Definition scan (i j : Z) (st : Z * Z * list Z) : Prop := let '(k, label, l) := st in
  sound (i * nx + j) k l /\ 0 <= label <= k /\ (label <> 0 -> 0 < j /\ tr i (j - 1) /\ px l i (j - 1) = label).

Lemma sound_false_next i j k l : ~ tr i j -> ins i j -> sound (i * nx + j) k l -> sound (i * nx + j + 1) k l.
Proof.
  intros N Hj (K & L & B & T & D & S). split; [exact K|]. split; [exact L|]. split; [exact B|]. split; [exact T|]. split; [|exact S].
  intros y x Tr Hn. apply D; [exact Tr|]. destruct (Z.eq_dec (y * nx + x) (i * nx + j)); [|lia]. exfalso. apply N.
  destruct Tr as (I & E). destruct (index_inj nx ny y x i j I Hj ltac:(lia)) as (-> & ->). split; assumption.
Qed.

Lemma pixel_ok fuel i j st : ins i j -> scan i j st -> yields (scan i (j + 1)) (ccl_pixel fuel img nx ny i st j).
Proof.
  intros I. destruct st as ((k & label) & l). intros (SD & Hl & Hlab). pose proof SD as (K & L & B & T & D & S). pose proof I as (Iy & Ix).
  unfold ccl_pixel. rewrite get_pix. destruct (img_px i j I) as [Tr|Fa].
  - pose proof Tr as (_ & ->). cbn [of_option bind].
    assert (AD : 0 < j -> adjacent i (j - 1) i j) by (intros X; unfold adjacent; split; [lia|]; split; [lia|]; intros Y; injection Y; lia).
    assert (NEXT : forall k' l', sound (i * nx + j) k' l' -> 0 < px l' i j -> sound (i * nx + j + 1) k' l').
    { intros k' l' (K' & L' & B' & T' & D' & S') P. split; [exact K'|]. split; [exact L'|]. split; [exact B'|]. split; [exact T'|]. split; [|exact S'].
      intros y x Tr2 Hn. destruct (Z.eq_dec (y * nx + x) (i * nx + j)) as [Q|Q]; [|apply D'; [exact Tr2|lia]].
      destruct Tr2 as (I2 & _). destruct (index_inj nx ny y x i j I2 I ltac:(lia)) as (-> & ->). exact P. }
    destruct (Z.eqb_spec label 0) as [->|NL]; cbn [negb].
    + rewrite get_pix, (px_pix l i j L I). cbn [of_option bind].
      destruct (Z.eqb_spec (px l i j) 0) as [Z0|NZ].
      * assert (SD1 : sound (i * nx + j) (k + 1) l).
        { split; [lia|]. split; [exact L|]. split; [exact B|]. split; [intros y x X; specialize (T y x X); lia|]. split; assumption. }
        assert (HS : forall y x, tr y x -> px l y x = k + 1 -> conn i j y x) by (intros y x X E; specialize (T y x X); lia).
        eapply yields_bind; [apply contourtrace_ok; [lia|exact L|exact Tr]|]. intros l1 L1.
        pose proof (sound_label (i * nx + j) (k + 1) l l1 i j (k + 1) ltac:(lia) SD1 Tr HS L1) as SD2. pose proof SD2 as (_ & LL1 & _).
        destruct (set_px l1 i j (k + 1) LL1 I) as (l2 & -> & LL2 & V2 & O2). cbn [of_option bind yields scan].
        assert (LAB : labelled i j (k + 1) l l2).
        { eapply labelled_trans; [exact L1|]. split; [exact LL1|]. split; [exact LL2|]. intros y x Iyx.
          destruct (Z.eq_dec y i) as [->|N]; [destruct (Z.eq_dec x j) as [->|N]|].
          - split; [intros _; right; split; [exact V2|now constructor]|tauto].
          - rewrite O2 by (auto; congruence). auto.
          - rewrite O2 by (auto; congruence). auto. }
        pose proof (sound_label (i * nx + j) (k + 1) l l2 i j (k + 1) ltac:(lia) SD1 Tr HS LAB) as SD3.
        replace (i * nx + (j + 1)) with (i * nx + j + 1) by lia. split; [apply NEXT; [exact SD3|lia]|]. split; [lia|].
        intros _. replace (j + 1 - 1) with j by lia. split; [lia|]. split; [exact Tr|exact V2].
      * pose proof (T i j Tr). cbn [yields scan]. replace (i * nx + (j + 1)) with (i * nx + j + 1) by lia.
        split; [apply NEXT; [exact SD|lia]|]. split; [lia|]. intros _. replace (j + 1 - 1) with j by lia. split; [lia|]. split; [exact Tr|reflexivity].
    + destruct (Hlab NL) as (J0 & TP & EP). destruct (set_px l i j label L I) as (l2 & -> & LL2 & V2 & O2). cbn [of_option bind yields scan].
      assert (LAB : labelled i (j - 1) label l l2).
      { split; [exact L|]. split; [exact LL2|]. intros y x Iyx.
        destruct (Z.eq_dec y i) as [->|N]; [destruct (Z.eq_dec x j) as [->|N]|].
        - split; [intros _; right; split; [exact V2|]|tauto]. eapply conn_step; [constructor; exact TP|apply AD; lia|exact Tr].
        - rewrite O2 by (auto; congruence). auto.
        - rewrite O2 by (auto; congruence). auto. }
      assert (HS : forall y x, tr y x -> px l y x = label -> conn i (j - 1) y x) by (intros y x X E; apply S; [exact TP|exact X|lia|congruence]).
      pose proof (sound_label (i * nx + j) k l l2 i (j - 1) label ltac:(lia) SD TP HS LAB) as SD3.
      replace (i * nx + (j + 1)) with (i * nx + j + 1) by lia. split; [apply NEXT; [exact SD3|lia]|]. split; [lia|].
      intros _. replace (j + 1 - 1) with j by lia. split; [lia|]. split; [exact Tr|exact V2].
  - rewrite Fa. cbn [of_option bind]. assert (NT : ~ tr i j) by (intros (_ & X); congruence).
    destruct (Z.eqb_spec label 0) as [->|NL]; cbn [negb].
    + cbn [yields scan]. replace (i * nx + (j + 1)) with (i * nx + j + 1) by lia. split; [now apply sound_false_next|]. split; [lia|]. intros X; tauto.
    + destruct (Hlab NL) as (J0 & TP & EP). rewrite get_pix, (px_pix l i j L I). cbn [of_option bind].
      eapply (yields_bind (sound (i * nx + j) k)).
      * destruct (px l i j =? 0); [|exact SD].
        eapply yields_weaken; [apply contourtrace_ok; [lia|exact L|exact TP]|]. intros l1 L1.
        apply (sound_label _ _ l l1 i (j - 1) label); [lia|exact SD|exact TP| |exact L1].
        intros y x X E. apply S; [exact TP|exact X|lia|congruence].
      * intros l1 SD1. cbn [yields scan]. replace (i * nx + (j + 1)) with (i * nx + j + 1) by lia.
        split; [now apply sound_false_next|]. split; [lia|]. intros X; tauto.
Qed.

Lemma components_ok fuel l0 : zlen l0 = nx * ny -> (forall y x, ins y x -> px l0 y x = 0) ->
  yields (fun r => sound (nx * ny) (fst r) (snd r) /\ forall y x, ins y x -> ~ tr y x -> px (snd r) y x = 0)
         (connectedcomponents fuel img l0 nx ny).
Proof.
  intros L0 Z0. pose proof HI as (Hx & Hy & _). unfold connectedcomponents.
  eapply (yields_bind (fun st => sound (ny * nx) (fst st) (snd st))).
  - eapply yields_weaken.
    + apply (yields_zrange (ccl_row fuel img nx ny) (fun i st => sound (i * nx) (fst st) (snd st))); [lia| |].
      * cbn [fst snd]. split; [lia|]. split; [exact L0|]. split; [intros y x I _; rewrite Z0 by exact I; lia|].
        split; [intros y x (I & _); rewrite Z0 by exact I; lia|]. split; [intros y x (I & _); unfold inside in I; nia|].
        intros y x y' x' (I & _) _ P. rewrite Z0 in P by exact I. lia.
      * intros i (k & l) Hi SD. cbn [fst snd] in SD. unfold ccl_row. cbn [fst snd].
        eapply (yields_bind (scan i nx)).
        -- replace (scan i nx) with (scan i (nx - 1 + 1)) by (f_equal; lia).
           apply (yields_zrange (ccl_pixel fuel img nx ny i) (scan i)); [lia| |].
           ++ cbn [scan]. rewrite Z.add_0_r. split; [exact SD|]. pose proof SD as (K & _). split; [lia|]. intros X; tauto.
           ++ intros j st Hj SC. apply pixel_ok; [split; lia|exact SC].
        -- intros ((k2 & lab2) & l2) (SC & _). cbn [yields fst snd]. replace ((i + 1) * nx) with (i * nx + nx) by lia. exact SC.
    + intros st H. cbv beta in H. replace (ny - 1 + 1) with ny in H by lia. exact H.
  - intros (k & l) (K & L & B & T & D & S). cbn [yields fst snd] in *.
    set (f := fun v => if v <? 0 then 0 else v).
    assert (PX : forall y x, ins y x -> px (map f l) y x = f (px l y x)).
    { intros y x I. unfold px, pix. pose proof (px_pix l y x L I) as E. unfold pix in E. rewrite E.
      unfold get_at in *. destruct (nx * y + x <? 0); [discriminate|]. rewrite nth_error_map, E. reflexivity. }
    assert (F0 : forall v, 0 <= v -> f v = v) by (intros v Hv; unfold f; destruct (Z.ltb_spec v 0); lia).
    assert (PT : forall y x, tr y x -> px (map f l) y x = px l y x) by (intros y x Tr; rewrite PX by apply Tr; apply F0, T, Tr).
    split; [|intros y x I N; rewrite PX by exact I; specialize (B y x I N); unfold f; destruct (Z.ltb_spec (px l y x) 0); lia].
    split; [exact K|]. split; [unfold zlen; rewrite map_length; exact L|]. split.
    { intros y x I N. rewrite PX by exact I. specialize (B y x I N). unfold f. destruct (Z.ltb_spec (px l y x) 0); lia. }
    split; [intros y x Tr; rewrite PT by exact Tr; now apply T|]. split; [intros y x Tr Hn; rewrite PT by exact Tr; apply D; [exact Tr|lia]|].
    intros y x y' x' Tr Tr'. rewrite !PT by assumption. now apply S.
Qed.

(** Sizes of the objects. *)
Definition true_count (l : list Z) (id n : Z) : Z :=
  fold_right (fun p s => (match get_at img p, get_at l p with Some true, Some v => if v =? id then 1 else 0 | _, _ => 0 end) + s) 0 (zrange 0 (n - 1)).
Lemma true_count_S l id n : 0 <= n -> true_count l id (n + 1) = true_count l id n +
  (match get_at img n, get_at l n with Some true, Some v => if v =? id then 1 else 0 | _, _ => 0 end).
Proof.
  intros Hn. unfold true_count. replace (n + 1 - 1) with n by lia. rewrite (zrange_snoc 0 n) by lia. rewrite fold_right_app. cbn [fold_right].
  generalize (match get_at img n, get_at l n with Some true, Some v => if v =? id then 1 else 0 | _, _ => 0 end) as c. intros c.
  induction (zrange 0 (n - 1)) as [|p q IH]; cbn [fold_right]; [lia|]. rewrite IH. lia.
Qed.

Lemma count_sizes_ok k l : sound (nx * ny) k l ->
  exists ccs, count_sizes img l k (nx * ny) = Ret ccs /\ zlen ccs = k /\ forall id, 1 <= id <= k -> get_at ccs (id - 1) = Some (true_count l id (nx * ny)).
Proof.
  intros (K & L & B & T & D & S). pose proof HI as (Hx & Hy & LI & _). unfold count_sizes.
  match goal with |- context [ofold ?f _ ?s] => destruct (ofold_zrange f (fun n ccs => zlen ccs = k /\ forall id, 1 <= id <= k -> get_at ccs (id - 1) = Some (true_count l id n)) 0 (nx * ny - 1) s) as (ccs & E & LC & V) end.
  - nia.
  - split; [unfold zlen; rewrite repeat_length; lia|]. intros id Hid. unfold true_count. rewrite zrange_nil by lia. cbn [fold_right].
    destruct (get_at_some (repeat 0 (Z.to_nat k)) (id - 1) ltac:(unfold zlen; rewrite repeat_length; lia)) as (v & E). rewrite E.
    apply get_at_In, repeat_spec in E. now subst v.
  - intros n ccs Hn (LC & V). destruct (get_at_some img n ltac:(lia)) as (b & Eb). rewrite Eb. cbn [of_option bind].
    destruct (get_at_some l n ltac:(lia)) as (v & Ev). destruct b.
    + destruct (index_split nx ny n Hx ltac:(lia)) as (In2 & En).
      assert (Tr : tr (n / nx) (n mod nx)) by (split; [exact In2|unfold pix; rewrite En; exact Eb]).
      assert (Q : px l (n / nx) (n mod nx) = v) by (unfold px, pix; rewrite En, Ev; reflexivity).
      pose proof (D _ _ Tr ltac:(lia)). pose proof (T _ _ Tr). rewrite Ev. cbn [of_option bind].
      rewrite (V v) by lia. cbn [of_option bind].
      assert (ES : set_at ccs (v - 1) (true_count l v n + 1) = Some (list_set ccs (Z.to_nat (v - 1)) (true_count l v n + 1))) by (apply set_at_some; lia).
      eexists; split; [rewrite ES; reflexivity|]. split; [rewrite (set_at_length _ _ _ _ ES); exact LC|]. intros id Hid.
      rewrite true_count_S, Eb, Ev by lia. destruct (Z.eqb_spec v id) as [<- |N].
      * exact (get_set_same _ _ _ _ ES).
      * rewrite (get_set_other _ _ _ (id - 1) _ ES) by lia. rewrite V by lia. f_equal. lia.
    + eexists; split; [reflexivity|]. split; [exact LC|]. intros id Hid. rewrite true_count_S, Eb by lia. rewrite V by lia. f_equal. lia.
  - exists ccs. split; [exact E|]. split; [exact LC|]. intros id Hid. rewrite V by exact Hid. f_equal. f_equal. lia.
Qed.

(** Labels of the background are zero, so counting TRUE pixels with a label is counting the label. *)
Lemma true_count_label l id : zlen l = nx * ny -> (forall y x, ins y x -> ~ tr y x -> px l y x = 0) -> 1 <= id -> true_count l id (nx * ny) = label_count l id.
Proof.
  intros L Z0 Hid. pose proof HI as (Hx & Hy & LI & _). unfold label_count.
  assert (Q : forall n, 0 <= n <= nx * ny -> true_count l id n = Z.of_nat (count_occ Z.eq_dec (firstn (Z.to_nat n) l) id)).
  { intros n Hn. remember (Z.to_nat n) as m eqn:Em. revert n Hn Em. induction m as [|m IH]; intros n Hn Em.
    - assert (n = 0) by lia. subst n. reflexivity.
    - replace n with (n - 1 + 1) by lia. rewrite true_count_S by lia. rewrite (IH (n - 1)) by lia.
      destruct (get_at_some img (n - 1) ltac:(lia)) as (b & Eb). destruct (get_at_some l (n - 1) ltac:(lia)) as (v & Ev). rewrite Eb, Ev.
      assert (F : firstn (S m) l = firstn m l ++ [v]).
      { unfold get_at in Ev. destruct (Z.ltb_spec (n - 1) 0); [lia|]. replace (Z.to_nat (n - 1)) with m in Ev by lia.
        clear -Ev. revert l Ev. induction m as [|m IH]; intros [|a l] E; try discriminate; cbn [nth_error] in E.
        - injection E as ->. reflexivity.
        - cbn [firstn app]. f_equal. apply (IH l E). }
      rewrite F, count_occ_app. cbn [count_occ].
      destruct (index_split nx ny (n - 1) Hx ltac:(lia)) as (In2 & En).
      destruct b.
      + destruct (Z.eq_dec v id) as [->|N]; [rewrite Z.eqb_refl; lia|]. destruct (Z.eqb_spec v id); [tauto|lia].
      + assert (NT : ~ tr ((n - 1) / nx) ((n - 1) mod nx)) by (intros (_ & X); unfold pix in X; rewrite En in X; congruence).
        specialize (Z0 _ _ In2 NT). unfold px, pix in Z0. rewrite En, Ev in Z0. destruct (Z.eq_dec v id); lia. }
  rewrite Q by nia. rewrite firstn_all2; [reflexivity|]. unfold zlen in L. lia.
Qed.
End Ccl.

Lemma drop_small_ok img nx ny k l ccs nmin : image img nx ny -> sound img nx ny (nx * ny) k l -> zlen ccs = k ->
  exists im, drop_small img l ccs nmin (nx * ny) = Ret im /\ zlen im = nx * ny /\
    forall p, get_at im p = Some true -> get_at img p = Some true.
Proof.
  intros HI (K & L & B & T & D & S) LC. pose proof HI as (Hx & Hy & LI & _). unfold drop_small.
  match goal with |- context [ofold ?f _ ?s] => destruct (ofold_zrange f (fun n im => zlen im = nx * ny /\ forall p, get_at im p = Some true -> get_at img p = Some true) 0 (nx * ny - 1) s) as (im & E & V) end.
  - nia.
  - split; auto.
  - intros n im Hn (LM & V). destruct (get_at_some im n ltac:(lia)) as (b & Eb). rewrite Eb. cbn [of_option bind]. destruct b.
    + destruct (get_at_some l n ltac:(lia)) as (v & Ev). rewrite Ev. cbn [of_option bind].
      destruct (index_split nx ny n Hx ltac:(lia)) as (In2 & En).
      assert (Tr : is_true img nx ny (n / nx) (n mod nx)) by (split; [exact In2|unfold pix; rewrite En; now apply V]).
      assert (Q : px nx l (n / nx) (n mod nx) = v) by (unfold px, pix; rewrite En, Ev; reflexivity).
      pose proof (D _ _ Tr ltac:(lia)). pose proof (T _ _ Tr).
      destruct (get_at_some ccs (v - 1) ltac:(lia)) as (c & Ec). rewrite Ec. cbn [of_option bind].
      destruct (c <? nmin); [|exists im; auto].
      assert (ES : set_at im n false = Some (list_set im (Z.to_nat n) false)) by (apply set_at_some; lia).
      eexists; split; [rewrite ES; reflexivity|]. split; [rewrite (set_at_length _ _ _ _ ES); exact LM|]. intros p X.
      destruct (Z.eq_dec p n) as [->|N]; [rewrite (get_set_same _ _ _ _ ES) in X; discriminate|].
      rewrite (get_set_other _ _ _ p _ ES) in X by auto. now apply V.
    + exists im. auto.
  - exists im. split; [exact E|exact V].
Qed.

Lemma clear_ok img nx ny l : image img nx ny -> zlen l = nx * ny -> (forall y x, inside nx ny y x -> ~ is_true img nx ny y x -> px nx l y x = 0) ->
  clear_background img l (nx * ny) = Ret l.
Proof.
  intros HI L Z0. pose proof HI as (Hx & Hy & LI & _). unfold clear_background.
  match goal with |- context [ofold ?f _ ?s] => destruct (ofold_zrange f (fun n c => c = l) 0 (nx * ny - 1) s) as (c & E & ->) end.
  - nia.
  - reflexivity.
  - intros n c Hn ->. destruct (get_at_some img n ltac:(lia)) as (b & Eb). rewrite Eb. cbn [of_option bind]. destruct b; [eauto|].
    destruct (index_split nx ny n Hx ltac:(lia)) as (In2 & En).
    assert (NT : ~ is_true img nx ny (n / nx) (n mod nx)) by (intros (_ & X); unfold pix in X; rewrite En in X; congruence).
    specialize (Z0 _ _ In2 NT). destruct (get_at_some l n ltac:(lia)) as (v & Ev). unfold px, pix in Z0. rewrite En, Ev in Z0. subst v.
    assert (ES : set_at l n 0 = Some (list_set l (Z.to_nat n) 0)) by (apply set_at_some; lia). rewrite ES. cbn [of_option].
    eexists; split; [reflexivity|]. apply get_at_ext; [now rewrite (set_at_length _ _ _ _ ES)|]. intros p Hp.
    destruct (Z.eq_dec p n) as [->|N]; [rewrite Ev; exact (get_set_same _ _ _ _ ES)|]. apply (get_set_other _ _ _ _ _ ES). auto.
  - exact E.
Qed.
