From Coq Require Import Lia List ZifyBool.
From Verif Require Import Base BaseFacts Loops LoopsFacts ImgSpec ImgFacts QueueModel QueueSpec QueueProofs RecoModel RecoSpec.
Import ListNotations.
#[local] Open Scope Z_scope.

(** Value of a pixel. *)
Definition pv (M : list Z) (nx i j : Z) : Z := match pix M nx i j with Some v => v | None => 0 end.

Lemma pv_pix M nx ny i j : zlen M = nx * ny -> inside nx ny i j -> pix M nx i j = Some (pv M nx i j).
Proof. intros L I. unfold pv. destruct (pix_some M nx ny i j L I) as (v & ->). reflexivity. Qed.

Lemma set_pv M nx ny i j v : zlen M = nx * ny -> inside nx ny i j ->
  exists M', set_at M (i * nx + j) v = Some M' /\ zlen M' = nx * ny /\ pv M' nx i j = v /\
    forall a b, inside nx ny a b -> (a, b) <> (i, j) -> pv M' nx a b = pv M nx a b.
Proof.
  intros L I. destruct (set_pix M nx ny i j v L I) as (M' & E & L' & V & O). exists M'. split; [exact E|]. split; [exact L'|].
  split; [unfold pv; now rewrite V|]. intros a b Iab N. unfold pv. now rewrite (O a b Iab N).
Qed.

(** Raster order. *)
Definition before (a b i j : Z) : Prop := a < i \/ (a = i /\ b < j).

(** Neighbour cells that precede resp. follow. *)
Definition c1 : list (Z * Z) := [(-1, -1); (-1, 0); (-1, 1); (0, -1)].
Definition c2 : list (Z * Z) := [(1, 1); (1, 0); (1, -1); (0, 1)].
Definition off (nx : Z) (c : Z * Z) : Z := fst c * nx + snd c.

Lemma np1_c1 nx : np1 nx = map (off nx) c1.
Proof. unfold np1, c1, off. cbn [map fst snd]. repeat (apply (f_equal2 cons); [ring|]). reflexivity. Qed.
Lemma np2_c2 nx : np2 nx = map (off nx) c2.
Proof. unfold np2, c2, off. cbn [map fst snd]. repeat (apply (f_equal2 cons); [ring|]). reflexivity. Qed.

Lemma adjacent_before i j i' j' : adjacent i' j' i j -> before i' j' i j -> In (i' - i, j' - j) c1.
Proof.
  unfold adjacent, before. intros (A & B & N) H.
  assert (Q : (i' - i = -1 /\ (j' - j = -1 \/ j' - j = 0 \/ j' - j = 1)) \/ (i' - i = 0 /\ j' - j = -1)) by lia.
  unfold c1. cbn [In]. destruct Q as [(-> & [-> | [-> | ->]])|(-> & ->)]; auto 6.
Qed.
Lemma adjacent_after i j i' j' : adjacent i' j' i j -> ~ before i' j' i j -> In (i' - i, j' - j) c2.
Proof.
  unfold adjacent, before. intros (A & B & N) H.
  assert (NN : ~ (i' = i /\ j' = j)) by (intros (-> & ->); tauto).
  assert (Q : (i' - i = 1 /\ (j' - j = -1 \/ j' - j = 0 \/ j' - j = 1)) \/ (i' - i = 0 /\ j' - j = 1)) by lia.
  unfold c2. cbn [In]. destruct Q as [(-> & [-> | [-> | ->]])|(-> & ->)]; auto 6.
Qed.
Lemma adjacent_eight i j i' j' : adjacent i' j' i j -> In (i' - i, j' - j) eight.
Proof.
  unfold adjacent. intros (A & B & N).
  assert (NN : ~ (i' = i /\ j' = j)) by (intros (-> & ->); tauto).
  assert (P : i' - i = -1 \/ i' - i = 0 \/ i' - i = 1) by lia. assert (Q : j' - j = -1 \/ j' - j = 0 \/ j' - j = 1) by lia.
  unfold eight. cbn [In]. destruct P as [P|[P|P]], Q as [Q|[Q|Q]]; rewrite ?P, ?Q; auto 10. exfalso. apply NN. lia.
Qed.
Lemma cells_adjacent c i j : In c c1 \/ In c c2 \/ In c eight -> adjacent (i + fst c) (j + snd c) i j.
Proof.
  intros H. assert (Q : In c eight).
  { destruct H as [H|[H|H]]; [| |exact H]; unfold c1, c2, eight in *; cbn [In] in *;
      (destruct H as [H|[H|[H|[H|[]]]]]; subst c; auto 10). }
  unfold eight in Q. cbn [In] in Q. unfold adjacent.
  repeat (destruct Q as [<- | Q]; [cbn [fst snd]; split; [lia|]; split; [lia|]; intros X; injection X; lia|]). destruct Q.
Qed.

Lemma adjacent_sym a b i j : adjacent a b i j -> adjacent i j a b.
Proof. unfold adjacent. intros (A & B & N). split; [lia|]. split; [lia|]. intros X. apply N. congruence. Qed.
Lemma interior_inside nx ny i j : interior nx ny i j -> inside nx ny i j.
Proof. unfold interior, inside. lia. Qed.
Lemma interior_adjacent nx ny i j a b : interior nx ny i j -> adjacent a b i j -> inside nx ny a b.
Proof. unfold interior, inside, adjacent. lia. Qed.
Lemma border_or_interior nx ny i j : inside nx ny i j -> on_border nx ny i j \/ interior nx ny i j.
Proof. unfold on_border, interior, inside. lia. Qed.
Lemma border_not_interior nx ny i j : on_border nx ny i j -> ~ interior nx ny i j.
Proof. unfold on_border, interior, inside. lia. Qed.

Section Reco.
Context (mask : list Z) (nx ny : Z).
Hypothesis HI : image mask nx ny.
Notation ins := (inside nx ny).
Notation itr := (interior nx ny).
Notation rch := (reach mask nx ny).
Notation mk := (pv mask nx).

(** The marker never falls below the flood level and equals the mask at the border. *)
Definition base (M : list Z) : Prop :=
  zlen M = nx * ny /\ (forall a b, on_border nx ny a b -> pv M nx a b = mk a b) /\
  (forall a b v, ins a b -> pv M nx a b <= v -> rch v a b).

Lemma reach_mask v i j : rch v i j -> mk i j <= v.
Proof. intros R. destruct R as [i j k _ E K|i j i' j' k _ _ _ E K]; unfold pv; rewrite E; exact K. Qed.

Lemma base_mask M a b : base M -> ins a b -> mk a b <= pv M nx a b.
Proof. intros (_ & _ & S) I. apply reach_mask, S; [exact I|lia]. Qed.

Lemma reach_next v i j i' j' : ins i j -> adjacent i' j' i j -> rch v i' j' -> mk i j <= v -> rch v i j.
Proof.
  intros I A R K. apply (reach_step mask nx ny v i j i' j' (mk i j) R A I); [|exact K]. apply (pv_pix mask nx ny); [apply HI|exact I].
Qed.

(** Lowering an interior pixel to the level of a neighbour. *)
Lemma base_set M M' i j a b : base M -> itr i j -> adjacent a b i j ->
  zlen M' = nx * ny -> pv M' nx i j = Z.max (pv M nx a b) (mk i j) ->
  (forall a b, ins a b -> (a, b) <> (i, j) -> pv M' nx a b = pv M nx a b) -> base M'.
Proof.
  intros (L & B & S) I A L' V O. pose proof (interior_inside _ _ _ _ I) as II. split; [exact L'|]. split.
  - intros c d Bd. rewrite O; [now apply B|apply Bd|]. intros X. injection X as -> ->. exact (border_not_interior _ _ _ _ Bd I).
  - intros c d v Icd Hv. destruct (Z.eq_dec c i) as [->|N]; [destruct (Z.eq_dec d j) as [->|N]|].
    + rewrite V in Hv. apply (reach_next v i j a b II A); [|lia]. apply S; [exact (interior_adjacent _ _ _ _ _ _ I A)|lia].
    + rewrite O in Hv by (auto; congruence). now apply S.
    + rewrite O in Hv by (auto; congruence). now apply S.
Qed.
Lemma base_same M M' i j : base M -> itr i j -> zlen M' = nx * ny -> pv M' nx i j = pv M nx i j ->
  (forall a b, ins a b -> (a, b) <> (i, j) -> pv M' nx a b = pv M nx a b) -> base M'.
Proof.
  intros (L & B & S) I L' V O.
  assert (Q : forall a b, ins a b -> pv M' nx a b = pv M nx a b).
  { intros a b H. destruct (Z.eq_dec a i) as [->|N]; [destruct (Z.eq_dec b j) as [->|N]|]; [exact V| |]; apply O; auto; congruence. }
  split; [exact L'|]. split.
  - intros a b H. rewrite Q by apply H. now apply B.
  - intros a b v H. rewrite Q by exact H. now apply S.
Qed.

(** [stable M i j a b]: the level of (a, b) has been passed on to its neighbour (i, j). *)
Definition stable (M : list Z) (i j a b : Z) : Prop := pv M nx i j <= Z.max (pv M nx a b) (mk i j).

Lemma all_stable M : base M -> (forall i j a b, itr i j -> adjacent a b i j -> stable M i j a b) ->
  forall i j, ins i j -> flood_level mask nx ny i j (pv M nx i j).
Proof.
  intros (L & B & S) ST i j I v. split; [now apply S|]. intros R. induction R as [i j k Bd E K|i j i' j' k R IH A I' E K].
  - rewrite B by exact Bd. unfold pv. now rewrite E.
  - assert (I2 : ins i' j') by (destruct R as [? ? ? Bd|]; [apply Bd|assumption]). specialize (IH I2).
    destruct (border_or_interior _ _ _ _ I) as [Bd|Int].
    + rewrite B by exact Bd. unfold pv. now rewrite E.
    + pose proof (ST i j i' j' Int A) as X. unfold stable in X. unfold pv in X at 3. rewrite E in X. lia.
Qed.

(** [lowest] over a list of neighbour cells. *)
Lemma lowest_ok M i j cs : zlen M = nx * ny -> forall m0,
  (forall c, In c cs -> ins (i + fst c) (j + snd c)) ->
  exists m, lowest M (i * nx + j) (map (off nx) cs) m0 = Ret m /\ m <= m0 /\
    (forall c, In c cs -> m <= pv M nx (i + fst c) (j + snd c)) /\
    (m = m0 \/ exists c, In c cs /\ m = pv M nx (i + fst c) (j + snd c)).
Proof.
  intros L. unfold lowest. induction cs as [|c cs IH]; intros m0 H; cbn [map ofold].
  - exists m0. split; [reflexivity|]. split; [lia|]. split; [intros c []|auto].
  - replace (i * nx + j + off nx c) with ((i + fst c) * nx + (j + snd c)) by (unfold off; ring).
    rewrite get_pix. rewrite (pv_pix M nx ny) by (auto; apply H; now left). cbn [of_option bind].
    set (v := pv M nx (i + fst c) (j + snd c)).
    destruct (IH (if v <? m0 then v else m0)) as (m & E & H1 & H2 & H3); [intros d Hd; apply H; now right|].
    exists m. split; [exact E|]. split; [destruct (Z.ltb_spec v m0); lia|]. split.
    + intros d [<- | Hd]; [fold v; destruct (Z.ltb_spec v m0); lia|now apply H2].
    + destruct H3 as [H3|(d & Hd & H3)]; [|right; exists d; split; [now right|exact H3]].
      destruct (Z.ltb_spec v m0); [right; exists c; split; [now left|exact H3]|now left].
Qed.

(** One pixel of a sequential scan. *)
Lemma seq_ok M i j cs : base M -> itr i j -> (forall c, In c cs -> adjacent (i + fst c) (j + snd c) i j) ->
  exists M', seq_cell mask M (map (off nx) cs) (i * nx + j) = Ret M' /\ base M' /\
    pv M' nx i j <= pv M nx i j /\
    (forall c, In c cs -> stable M' i j (i + fst c) (j + snd c)) /\
    (forall a b, ins a b -> (a, b) <> (i, j) -> pv M' nx a b = pv M nx a b).
Proof.
  intros B I A. pose proof B as (L & _ & _). pose proof (interior_inside _ _ _ _ I) as II. unfold seq_cell.
  rewrite get_pix, (pv_pix M nx ny) by assumption. cbn [of_option bind].
  destruct (lowest_ok M i j cs L (pv M nx i j)) as (m & -> & H1 & H2 & H3); [intros c Hc; apply (interior_adjacent nx ny i j); auto|]. cbn [bind].
  rewrite get_pix, (pv_pix mask nx ny) by (auto; apply HI). cbn [of_option bind].
  pose proof (base_mask M i j B II) as BM.
  destruct (set_pv M nx ny i j (if m >? mk i j then m else mk i j) L II) as (M' & -> & L' & V & O). cbn [of_option].
  assert (V' : pv M' nx i j = Z.max m (mk i j)) by (rewrite V; destruct (Z.gtb_spec m (mk i j)); lia).
  exists M'. split; [reflexivity|]. split; [|split; [|split; [|exact O]]].
  - destruct H3 as [->|(c & Hc & ->)].
    + apply (base_same M M' i j); auto. lia.
    + apply (base_set M M' i j (i + fst c) (j + snd c)); auto.
  - lia.
  - intros c Hc. unfold stable. rewrite V'. specialize (H2 c Hc). pose proof (A c Hc) as Ac.
    rewrite (O (i + fst c) (j + snd c)); [lia|exact (interior_adjacent _ _ _ _ _ _ I Ac)|].
    destruct Ac as (_ & _ & N). exact N.
Qed.

(** Raster scan. *)
Definition rinv (i j : Z) (M : list Z) : Prop := base M /\
  forall a b c d, itr a b -> before a b i j -> adjacent c d a b -> before c d a b -> stable M a b c d.

Lemma raster_ok M : 3 <= nx -> 3 <= ny -> base M -> exists M', raster mask nx ny M = Ret M' /\ base M' /\
  forall a b c d, itr a b -> adjacent c d a b -> before c d a b -> stable M' a b c d.
Proof.
  intros Hx Hy B. unfold raster.
  match goal with |- context [ofold ?f _ _] => destruct (ofold_zrange f (fun i => rinv i 1) 1 (ny - 2) M) as (M' & E & B' & ST) end.
  - lia.
  - split; [exact B|]. unfold interior, before. intros a b c d ? ?. lia.
  - intros i M1 Hi (B1 & S1).
    match goal with |- context [ofold ?f _ _] => destruct (ofold_zrange f (fun j => rinv i j) 1 (nx - 2) M1) as (M2 & E & B2 & S2) end.
    + lia.
    + split; assumption.
    + intros j M2 Hj (B2 & S2). rewrite np1_c1.
      assert (I : itr i j) by (unfold interior; lia).
      destruct (seq_ok M2 i j c1 B2 I) as (M3 & E & B3 & D3 & S3 & O3); [intros c Hc; apply cells_adjacent; auto|].
      exists M3. split; [exact E|]. split; [exact B3|]. intros a b c d Iab BF A BF2.
      destruct (Z.eq_dec a i) as [->|N]; [destruct (Z.eq_dec b j) as [->|N]|].
      * pose proof (S3 _ (adjacent_before _ _ _ _ A BF2)) as X. cbn [fst snd] in X.
        replace (i + (c - i)) with c in X by lia. replace (j + (d - j)) with d in X by lia. exact X.
      * assert (BF' : before i b i j) by (unfold before in *; lia).
        unfold stable in *. rewrite !O3; [now apply S2|exact (interior_adjacent _ _ _ _ _ _ Iab A)| |apply interior_inside; exact Iab|congruence].
        intros X. injection X as -> ->. unfold before in *. lia.
      * assert (BF' : before a b i j) by (unfold before in *; lia).
        unfold stable in *. rewrite !O3; [now apply S2|exact (interior_adjacent _ _ _ _ _ _ Iab A)| |apply interior_inside; exact Iab|congruence].
        intros X. injection X as -> ->. unfold before in *. lia.
    + exists M2. split; [exact E|]. split; [exact B2|]. intros a b c d Iab BF. apply S2; [exact Iab|]. unfold before, interior in *. lia.
  - exists M'. split; [exact E|]. split; [exact B'|]. intros a b c d Iab. apply ST; [exact Iab|]. unfold before, interior in *. lia.
Qed.

(** Initial marker. *)
Lemma mask_max_ok : exists mx, mask_max mask (nx * ny) = Ret mx /\ forall a b, ins a b -> mk a b <= mx.
Proof.
  pose proof HI as (Hx & Hy & L & _). unfold mask_max.
  match goal with |- context [ofold ?f _ ?s] =>
    destruct (ofold_zrange f (fun k mx => forall p v, 0 <= p < k -> get_at mask p = Some v -> v <= mx) 0 (nx * ny - 1) s) as (mx & E & H) end.
  - nia.
  - intros; lia.
  - intros k mx Hk H. destruct (get_at_some mask k ltac:(lia)) as (v & E). rewrite E. cbn [of_option bind].
    eexists; split; [reflexivity|]. intros p w Hp Ew. destruct (Z.eq_dec p k) as [->|].
    + assert (v = w) by congruence. subst w. destruct (Z.gtb_spec v mx); lia.
    + specialize (H p w ltac:(lia) Ew). destruct (Z.gtb_spec v mx); lia.
  - exists mx. split; [exact E|]. intros a b I. pose proof (index_range _ _ _ _ I).
    apply (H (nx * a + b)); [lia|]. exact (pv_pix mask nx ny a b L I).
Qed.

Lemma all_reach v : (forall a b, ins a b -> mk a b <= v) -> forall i j, ins i j -> rch v i j.
Proof.
  intros H i j I. pose proof HI as (Hx & Hy & L & _).
  remember (Z.to_nat i) as n eqn:En. revert i I En. induction n as [|n IH]; intros i I En.
  - destruct I as (A & B). assert (i = 0) by lia. subst i. assert (I : ins 0 j) by (split; lia).
    apply (reach_border mask nx ny v 0 j (mk 0 j)); [split; [exact I|auto]|exact (pv_pix _ _ _ _ _ L I)|auto].
  - apply (reach_next v i j (i - 1) j I); [| |auto].
    + unfold adjacent. split; [lia|]. split; [lia|]. intros X. injection X. lia.
    + apply IH; [destruct I; split; lia|lia].
Qed.

Lemma init_ok mx M : zlen M = nx * ny -> (forall a b, ins a b -> mk a b <= mx) ->
  exists M', init_marker mask mx nx ny M = Ret M' /\ base M' /\ forall a b, ins a b -> pv M' nx a b <= mx.
Proof.
  intros LM Hmx. pose proof HI as (Hx & Hy & L & _). unfold init_marker.
  set (good := fun i j (N : list Z) => zlen N = nx * ny /\ forall a b, ins a b -> before a b i j ->
         (on_border nx ny a b -> pv N nx a b = mk a b) /\ (itr a b -> pv N nx a b = mx)).
  match goal with |- context [ofold ?f _ ?s] => destruct (ofold_zrange f (fun i => good i 0) 0 (ny - 1) s) as (M' & E & L' & G) end.
  - lia.
  - split; [exact LM|]. unfold before, inside. intros; lia.
  - intros i N Hi G.
    match goal with |- context [ofold ?f _ ?s] => destruct (ofold_zrange f (fun j => good i j) 0 (nx - 1) s) as (N' & E & LN' & G') end.
    + lia.
    + exact G.
    + intros j N1 Hj (L1 & G1). assert (I : ins i j) by (split; lia).
      assert (Q : exists N2, init_cell mask mx nx ny i N1 j = Ret N2 /\ zlen N2 = nx * ny /\
                 ((on_border nx ny i j -> pv N2 nx i j = mk i j) /\ (itr i j -> pv N2 nx i j = mx)) /\
                 forall a b, ins a b -> (a, b) <> (i, j) -> pv N2 nx a b = pv N1 nx a b).
      { unfold init_cell. destruct ((i =? 0) || (j =? 0) || (i =? ny - 1) || (j =? nx - 1)) eqn:C.
        - rewrite get_pix, (pv_pix mask nx ny) by auto. cbn [of_option bind].
          destruct (set_pv N1 nx ny i j (mk i j) L1 I) as (N2 & -> & L2 & V2 & O2). exists N2. split; [reflexivity|]. split; [exact L2|].
          split; [|exact O2]. split; [auto|]. unfold interior. lia.
        - destruct (set_pv N1 nx ny i j mx L1 I) as (N2 & -> & L2 & V2 & O2). exists N2. split; [reflexivity|]. split; [exact L2|].
          split; [|exact O2]. split; [|auto]. unfold on_border. lia. }
      destruct Q as (N2 & E2 & L2 & V2 & O2). exists N2. split; [exact E2|]. split; [exact L2|]. intros a b Iab BF.
      destruct (Z.eq_dec a i) as [->|X]; [destruct (Z.eq_dec b j) as [->|X]|]; [exact V2| |].
      * rewrite O2 by (auto; congruence). apply G1; [exact Iab|]. unfold before in *. lia.
      * rewrite O2 by (auto; congruence). apply G1; [exact Iab|]. unfold before in *. lia.
    + exists N'. split; [exact E|]. split; [exact LN'|]. intros a b Iab BF. apply G'; [exact Iab|]. unfold before, inside in *. lia.
  - assert (G2 : forall a b, ins a b -> (on_border nx ny a b -> pv M' nx a b = mk a b) /\ (itr a b -> pv M' nx a b = mx)).
    { intros a b Iab. apply G; [exact Iab|]. unfold before, inside in *. lia. }
    exists M'. split; [exact E|]. split; [split; [exact L'|split]|].
    + intros a b Bd. apply G2; [apply Bd|exact Bd].
    + intros a b v Iab Hv. destruct (border_or_interior _ _ _ _ Iab) as [Bd|Int].
      * rewrite (proj1 (G2 a b Iab) Bd) in Hv. apply (reach_border mask nx ny v a b (mk a b) Bd); [exact (pv_pix _ _ _ _ _ L Iab)|exact Hv].
      * rewrite (proj2 (G2 a b Iab) Int) in Hv. apply all_reach; [|exact Iab]. intros c d Icd. specialize (Hmx c d Icd). lia.
    + intros a b Iab. destruct (border_or_interior _ _ _ _ Iab) as [Bd|Int].
      * rewrite (proj1 (G2 a b Iab) Bd). now apply Hmx.
      * rewrite (proj2 (G2 a b Iab) Int). lia.
Qed.

(** The queue holds interior pixels only. *)
Hypothesis Hsx : nx <= 32768.
Hypothesis Hsy : ny <= 32768.

Definition cells_in (l : list (Z * Z)) : Prop := forall x y, In (x, y) l -> itr y x.

Definition fine (st : rstate) (l : list (Z * Z)) : Prop := r_rc st = SUCCESS /\ qrep (r_queue st) l /\ cells_in l.

Lemma put_ok st l M i j : qrep (r_queue st) l -> cells_in l -> itr i j ->
  exists st', put st M j i = Ret st' /\ r_marker st' = M /\ (r_rc st' = FAILURE \/ fine st' (l ++ [(j, i)])).
Proof.
  intros Q C I. unfold put. destruct (enqueue_rep (r_queue st) l j i Q) as (q' & -> & S & Q'). cbn [bind fst snd].
  eexists; split; [reflexivity|]. split; [reflexivity|]. destruct (zlen l <? size (r_queue st) - 1); [|left; reflexivity].
  right. split; [reflexivity|]. cbn [r_queue].
  assert (SP : short_pair (j, i) = (j, i)).
  { unfold short_pair. cbn [fst snd]. unfold interior in I. rewrite !to_short_id by (unfold in_short; lia). reflexivity. }
  rewrite SP in Q'. split; [exact Q'|]. intros x y H. apply in_app_iff in H. destruct H as [H|[H|[]]]; [now apply C|].
  injection H as <- <-. exact I.
Qed.

Lemma check_ok i j M : base M -> itr i j -> forall cs st l, (forall c, In c cs -> adjacent (i + fst c) (j + snd c) i j) ->
  fine st l -> r_marker st = M ->
  exists st', ofold (check_cell mask nx i j) (map (off nx) cs) st = Ret st' /\ r_marker st' = M /\
    (r_rc st' = FAILURE \/ exists l', fine st' l' /\ incl l l' /\
       forall c, In c cs -> ~ stable M (i + fst c) (j + snd c) i j -> In (j, i) l').
Proof.
  intros B I. pose proof B as (L & _ & _). pose proof (interior_inside _ _ _ _ I) as II.
  assert (F : forall cs st, r_rc st = FAILURE -> ofold (check_cell mask nx i j) cs st = Ret st).
  { induction cs as [|c cs IH]; intros st H; cbn [ofold]; [reflexivity|]. unfold check_cell at 1. unfold returned. rewrite H. cbn [bind]. now apply IH. }
  induction cs as [|c cs IH]; intros st l A Fi EM; cbn [map ofold].
  - exists st. split; [reflexivity|]. split; [exact EM|]. right. exists l. split; [exact Fi|]. split; [apply incl_refl|]. intros c [].
  - pose proof Fi as (RC & Q & C). pose proof (A c (or_introl eq_refl)) as Ac.
    pose proof (interior_adjacent _ _ _ _ _ _ I Ac) as IA.
    assert (E : exists st', check_cell mask nx i j st (off nx c) = Ret st' /\ r_marker st' = M /\
      (r_rc st' = FAILURE \/ exists l', fine st' l' /\ incl l l' /\ (~ stable M (i + fst c) (j + snd c) i j -> In (j, i) l'))).
    { unfold check_cell. unfold returned. rewrite RC. cbv zeta.
      replace (i * nx + j + off nx c) with ((i + fst c) * nx + (j + snd c)) by (unfold off; ring).
      rewrite EM, !get_pix, !(pv_pix M nx ny) by assumption. rewrite (pv_pix mask nx ny) by (auto; apply HI). cbn [of_option bind].
      destruct ((pv M nx (i + fst c) (j + snd c) >? pv M nx i j) && (pv M nx (i + fst c) (j + snd c) >? mk (i + fst c) (j + snd c))) eqn:G.
      - destruct (put_ok st l M i j Q C I) as (st' & -> & EM' & P). exists st'. split; [reflexivity|]. split; [exact EM'|].
        destruct P as [P|P]; [now left|right]. exists (l ++ [(j, i)]). split; [exact P|]. split; [apply incl_appl, incl_refl|].
        intros _. apply in_app_iff. right. now left.
      - exists st. split; [reflexivity|]. split; [exact EM|]. right. exists l. split; [exact Fi|]. split; [apply incl_refl|].
        intros NS. exfalso. apply NS. unfold stable. lia. }
    destruct E as (st1 & -> & EM1 & P). cbn [bind]. destruct P as [P|(l1 & F1 & I1 & U1)].
    + exists st1. rewrite F by exact P. auto.
    + destruct (IH st1 l1) as (st2 & E2 & EM2 & P2); [intros d Hd; apply A; now right|exact F1|exact EM1|].
      exists st2. split; [exact E2|]. split; [exact EM2|]. destruct P2 as [P2|(l2 & F2 & I2 & U2)]; [now left|right].
      exists l2. split; [exact F2|]. split; [eapply incl_tran; eassumption|]. intros d [<- | Hd] NS; [now apply I2, U1|now apply (U2 d)].
Qed.

(** Anti-raster scan: all pixels from (i, j) on are done. *)
Definition ainv (i j : Z) (st : rstate) : Prop := base (r_marker st) /\
  (r_rc st = FAILURE \/ exists l, fine st l /\
     (forall a b c d, itr a b -> ~ before a b i j -> adjacent c d a b -> ~ before c d a b -> stable (r_marker st) a b c d) /\
     (forall a b c d, itr a b -> adjacent c d a b -> before c d a b ->
        stable (r_marker st) a b c d \/ (~ before c d i j /\ In (d, c) l))).

Lemma anti_cell_ok i j st : itr i j -> ainv i (j + 1) st -> exists st', anti_cell mask nx i st j = Ret st' /\ ainv i j st'.
Proof.
  intros I (B & P). unfold anti_cell, returned. destruct P as [P|(l & F & SA & SB)].
  - rewrite P. exists st. split; [reflexivity|]. split; [exact B|now left].
  - pose proof F as (RC & Q & C). rewrite RC, np2_c2. set (M := r_marker st) in *.
    destruct (seq_ok M i j c2 B I) as (M1 & -> & B1 & D1 & S1 & O1); [intros c Hc; apply cells_adjacent; auto|]. cbn [bind].
    destruct (check_ok i j M1 B1 I c2 (mkR SUCCESS M1 (r_queue st)) l) as (st2 & -> & EM2 & P2); [intros c Hc; apply cells_adjacent; auto| |reflexivity|].
    { split; [reflexivity|]. split; [exact Q|exact C]. }
    exists st2. split; [reflexivity|]. unfold ainv. rewrite EM2. split; [exact B1|].
    destruct P2 as [P2|(l2 & F2 & I2 & U2)]; [now left|right]. exists l2. split; [exact F2|]. split.
    + intros a b c d Iab NB A NB2. destruct (Z.eq_dec a i) as [->|X]; [destruct (Z.eq_dec b j) as [->|X]|].
      * pose proof (S1 _ (adjacent_after _ _ _ _ A NB2)) as Y. cbn [fst snd] in Y.
        replace (i + (c - i)) with c in Y by lia. replace (j + (d - j)) with d in Y by lia. exact Y.
      * unfold stable. rewrite !O1; [apply SA; auto; unfold before in *; lia|exact (interior_adjacent _ _ _ _ _ _ Iab A)| |now apply interior_inside|congruence].
        intros Y. injection Y as -> ->. unfold before in *. lia.
      * unfold stable. rewrite !O1; [apply SA; auto; unfold before in *; lia|exact (interior_adjacent _ _ _ _ _ _ Iab A)| |now apply interior_inside|congruence].
        intros Y. injection Y as -> ->. unfold before in *. lia.
    + intros a b c d Iab A BF.
      destruct (Z.eq_dec c i) as [->|X]; [destruct (Z.eq_dec d j) as [->|X]|].
      * (* the source is the current pixel *)
        destruct (Z_le_gt_dec (pv M1 nx a b) (Z.max (pv M1 nx i j) (mk a b))) as [LE|GT]; [now left|right].
        split; [unfold before; lia|]. apply (U2 (a - i, b - j)).
        -- apply adjacent_after; [now apply adjacent_sym|]. unfold before in *. lia.
        -- cbn [fst snd]. replace (i + (a - i)) with a by lia. replace (j + (b - j)) with b by lia. unfold stable. lia.
      * destruct (SB a b i d Iab A BF) as [S|(NB & Hin)]; [|right; split; [unfold before in *; lia|now apply I2]].
        left. unfold stable in *. rewrite (O1 i d); [|exact (interior_adjacent _ _ _ _ _ _ Iab A)|congruence].
        destruct (Z.eq_dec a i) as [->|Y]; [destruct (Z.eq_dec b j) as [->|Y]|]; [lia| |]; (rewrite O1; [exact S|now apply interior_inside|congruence]).
      * destruct (SB a b c d Iab A BF) as [S|(NB & Hin)]; [|right; split; [unfold before in *; lia|now apply I2]].
        left. unfold stable in *. rewrite (O1 c d); [|exact (interior_adjacent _ _ _ _ _ _ Iab A)|congruence].
        destruct (Z.eq_dec a i) as [->|Y]; [destruct (Z.eq_dec b j) as [->|Y]|]; [lia| |]; (rewrite O1; [exact S|now apply interior_inside|congruence]).
Qed.

(** Every pixel that still has to pass its level on is in the queue. *)
Definition qinv (st : rstate) : Prop := base (r_marker st) /\
  (r_rc st = FAILURE \/ exists l, fine st l /\
     forall a b c d, itr a b -> adjacent c d a b -> stable (r_marker st) a b c d \/ In (d, c) l).

Lemma anti_ok M q : 3 <= nx -> 3 <= ny -> base M -> qrep q [] ->
  (forall a b c d, itr a b -> adjacent c d a b -> before c d a b -> stable M a b c d) ->
  exists st, anti_raster mask nx ny (mkR SUCCESS M q) = Ret st /\ qinv st.
Proof.
  intros Hx Hy B Q S. unfold anti_raster.
  match goal with |- context [ofold ?f _ ?s] => destruct (ofold_zrange_rev f (fun i => ainv i 1) 1 (ny - 2) s) as (st & E & B' & P) end.
  - lia.
  - split; [exact B|]. right. exists []. split; [split; [reflexivity|split; [exact Q|intros x y []]]|]. split.
    + unfold interior, before. intros a b c d ? ?. lia.
    + intros a b c d Iab A BF. left. now apply S.
  - intros i st Hi (B1 & P1).
    match goal with |- context [ofold ?f _ ?s] => destruct (ofold_zrange_rev f (fun j => ainv i j) 1 (nx - 2) s) as (st' & E & A) end.
    + lia.
    + split; [exact B1|]. destruct P1 as [P1|(l & F & SA & SB)]; [now left|right]. exists l. split; [exact F|]. split.
      * intros a b c d Iab NB. apply SA; [exact Iab|]. unfold before, interior in *. lia.
      * intros a b c d Iab A BF. destruct (SB a b c d Iab A BF) as [X|(X & Y)]; [now left|right]. split; [unfold before in *; lia|exact Y].
    + intros j st2 Hj A. apply anti_cell_ok; [unfold interior; lia|exact A].
    + exists st'. split; [exact E|exact A].
  - exists st. split; [exact E|]. split; [exact B'|]. destruct P as [P|(l & F & SA & SB)]; [now left|right]. exists l. split; [exact F|].
    intros a b c d Iab A. assert (D : before c d a b \/ ~ before c d a b) by (unfold before; lia). destruct D as [D|D].
    + destruct (SB a b c d Iab A D) as [X|(_ & X)]; auto.
    + left. apply SA; auto. unfold before, interior in *. lia.
Qed.

(** Sum of all pixels. *)
Definition total (M : list Z) : Z := fold_right Z.add 0 M.
Lemma total_list_set M : forall n v old, nth_error M n = Some old -> total (list_set M n v) = total M - old + v.
Proof.
  induction M as [|x M IH]; intros n v old E; [destruct n; discriminate|].
  destruct n as [|n]; cbn [nth_error] in E; cbn [list_set total fold_right].
  - injection E as ->. fold (total M). lia.
  - specialize (IH n v old E). unfold total in *. lia.
Qed.
Lemma total_set M M' i j v : zlen M = nx * ny -> ins i j -> set_at M (i * nx + j) v = Some M' -> total M' = total M - pv M nx i j + v.
Proof.
  intros L I E. pose proof (pv_pix M nx ny i j L I) as P. unfold pix in P. replace (i * nx + j) with (nx * i + j) in E by ring.
  pose proof (index_range _ _ _ _ I). unfold set_at in E. unfold get_at in P.
  destruct (Z.ltb_spec (nx * i + j) 0); [lia|]. cbn [orb] in E.
  match type of E with (if ?b then _ else _) = _ => destruct b; [discriminate|] end.
  injection E as <-. now apply total_list_set.
Qed.
Lemma total_le (A : list Z) : forall B, zlen A = zlen B -> (forall k a b, get_at A k = Some a -> get_at B k = Some b -> a <= b) -> total A <= total B.
Proof.
  induction A as [|a A IH]; intros [|b B] L H; unfold zlen in L; cbn [length] in L; try lia.
  cbn [total fold_right]. assert (a <= b) by (apply (H 0); reflexivity).
  assert (total A <= total B); [|unfold total in *; lia]. apply IH; [unfold zlen; lia|]. intros k x y Ex Ey.
  pose proof (get_at_inv _ _ _ Ex). apply (H (k + 1)); rewrite get_at_cons by lia; assumption.
Qed.
Lemma base_total M : base M -> total mask <= total M.
Proof.
  intros B. pose proof B as (L & _ & _). pose proof HI as (Hx & Hy & Lm & _). apply total_le; [lia|].
  intros k a b Ea Eb. pose proof (get_at_inv _ _ _ Ea) as R.
  destruct (index_split nx ny k Hx ltac:(lia)) as (I & E). pose proof (base_mask M _ _ B I) as X. unfold pv, pix in X. rewrite E, Ea, Eb in X. exact X.
Qed.

(** Propagation from (i, j); [rest] are the neighbours still to be visited. *)
Definition pinv (i j : Z) (l0 : Z) (t0 : Z) (rest : list (Z * Z)) (st : rstate) : Prop := base (r_marker st) /\
  (r_rc st = FAILURE \/ exists l, fine st l /\ zlen l + total (r_marker st) <= l0 + t0 /\
     forall a b c d, itr a b -> adjacent c d a b -> stable (r_marker st) a b c d \/ In (d, c) l \/ ((c, d) = (i, j) /\ In (a - i, b - j) rest)).

Lemma prop_ok i j l0 t0 : itr i j -> forall cs st, (forall c, In c cs -> adjacent (i + fst c) (j + snd c) i j) -> pinv i j l0 t0 cs st ->
  exists st', ofold (prop_cell mask nx i j) cs st = Ret st' /\ pinv i j l0 t0 [] st'.
Proof.
  intros I. pose proof (interior_inside _ _ _ _ I) as II.
  induction cs as [|c cs IH]; intros st A (B & P); cbn [ofold]; [exists st; split; [reflexivity|split; assumption]|].
  pose proof B as (L & _ & _).
  assert (E : exists st', prop_cell mask nx i j st c = Ret st' /\ pinv i j l0 t0 cs st').
  { unfold prop_cell, returned. destruct P as [P|(l & F & T & U)].
    - rewrite P. exists st. split; [reflexivity|]. split; [exact B|now left].
    - pose proof F as (RC & Q & C). rewrite RC. cbv zeta. set (M := r_marker st) in *.
      pose proof (A c (or_introl eq_refl)) as Ac. pose proof (interior_adjacent _ _ _ _ _ _ I Ac) as IA.
      replace ((i + fst c) * nx + j + snd c) with ((i + fst c) * nx + (j + snd c)) by ring.
      replace (nx * i + j) with (i * nx + j) by ring.
      set (a := i + fst c) in *. set (b := j + snd c) in *.
      rewrite !get_pix, !(pv_pix M nx ny) by assumption. rewrite (pv_pix mask nx ny) by (auto; apply HI). cbn [of_option bind].
      assert (CE : c = (a - i, b - j)) by (unfold a, b; destruct c; cbn [fst snd]; f_equal; lia).
      destruct ((pv M nx a b >? pv M nx i j) && negb (mk a b =? pv M nx a b)) eqn:G.
      + pose proof (base_mask M a b B IA) as BM.
        assert (Int : itr a b).
        { destruct (border_or_interior _ _ _ _ IA) as [Bd|X]; [|exact X]. pose proof B as (_ & BB & _). specialize (BB a b Bd). lia. }
        destruct (set_pv M nx ny a b (if pv M nx i j >? mk a b then pv M nx i j else mk a b) L IA) as (M' & E' & L' & V & O).
        pose proof (total_set M M' a b _ L IA E') as TT. rewrite E'. cbn [of_option bind].
        assert (V' : pv M' nx a b = Z.max (pv M nx i j) (mk a b)) by (rewrite V; destruct (Z.gtb_spec (pv M nx i j) (mk a b)); lia).
        rewrite <- V in TT.
        destruct (put_ok st l M' a b Q C Int) as (st' & -> & EM' & P'). exists st'. split; [reflexivity|]. unfold pinv. rewrite EM'.
        split; [apply (base_set M M' a b i j B Int (adjacent_sym _ _ _ _ Ac) L' V' O)|].
        destruct P' as [P'|P']; [now left|right]. exists (l ++ [(b, a)]). split; [exact P'|]. split; [rewrite zlen_app; lia|].
        intros a' b' c' d' Iab Aab.
        destruct (Z.eq_dec c' a) as [->|X]; [destruct (Z.eq_dec d' b) as [->|X]|].
        * right; left. apply in_app_iff. right. now left.
        * assert (OC : pv M' nx a d' = pv M nx a d') by (apply O; [exact (interior_adjacent _ _ _ _ _ _ Iab Aab)|congruence]).
          destruct (U a' b' a d' Iab Aab) as [S|[S|(S1 & S2)]]; [left| right; left; apply in_app_iff; now left|].
          -- unfold stable in *. rewrite OC. destruct (Z.eq_dec a' a) as [->|Y]; [destruct (Z.eq_dec b' b) as [->|Y]|]; [lia| |];
               (rewrite O; [exact S|now apply interior_inside|congruence]).
          -- destruct S2 as [S2|S2]; [|right; right; split; [exact S1|exact S2]]. left. injection S1 as S1 S3.
             rewrite CE in S2. injection S2 as S2 S4. assert (a' = a) by lia. assert (b' = b) by lia. subst a' b'.
             assert (OD : pv M nx a d' = pv M nx i j) by (rewrite S1, S3; reflexivity).
             unfold stable. rewrite V', OC, OD. lia.
        * assert (OC : pv M' nx c' d' = pv M nx c' d') by (apply O; [exact (interior_adjacent _ _ _ _ _ _ Iab Aab)|congruence]).
          destruct (U a' b' c' d' Iab Aab) as [S|[S|(S1 & S2)]]; [left| right; left; apply in_app_iff; now left|].
          -- unfold stable in *. rewrite OC. destruct (Z.eq_dec a' a) as [->|Y]; [destruct (Z.eq_dec b' b) as [->|Y]|]; [lia| |];
               (rewrite O; [exact S|now apply interior_inside|congruence]).
          -- destruct S2 as [S2|S2]; [|right; right; split; [exact S1|exact S2]]. left. injection S1 as S1 S3.
             rewrite CE in S2. injection S2 as S2 S4. assert (a' = a) by lia. assert (b' = b) by lia. subst a' b'.
             assert (OD : pv M nx c' d' = pv M nx i j) by (rewrite S1, S3; reflexivity).
             unfold stable. rewrite V', OC, OD. lia.
      + exists st. split; [reflexivity|]. split; [exact B|]. right. exists l. split; [exact F|]. split; [exact T|].
        intros a' b' c' d' Iab Aab. destruct (U a' b' c' d' Iab Aab) as [S|[S|(S1 & S2)]]; [now left|right; now left|].
        destruct S2 as [S2|S2]; [|right; right; split; assumption]. left. injection S1 as -> ->.
        rewrite CE in S2. injection S2 as S2 S4. assert (a' = a) by lia. assert (b' = b) by lia. subst a' b'. unfold stable. fold M. lia. }
  destruct E as (st' & -> & P'). cbn [bind]. apply IH; [|exact P']. intros d Hd. apply A. now right.
Qed.

Lemma drain_ok : forall fuel st, qinv st ->
  (forall l, fine st l -> zlen l + total (r_marker st) - total mask < Z.of_nat fuel) -> (0 < fuel)%nat ->
  exists st', drain fuel mask nx st = Ret st' /\ base (r_marker st') /\
    (r_rc st' = FAILURE \/ (r_rc st' = SUCCESS /\ forall a b c d, itr a b -> adjacent c d a b -> stable (r_marker st') a b c d)).
Proof.
  induction fuel as [|n IH]; intros st (B & P) HF H0; [lia|]. cbn [drain]. unfold returned. destruct P as [P|(l & F & U)].
  - rewrite P. exists st. auto.
  - pose proof F as (RC & Q & C). rewrite RC. destruct (dequeue_rep (r_queue st) l Q) as (q' & -> & S & Q'). cbn [bind].
    destruct l as [|(x, y) l].
    + exists (mkR SUCCESS (r_marker st) q'). split; [reflexivity|]. split; [exact B|]. right. split; [reflexivity|].
      intros a b c d Iab A. destruct (U a b c d Iab A) as [X|[]]. exact X.
    + cbn [tl] in Q'. specialize (HF _ F). rewrite zlen_cons in HF.
      assert (Iyx : itr y x) by (apply C; now left).
      destruct (prop_ok y x (zlen l) (total (r_marker st)) Iyx eight (mkR SUCCESS (r_marker st) q')) as (st1 & -> & B1 & P1).
      * intros c Hc. apply cells_adjacent. auto.
      * split; [exact B|]. right. exists l. split; [split; [reflexivity|split; [exact Q'|intros a b H; apply C; now right]]|].
        cbn [r_marker]. split; [lia|]. intros a b c d Iab A. destruct (U a b c d Iab A) as [X|[X|X]]; [now left| |right; now left].
        right; right. injection X as <- <-. split; [reflexivity|]. apply adjacent_eight. now apply adjacent_sym.
      * cbn [bind]. pose proof (base_total _ B1) as BT. pose proof (base_total _ B) as BT0. pose proof (zlen_nonneg l).
        destruct P1 as [P1|(l1 & F1 & T1 & U1)].
        -- destruct n as [|n]; [lia|]. cbn [drain]. unfold returned. rewrite P1. exists st1. auto.
        -- apply IH; [split; [exact B1|right; exists l1; split; [exact F1|]] | |lia].
           ++ intros a b c d Iab A. destruct (U1 a b c d Iab A) as [X|[X|(_ & [])]]; auto.
           ++ intros l2 F2. assert (zlen l2 = zlen l1).
              { destruct F1 as (_ & (_ & _ & _ & _ & _ & E1 & _) & _). destruct F2 as (_ & (_ & _ & _ & _ & _ & E2 & _) & _). lia. }
              lia.
Qed.
End Reco.
