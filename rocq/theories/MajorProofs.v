From Coq Require Import Lia List ZifyBool.
From Verif Require Import Base BaseFacts Loops LoopsFacts ImgSpec ImgFacts MajorModel MajorSpec.
Import ListNotations.
#[local] Open Scope Z_scope.

Definition one (img : list bool) (q : Z) : Z := match get_at img q with Some true => 1 | _ => 0 end.
Definition cnt (img : list bool) (l : list Z) : Z := fold_right (fun q s => one img q + s) 0 l.

Lemma cnt_app img a b : cnt img (a ++ b) = cnt img a + cnt img b.
Proof. induction a as [|x a IH]; cbn [app cnt fold_right]; [reflexivity|]. unfold cnt in *. lia. Qed.

Lemma around_cnt img nx ny i j : around img nx ny i j = cnt img (neighbours nx ny i j).
Proof.
  unfold neighbours. cbn [flat_map fst snd]. rewrite !cnt_app. cbn [cnt fold_right].
  assert (Q : forall a b, cnt img (if (a <? 0) || (a >=? ny) || (b <? 0) || (b >=? nx) then [] else [a * nx + b]) = truth img nx ny a b).
  { intros a b. unfold truth, one, pix. replace (nx * a + b) with (a * nx + b) by ring.
    destruct ((a <? 0) || (a >=? ny) || (b <? 0) || (b >=? nx)) eqn:E1; destruct ((0 <=? a) && (a <? ny) && (0 <=? b) && (b <? nx)) eqn:E2; try lia; cbn [cnt fold_right]; unfold one; lia. }
  rewrite !Q. unfold around. replace (i + -1) with (i - 1) by lia. replace (j + -1) with (j - 1) by lia.
  replace (i + 0) with i by lia. replace (j + 0) with j by lia. lia.
Qed.

Lemma neighbours_in nx ny i j q : In q (neighbours nx ny i j) -> 0 <= q < nx * ny.
Proof.
  unfold neighbours. intros H. apply in_flat_map in H. destruct H as (d & _ & H). cbv zeta beta iota in H.
  destruct ((i + fst d <? 0) || (i + fst d >=? ny) || (j + snd d <? 0) || (j + snd d >=? nx)) eqn:E; [destruct H|].
  destruct H as [<- |[]]. set (a := i + fst d) in *. set (b := j + snd d) in *. nia.
Qed.

Section Major.
Context (img : list bool) (nx ny : Z).
Hypothesis HI : image img nx ny.
Notation nb p := (neighbours nx ny (p / nx) (p mod nx)).

Definition grown (a b : list bool) : Prop := zlen a = zlen b /\ forall p, get_at a p = Some true -> get_at b p = Some true.

Lemma grown_refl a : grown a a.
Proof. split; auto. Qed.
Lemma grown_cnt a b l : grown a b -> cnt a l <= cnt b l.
Proof.
  intros (_ & G). induction l as [|q l IH]; cbn [cnt fold_right]; [lia|]. unfold cnt in *.
  assert (one a q <= one b q); [|lia]. unfold one. destruct (get_at a q) as [[]|] eqn:E; [rewrite (G q E); lia| |]; destruct (get_at b q) as [[]|]; lia.
Qed.

Definition pok (image : list bool) (p : Z) (ph : phase) : Prop :=
  match ph with
  | Todo => get_at image p = get_at img p
  | Count rest k => get_at image p = Some false /\ get_at img p = Some false /\ exists past, nb p = past ++ rest /\ cnt img past <= k <= cnt image past
  | Done => (get_at image p = get_at img p /\ (get_at img p = Some false -> cnt img (nb p) < 5)) \/
            (get_at img p = Some false /\ get_at image p = Some true /\ 5 <= cnt image (nb p))
  end.
Definition minv (st : mstate) : Prop := grown img (m_image st) /\ zlen (m_phase st) = zlen img /\
  forall p ph, get_at (m_phase st) p = Some ph -> pok (m_image st) p ph.

Lemma pok_grow a b p ph : grown a b -> get_at a p = get_at b p -> pok a p ph -> pok b p ph.
Proof.
  intros G E. unfold pok. destruct ph as [|rest k|].
  - congruence.
  - intros (A & B & past & N & K). split; [congruence|]. split; [exact B|]. exists past. split; [exact N|]. pose proof (grown_cnt a b past G). lia.
  - intros [(A & B)|(A & B & C)]; [left; split; [congruence|exact B]|right]. split; [exact A|]. split; [congruence|].
    pose proof (grown_cnt a b (nb p) G). lia.
Qed.

Lemma step_ok st p : minv st -> 0 <= p < nx * ny -> exists st', step nx ny st p = Ret st' /\ minv st' /\ grown (m_image st) (m_image st').
Proof.
  intros (G & LP & P) Hp. pose proof HI as (Hnx & Hny & LI & _). pose proof G as (LG & GG). unfold step.
  destruct (get_at_some (m_phase st) p ltac:(lia)) as (ph & EP). rewrite EP. cbn [of_option bind]. pose proof (P p ph EP) as PP.
  assert (PH : forall ph', exists phs, set_at (m_phase st) p ph' = Some phs /\ zlen phs = zlen img /\
             forall q, get_at phs q = if Z.eq_dec q p then Some ph' else get_at (m_phase st) q).
  { intros ph'. assert (E : set_at (m_phase st) p ph' = Some (list_set (m_phase st) (Z.to_nat p) ph')) by (apply set_at_some; lia).
    eexists; split; [exact E|]. split; [rewrite (set_at_length _ _ _ _ E); exact LP|]. intros q. destruct (Z.eq_dec q p) as [->|N].
    - exact (get_set_same _ _ _ _ E).
    - apply (get_set_other _ _ _ _ _ E); auto. }
  assert (KEEP : forall ph', pok (m_image st) p ph' -> exists phs, set_at (m_phase st) p ph' = Some phs /\ minv (mkM (m_image st) phs)).
  { intros ph' K. destruct (PH ph') as (phs & E & L & V). exists phs. split; [exact E|]. split; [exact G|]. split; [exact L|].
    intros q ph2 Eq. cbn [m_phase m_image] in *. rewrite V in Eq. destruct (Z.eq_dec q p) as [->|N]; [injection Eq as <-; exact K|now apply P]. }
  destruct ph as [|[|q rest] k|].
  - destruct (get_at_some (m_image st) p ltac:(lia)) as (b & Eb). rewrite Eb. cbn [of_option bind]. cbn [pok] in PP.
    destruct (KEEP (if b then Done else Count (nb p) 0)) as (phs & -> & M).
    { destruct b; cbn [pok].
      - left. split; [exact PP|]. congruence.
      - split; [exact Eb|]. split; [congruence|]. exists []. split; [reflexivity|]. cbn. lia. }
    cbn [of_option bind]. eexists; split; [reflexivity|]. split; [exact M|apply grown_refl].
  - destruct PP as (A & B & past & N & K). rewrite app_nil_r in N. destruct (Z.geb_spec k 5) as [G5|L5].
    + assert (E : set_at (m_image st) p true = Some (list_set (m_image st) (Z.to_nat p) true)) by (apply set_at_some; lia).
      rewrite E. cbn [of_option bind]. set (im := list_set (m_image st) (Z.to_nat p) true) in *.
      assert (V : forall q, get_at im q = if Z.eq_dec q p then Some true else get_at (m_image st) q).
      { intros q. destruct (Z.eq_dec q p) as [->|X]; [exact (get_set_same _ _ _ _ E)|apply (get_set_other _ _ _ _ _ E); auto]. }
      assert (GR : grown (m_image st) im).
      { split; [now rewrite (set_at_length _ _ _ _ E)|]. intros q Q. rewrite V. destruct (Z.eq_dec q p); auto. }
      destruct (PH Done) as (phs & -> & L & W). cbn [of_option bind]. eexists; split; [reflexivity|]. split; [|exact GR].
      split; [split; [cbn [m_image]; destruct GR; lia|intros q Q; cbn [m_image]; apply GR, GG, Q]|]. split; [exact L|].
      intros q ph2 Eq. cbn [m_phase m_image] in *. rewrite W in Eq. destruct (Z.eq_dec q p) as [->|X].
      * injection Eq as <-. cbn [pok]. right. split; [exact B|]. split; [rewrite V; destruct (Z.eq_dec p p); [reflexivity|tauto]|].
        rewrite N. pose proof (grown_cnt _ _ past GR). lia.
      * apply (pok_grow (m_image st)); [exact GR| |now apply P]. rewrite V. destruct (Z.eq_dec q p); [tauto|reflexivity].
    + cbn [bind]. destruct (KEEP Done) as (phs & -> & M).
      { cbn [pok]. left. split; [congruence|]. intros _. rewrite N. lia. }
      cbn [of_option bind]. eexists; split; [reflexivity|]. split; [exact M|apply grown_refl].
  - destruct PP as (A & B & past & N & K).
    assert (Hq : 0 <= q < nx * ny) by (apply (neighbours_in nx ny (p / nx) (p mod nx)); rewrite N; apply in_app_iff; right; now left).
    destruct (get_at_some (m_image st) q ltac:(lia)) as (b & Eb). rewrite Eb. cbn [of_option bind].
    destruct (KEEP (Count rest (k + if b then 1 else 0))) as (phs & -> & M).
    { cbn [pok]. split; [exact A|]. split; [exact B|]. exists (past ++ [q]). split; [rewrite <- app_assoc; exact N|].
      rewrite !cnt_app. cbn [cnt fold_right]. assert (one img q <= (if b then 1 else 0) <= one (m_image st) q).
      { unfold one. rewrite Eb. destruct b; [destruct (get_at img q) as [[]|]; lia|].
        destruct (get_at img q) as [[]|] eqn:Eq; [apply GG in Eq; congruence|lia|lia]. }
      lia. }
    cbn [of_option bind]. eexists; split; [reflexivity|]. split; [exact M|apply grown_refl].
  - exists st. split; [reflexivity|]. split; [split; auto|apply grown_refl].
Qed.

Lemma run_ok schedule : Forall (fun p => 0 <= p < nx * ny) schedule -> exists st, run img nx ny schedule = Ret st /\ minv st.
Proof.
  intros F. unfold run.
  assert (I0 : minv (start img)).
  { unfold start. split; [apply grown_refl|]. split; [unfold zlen; cbn [m_phase]; now rewrite repeat_length|].
    intros p ph E. cbn [m_phase m_image] in *. apply get_at_In in E. apply repeat_spec in E. subst ph. reflexivity. }
  revert I0. generalize (start img). induction F as [|p l Hp F IH]; intros st I; cbn [ofold]; [exists st; auto|].
  destruct (step_ok st p I Hp) as (st' & -> & I' & _). cbn [bind]. now apply IH.
Qed.
End Major.
