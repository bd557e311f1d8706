(** The cumulated shares of a season. *)
From Coq Require Import Reals Lra.
From Flocq Require Import Core IEEE754.BinarySingleNaN.
From Verif Require Import Base BaseFacts Float FloatFacts FloatInt RoundModel RoundFacts PolModel PolSpec PolFloat.
#[local] Open Scope Z_scope.

(** The total of the run at the head of a list with running sums. *)
Fixpoint run_total (l : list polar) : f32 :=
  match l with
  | [] => zero32
  | p :: r => match r with [] => p_cum p | q :: _ => if p_season p =? p_season q then run_total r else p_cum p end
  end.
Fixpoint norm (l : list polar) : list polar :=
  match l with [] => [] | p :: r => with_cum p (f32_div (p_cum p) (run_total l)) :: norm r end.

Fixpoint after (s : Z) (sum : f32) (l : list polar) : Z * f32 :=
  match l with [] => (s, sum) | p :: r => after (p_season p) (if p_season p =? s then sum else p_cum p) r end.

Lemma shares_app l1 l2 : forall s sum, shares s sum (l1 ++ l2) =
  shares s sum l1 ++ shares (fst (after s sum l1)) (snd (after s sum l1)) l2.
Proof. induction l1 as [|p r IH]; intros s sum; cbn [shares app after]; [reflexivity|]. rewrite IH. reflexivity. Qed.
Lemma after_app l1 l2 : forall s sum, after s sum (l1 ++ l2) = after (fst (after s sum l1)) (snd (after s sum l1)) l2.
Proof. induction l1 as [|p r IH]; intros s sum; cbn [after app]; [reflexivity|]. apply IH. Qed.

Lemma shares_norm p r : forall q t, rev (p :: r) = q :: t ->
  after (p_season q) (p_cum q) (rev (p :: r)) = (p_season p, run_total (p :: r)) /\
  rev (shares (p_season q) (p_cum q) (rev (p :: r))) = norm (p :: r).
Proof.
  revert p. induction r as [|p' r IH]; intros p q t E.
  - cbn in E. injection E as <- <-. cbn. rewrite Z.eqb_refl. split; reflexivity.
  - cbn [rev] in E |- *. destruct (rev r ++ [p']) as [|q' t'] eqn:E'.
    { destruct (rev r); discriminate. }
    cbn [app] in E. injection E as <- _.
    assert (rev (p' :: r) = q' :: t') as E2 by exact E'.
    destruct (IH p' q' t' E2) as [I1 I2]. cbn [rev] in I1, I2. rewrite E' in I1, I2.
    rewrite after_app, shares_app, rev_app_distr, I1, I2. cbn [fst snd after shares rev app].
    split; [|reflexivity]. cbn [run_total]. reflexivity.
Qed.

Lemma accumulate_norm p r : accumulate (p :: r) = Ret (norm (with_cum p (p_val p) :: running (p_season p) (p_val p) r)).
Proof.
  cbn [accumulate]. set (up := with_cum p (p_val p) :: running (p_season p) (p_val p) r).
  destruct (rev up) as [|q t] eqn:E.
  - apply (f_equal (@rev _)) in E. rewrite rev_involutive in E. discriminate.
  - f_equal. rewrite <- E. apply (shares_norm _ _ q t E).
Qed.

(** Running sums, run by run. *)
Fixpoint after_run (s : Z) (c : f32) (l : list polar) : Z * f32 :=
  match l with [] => (s, c) | p :: r => after_run (p_season p) (if p_season p =? s then f32_add c (p_val p) else p_val p) r end.
Lemma running_app l1 l2 : forall s c, running s c (l1 ++ l2) =
  running s c l1 ++ running (fst (after_run s c l1)) (snd (after_run s c l1)) l2.
Proof. induction l1 as [|p r IH]; intros s c; cbn [running app after_run]; [reflexivity|]. rewrite IH. reflexivity. Qed.
Lemma after_run_season s c l : forall d, l <> [] -> fst (after_run s c l) = p_season (last l d).
Proof.
  revert s c. induction l as [|p r IH]; intros s c d N; [congruence|]. cbn [after_run].
  destruct r as [|q r]; [reflexivity|]. rewrite (IH _ _ d) by discriminate. reflexivity.
Qed.

(** A list of entries with given cumulated values. *)
Definition put (l : list polar) (cs : list f32) : list polar := map (fun q => with_cum (fst q) (snd q)) (combine l cs).

Lemma run_sums_length c l : length (run_sums c l) = length l.
Proof. revert c. induction l as [|v r IH]; intros c; cbn; auto. Qed.
Lemma sums_length l : length (sums l) = length l.
Proof. destruct l; cbn [sums length]; auto. rewrite run_sums_length. reflexivity. Qed.

Lemma running_same s l : Forall (fun p => p_season p = s) l -> forall c,
  running s c l = put l (run_sums c (map p_val l)).
Proof.
  induction 1 as [|p r E F IH]; intros c; cbn [running map run_sums]; [reflexivity|].
  rewrite E, Z.eqb_refl. unfold put. cbn [combine map fst snd]. f_equal. apply IH.
Qed.
Lemma running_new s s' c l : Forall (fun p => p_season p = s) l -> s' <> s ->
  running s' c l = put l (sums (map p_val l)).
Proof.
  intros F N. destruct F as [|p r E F]; cbn [running map sums]; [reflexivity|].
  replace (p_season p =? s') with false by lia. unfold put. cbn [combine map fst snd]. f_equal. rewrite E. apply running_same, F.
Qed.
Lemma put_fields l cs : length cs = length l -> Forall2 same_but_cum l (put l cs).
Proof.
  revert cs. induction l as [|p r IH]; intros [|c cs] E; cbn in E; try discriminate; unfold put; cbn [combine map]; constructor.
  - unfold same_but_cum. cbn. reflexivity.
  - apply IH. lia.
Qed.
Lemma same_season p q : same_but_cum p q -> p_season q = p_season p.
Proof. intros ->. reflexivity. Qed.
Lemma same_val p q : same_but_cum p q -> p_val q = p_val p.
Proof. intros ->. reflexivity. Qed.
Lemma same_ce p q : same_but_cum p q -> p_ce q = p_ce p.
Proof. intros ->. reflexivity. Qed.
Lemma running_fields s c l : Forall2 same_but_cum l (running s c l).
Proof. revert s c. induction l as [|p r IH]; intros s c; cbn [running]; constructor; auto. unfold same_but_cum. reflexivity. Qed.
Lemma norm_fields l : Forall2 same_but_cum l (norm l).
Proof. induction l as [|p r IH]; cbn [norm]; constructor; auto. reflexivity. Qed.
Lemma same_trans p q r : same_but_cum p q -> same_but_cum q r -> same_but_cum p r.
Proof. unfold same_but_cum. intros -> ->. reflexivity. Qed.
Lemma F2_trans (P : polar -> polar -> Prop) : (forall a b c, P a b -> P b c -> P a c) ->
  forall l1 l2 l3, Forall2 P l1 l2 -> Forall2 P l2 l3 -> Forall2 P l1 l3.
Proof. intros T l1 l2 l3 A. revert l3. induction A; intros l3 B; inversion B; subst; constructor; eauto. Qed.

(** Normalising, run by run. *)
Lemma norm_app_run s l B : l <> [] -> Forall (fun p => p_season p = s) l ->
  match B with [] => True | q :: _ => p_season q <> s end ->
  norm (l ++ B) = map (fun p => with_cum p (f32_div (p_cum p) (p_cum (last l polar0)))) l ++ norm B.
Proof.
  intros N F H.
  assert (forall l', l' <> [] -> Forall (fun p => p_season p = s) l' -> run_total (l' ++ B) = p_cum (last l' polar0)) as T.
  { induction l' as [|p r IH]; intros N' F'; [congruence|]. inversion F' as [|? ? Fp Fr]; subst.
    destruct r as [|q r].
    - cbn [app run_total last]. destruct B as [|q B]; [reflexivity|]. replace (p_season p =? p_season q) with false by lia. reflexivity.
    - change (run_total ((p :: q :: r) ++ B)) with (if p_season p =? p_season q then run_total ((q :: r) ++ B) else p_cum p).
      inversion Fr as [|? ? Fq Fr']; subst. replace (p_season p =? p_season q) with true by lia.
      rewrite IH by (auto; discriminate). reflexivity. }
  enough (forall t l', l' <> [] -> Forall (fun p => p_season p = s) l' -> p_cum (last l' polar0) = t ->
    norm (l' ++ B) = map (fun p => with_cum p (f32_div (p_cum p) t)) l' ++ norm B) as G by (apply G; auto).
  intros t l'. induction l' as [|p r IH]; intros N' F' Q; [congruence|].
  change ((p :: r) ++ B) with (p :: (r ++ B)). cbn [norm map]. change (p :: (r ++ B)) with ((p :: r) ++ B).
  rewrite T by auto. rewrite Q. cbn [app]. f_equal.
  destruct r as [|q r]; [reflexivity|]. inversion F'; subst. apply IH; auto. discriminate.
Qed.
Lemma norm_app A B : A <> [] -> match B with [] => True | q :: _ => p_season q <> p_season (last A polar0) end ->
  norm (A ++ B) = norm A ++ norm B.
Proof.
  intros N H.
  assert (forall A', A' <> [] -> match B with [] => True | q :: _ => p_season q <> p_season (last A' polar0) end ->
    run_total (A' ++ B) = run_total A') as T.
  { induction A' as [|p r IH]; intros N' H'; [congruence|]. destruct r as [|q r].
    - cbn [app run_total]. destruct B as [|q B]; [reflexivity|]. cbn in H'. replace (p_season p =? p_season q) with false by lia. reflexivity.
    - change (run_total ((p :: q :: r) ++ B)) with (if p_season p =? p_season q then run_total ((q :: r) ++ B) else p_cum p).
      change (run_total (p :: q :: r)) with (if p_season p =? p_season q then run_total (q :: r) else p_cum p).
      rewrite IH by (auto; discriminate). reflexivity. }
  induction A as [|p r IH]; [congruence|]. cbn [app norm]. f_equal.
  - rewrite <- (T (p :: r)) by auto. reflexivity.
  - destruct r as [|q r]; [reflexivity|]. apply IH; [discriminate|auto].
Qed.

(** The whole: the shares of a season, wherever it stands in the series. *)
Definition shares_of (seg : list polar) : list f32 :=
  map (fun c => f32_div c (last (sums (map p_val seg)) zero32)) (sums (map p_val seg)).

Lemma last_put l cs : l <> [] -> length cs = length l -> p_cum (last (put l cs) polar0) = last cs zero32.
Proof.
  revert cs. induction l as [|p r IH]; intros [|c cs] N E; cbn in E; try discriminate; [congruence|].
  destruct r as [|q r]; destruct cs as [|c' cs]; cbn in E; try discriminate; [reflexivity|].
  change (put (p :: q :: r) (c :: c' :: cs)) with (with_cum p c :: put (q :: r) (c' :: cs)).
  change (last (c :: c' :: cs) zero32) with (last (c' :: cs) zero32).
  rewrite <- IH by (try discriminate; cbn; lia). reflexivity.
Qed.
Lemma put_map l cs g : length cs = length l -> map (fun p => with_cum p (g (p_cum p))) (put l cs) = put l (map g cs).
Proof.
  revert cs. induction l as [|p r IH]; intros [|c cs] E; cbn in E; try discriminate; [reflexivity|].
  unfold put in *. cbn [combine map fst snd]. f_equal. apply IH. lia.
Qed.
Lemma put_season s l cs : length cs = length l -> Forall (fun p => p_season p = s) l -> Forall (fun p => p_season p = s) (put l cs).
Proof.
  intros E F. revert cs E. induction F as [|p r H F IH]; intros [|c cs] E; cbn in E; try discriminate; unfold put; cbn [combine map]; constructor; auto.
  apply IH. lia.
Qed.
Lemma put_nil l cs : l <> [] -> length cs = length l -> put l cs <> [].
Proof. destruct l; [congruence|]. destruct cs; cbn; discriminate. Qed.

Lemma last_app {A} (l1 l2 : list A) d : l2 <> [] -> last (l1 ++ l2) d = last l2 d.
Proof.
  intros N. induction l1 as [|a r IH]; [reflexivity|]. cbn [app]. rewrite <- IH.
  destruct (r ++ l2) eqn:E; [destruct r, l2; cbn in E; congruence|reflexivity].
Qed.
Lemma last_F2 (P : polar -> polar -> Prop) l l' d : Forall2 P l l' -> l <> [] -> P (last l d) (last l' d).
Proof.
  induction 1 as [|p q r r' H F IH]; intros N; [congruence|]. destruct F as [|p' q' r r' H' F]; [exact H|].
  change (P (last (p' :: r) d) (last (q' :: r') d)). apply IH. discriminate.
Qed.
Lemma F2_app_len {A B} (P : A -> B -> Prop) l l' : Forall2 P l l' -> length l = length l'.
Proof. induction 1; cbn; congruence. Qed.

Lemma accumulate_split s A seg B : seg <> [] ->
  Forall (fun p => p_season p < s) A -> Forall (fun p => p_season p = s) seg -> Forall (fun p => s < p_season p) B ->
  exists A' B', accumulate (A ++ seg ++ B) = Ret (A' ++ put seg (shares_of seg) ++ B') /\
    Forall2 same_but_cum A A' /\ Forall2 same_but_cum B B'.
Proof.
  intros N FA FS FB.
  assert (length (sums (map p_val seg)) = length seg) as LS by (rewrite sums_length, map_length; auto).
  set (us := put seg (sums (map p_val seg))).
  assert (exists uA uB, norm (with_cum (hd polar0 (A ++ seg ++ B)) (p_val (hd polar0 (A ++ seg ++ B)))
      :: running (p_season (hd polar0 (A ++ seg ++ B))) (p_val (hd polar0 (A ++ seg ++ B))) (tl (A ++ seg ++ B)))
      = norm (uA ++ us ++ uB) /\ Forall2 same_but_cum A uA /\ Forall2 same_but_cum B uB) as (uA & uB & E & HA & HB).
  { destruct A as [|a A].
    - cbn [app]. destruct seg as [|p seg]; [congruence|]. cbn [app hd tl].
      inversion FS as [|? ? Ep FS']; subst. rewrite running_app.
      exists [], (running (fst (after_run (p_season p) (p_val p) seg)) (snd (after_run (p_season p) (p_val p) seg)) B).
      split; [|split; [constructor|apply running_fields]]. cbn [app]. rewrite running_same by auto. reflexivity.
    - cbn [app hd tl]. rewrite running_app, running_app.
      set (st := after_run (p_season a) (p_val a) A).
      assert (fst st < s) as Q.
      { unfold st. destruct A as [|a' A]; [inversion FA; subst; cbn; auto|].
        rewrite (after_run_season _ _ _ polar0) by discriminate.
        apply (proj1 (Forall_forall _ _) FA). right.
        destruct (exists_last (l := a' :: A) ltac:(discriminate)) as (l0 & x & ->). rewrite last_last. apply in_or_app. right. left. reflexivity. }
      rewrite (running_new s (fst st) (snd st) seg) by (auto; lia).
      exists (with_cum a (p_val a) :: running (p_season a) (p_val a) A),
        (running (fst (after_run (fst st) (snd st) seg)) (snd (after_run (fst st) (snd st) seg)) B).
      split; [reflexivity|]. split; [constructor; [reflexivity|apply running_fields]|apply running_fields]. }
  assert (norm (uA ++ us ++ uB) = norm uA ++ put seg (shares_of seg) ++ norm uB) as R.
  { assert (us <> []) as Nu by (apply put_nil; auto).
    assert (Forall (fun p => p_season p = s) us) as Fu by (apply put_season; auto).
    assert (norm (us ++ uB) = put seg (shares_of seg) ++ norm uB) as R1.
    { rewrite (norm_app_run s); auto.
      - f_equal. unfold us. rewrite last_put by auto.
        rewrite (put_map seg _ (fun c => f32_div c (last (sums (map p_val seg)) zero32))) by auto. reflexivity.
      - destruct HB as [|b ub B uB Hb HB]; [exact I|]. inversion FB; subst. rewrite (same_season _ _ Hb). lia. }
    destruct uA as [|ua uA]; [exact R1|]. rewrite norm_app; [rewrite R1; reflexivity|discriminate|].
    destruct (us ++ uB) as [|q t] eqn:E1; [exact I|].
    assert (p_season q = s) as ->.
    { destruct us as [|u us']; [congruence|]. cbn in E1. injection E1 as <- _. inversion Fu; auto. }
    inversion HA as [|a ? A1 ? Ha HA']; subst.
    assert (same_but_cum (last (a :: A1) polar0) (last (ua :: uA) polar0)) as La by (apply last_F2; [auto|discriminate]).
    rewrite (same_season _ _ La).
    assert (p_season (last (a :: A1) polar0) < s); [|lia].
    apply (proj1 (Forall_forall _ _) FA).
    destruct (exists_last (l := a :: A1) ltac:(discriminate)) as (l0 & x & ->). rewrite last_last. apply in_or_app. right. left. reflexivity. }
  exists (norm uA), (norm uB).
  assert (A ++ seg ++ B <> []) as NN by (destruct A; [destruct seg; [congruence|discriminate]|discriminate]).
  destruct (A ++ seg ++ B) as [|p r]; [congruence|]. cbn [hd tl] in E. rewrite accumulate_norm, E, R.
  split; [reflexivity|]. split; (eapply F2_trans; [exact same_trans|eassumption|apply norm_fields]).
Qed.

(** The shares as numbers: between 0 and 1, never falling, 1 at the end; no numbers if all values are 0. *)
#[local] Open Scope R_scope.
Lemma run_sums_ok c l : sum_ok c -> Forall val_ok l ->
  Forall sum_ok (run_sums c l) /\ Forall (fun x => B2R c <= B2R x <= B2R (last (run_sums c l) c)) (run_sums c l) /\
  B2R c <= B2R (last (run_sums c l) c) /\ sum_ok (last (run_sums c l) c) /\
  (forall v, In v l -> B2R v <= B2R (last (run_sums c l) c)).
Proof.
  revert c. induction l as [|v r IH]; intros c C F; cbn [run_sums].
  { cbn. repeat split; auto; try apply C; try lra. intros v []. }
  inversion F as [|? ? Fv Fr]; subst. destruct (sum_step c v C Fv) as (S1 & S2 & S3).
  destruct (IH _ S1 Fr) as (I1 & I2 & I3 & I4 & I5).
  assert (last (f32_add c v :: run_sums (f32_add c v) r) c = last (run_sums (f32_add c v) r) (f32_add c v)) as E.
  { destruct (run_sums (f32_add c v) r) as [|a t] eqn:Q; [reflexivity|].
    change (last (a :: t) c = last (a :: t) (f32_add c v)). clear. revert a. induction t as [|b t IH]; intros a; [reflexivity|]. apply (IH b). }
  rewrite E. split; [constructor; auto|]. split.
  - constructor; [lra|]. eapply Forall_impl; [|exact I2]. cbn. intros x Hx. lra.
  - split; [lra|]. split; auto. intros w [<-|W]; [lra|auto].
Qed.
Fixpoint rising (l : list f32) : Prop :=
  match l with [] => True | a :: r => Forall (fun b => B2R a <= B2R b) r /\ rising r end.
Lemma run_sums_rising c l : sum_ok c -> Forall val_ok l -> rising (c :: run_sums c l).
Proof.
  revert c. induction l as [|v r IH]; intros c C F; [cbn; auto|].
  pose proof (run_sums_ok c (v :: r) C F) as (_ & I2 & _). cbn [run_sums] in I2 |- *.
  inversion F; subst. destruct (sum_step c v C) as (S1 & _); auto.
  split; [eapply Forall_impl; [|exact I2]; cbn; intros; lra|]. apply IH; auto.
Qed.

Lemma sums_ok l : l <> [] -> Forall val_ok l ->
  let t := last (sums l) zero32 in
  Forall sum_ok (sums l) /\ sum_ok t /\ Forall (fun x => B2R x <= B2R t) (sums l) /\ rising (sums l) /\
  (forall v, In v l -> B2R v <= B2R t) /\ (B2R t = 0 -> forall v, In v l -> B2R v = 0).
Proof.
  destruct l as [|v r]; [congruence|]. intros _ F t. inversion F as [|? ? Fv Fr]; subst.
  pose proof (val_sum _ Fv) as S. destruct (run_sums_ok v r S Fr) as (I1 & I2 & I3 & I4 & I5).
  assert (t = last (run_sums v r) v) as E.
  { unfold t. cbn [sums]. destruct (run_sums v r) as [|a x] eqn:Q; [reflexivity|].
    change (last (a :: x) zero32 = last (a :: x) v). clear. revert a. induction x as [|b x IH]; intros a; [reflexivity|]. apply (IH b). }
  rewrite E. split; [constructor; auto|]. split; auto. split.
  - constructor; auto. eapply Forall_impl; [|exact I2]. cbn. intros; lra.
  - split; [apply run_sums_rising; auto|]. split.
    + intros w [<-|W]; auto.
    + intros Z w W. assert (0 <= B2R w) by (destruct (proj1 (Forall_forall _ _) F w W); tauto).
      assert (B2R w <= B2R (last (run_sums v r) v)) by (destruct W as [<-|W]; auto). lra.
Qed.

Definition share_list (l : list f32) : Prop :=
  Forall (fun c => fin c /\ 0 <= B2R c <= 1) l /\ rising l /\ B2R (last l zero32) = 1.

Lemma rising_map t l : Forall sum_ok l -> sum_ok t -> Forall (fun x => B2R x <= B2R t) l -> 0 < B2R t -> rising l ->
  rising (map (fun c => f32_div c t) l).
Proof.
  intros S T M P. induction l as [|a r IH]; cbn [map rising]; auto. intros [R1 R2].
  inversion S; inversion M; subst. split; [|apply IH; auto].
  apply Forall_forall. intros b B. apply in_map_iff in B. destruct B as (x & <- & X).
  assert (forall Q, Forall Q r -> Q x) as W by (intros Q H; apply (proj1 (Forall_forall _ _) H); auto).
  apply share_mono; auto.
  - apply (W sum_ok); auto.
  - apply (W (fun b => B2R a <= B2R b)); auto.
  - apply (W (fun b => B2R b <= B2R t)); auto.
Qed.
Lemma last_map {A B} (f : A -> B) l d d' : l <> [] -> last (map f l) d' = f (last l d).
Proof.
  induction l as [|a r IH]; [congruence|]. intros _. destruct r as [|b r]; [reflexivity|].
  change (last (map f (b :: r)) d' = f (last (b :: r) d)). apply IH. discriminate.
Qed.

Lemma shares_of_ok seg : seg <> [] -> Forall (fun p => val_ok (p_val p)) seg ->
  (exists p, In p seg /\ 0 < B2R (p_val p)) -> share_list (shares_of seg).
Proof.
  intros N F (p & P & V).
  assert (Forall val_ok (map p_val seg)) as F' by (apply Forall_map; exact F).
  assert (map p_val seg <> []) as N' by (destruct seg; [congruence|discriminate]).
  destruct (sums_ok _ N' F') as (S1 & S2 & S3 & S4 & S5 & _). unfold shares_of.
  set (t := last (sums (map p_val seg)) zero32) in *.
  assert (0 < B2R t) as T by (pose proof (S5 (p_val p) (in_map _ _ _ P)); lra).
  split; [|split].
  - apply Forall_map. apply Forall_forall. intros c C. rewrite Forall_forall in S1, S3.
    destruct (share_ok c t) as (A & B & _); auto.
  - apply rising_map; auto.
  - rewrite (last_map _ _ zero32) by (intros E; apply (f_equal (@length _)) in E; rewrite sums_length in E; destruct seg; [congruence|discriminate]).
    fold t. apply share_full; auto.
Qed.
Lemma shares_of_none seg : seg <> [] -> Forall (fun p => val_ok (p_val p)) seg ->
  (forall p, In p seg -> B2R (p_val p) = 0) -> Forall (fun c => c = B754_nan) (shares_of seg).
Proof.
  intros N F Z.
  assert (Forall val_ok (map p_val seg)) as F' by (apply Forall_map; exact F).
  assert (map p_val seg <> []) as N' by (destruct seg; [congruence|discriminate]).
  destruct (sums_ok _ N' F') as (S1 & S2 & S3 & _). unfold shares_of.
  assert (B2R (last (sums (map p_val seg)) zero32) = 0) as T.
  { assert (forall c l, sum_ok c -> B2R c = 0 -> Forall val_ok l -> Forall (fun v => B2R v = 0) l -> Forall (fun x => B2R x = 0) (run_sums c l)) as Q.
    { intros c l. revert c. induction l as [|v r IH]; intros c C C0 V V0; cbn [run_sums]; auto.
      inversion V; inversion V0; subst. destruct (sum_step c v C) as (A & _); auto.
      assert (B2R (f32_add c v) = 0) as E.
      { destruct (add32_R c v (proj1 C)) as [_ E]; [match goal with H : val_ok v |- _ => apply H end| |].
        - rewrite C0. replace (B2R v) with 0 by auto. rewrite Rplus_0_l, rnd32_0, Rabs_R0. apply bpow_gt_0.
        - rewrite E. unfold fadd. rewrite C0. replace (B2R v) with 0 by auto. rewrite Rplus_0_l. apply rnd32_0. }
      constructor; auto. }
    assert (Forall (fun x => B2R x = 0) (sums (map p_val seg))) as G.
    { destruct seg as [|p r]; [congruence|]. cbn [map sums]. inversion F; subst. constructor; [apply Z; left; auto|].
      apply Q; [apply val_sum; auto|apply Z; left; auto|inversion F'; auto|].
      apply Forall_map. apply Forall_forall. intros x X. apply Z. right. auto. }
    assert (sums (map p_val seg) <> []) as NS by (intros E; apply (f_equal (@length _)) in E; rewrite sums_length in E; destruct seg; [congruence|discriminate]).
    apply (proj1 (Forall_forall _ _) G). destruct (exists_last NS) as (l0 & x & ->). rewrite last_last. apply in_or_app. right. left. reflexivity. }
  apply Forall_map. apply Forall_forall. intros c C. rewrite Forall_forall in S1, S3. apply share_none; auto.
Qed.
