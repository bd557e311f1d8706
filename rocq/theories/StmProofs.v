From Coq Require Import Reals Lra Permutation Sorting.Sorted.
From Flocq Require Import Core.
From Verif Require Import Base BaseFacts Loops LoopsFacts InterpProofs AggModel AggSpec AggProofs.
#[local] Open Scope Z_scope.

(** ** parse_sta *)
(** [i] is the position of [m] in the list, or [d] if it does not occur. *)
Definition placed (ms : list metric) (m : metric) (d i : Z) : Prop :=
  (In m ms -> get_at ms i = Some m) /\ (~ In m ms -> i = d).
Definition parsed (ms : list metric) (s : sta) : Prop :=
  placed ms NUM 0 (i_num s) /\ placed ms MIN (-1) (i_min s) /\ placed ms MAX (-1) (i_max s) /\
  placed ms RNG (-1) (i_rng s) /\ placed ms IQR (-1) (i_iqr s) /\ placed ms AVG (-1) (i_avg s) /\
  placed ms STD (-1) (i_std s) /\ placed ms SKW (-1) (i_skw s) /\ placed ms KRT (-1) (i_krt s) /\
  (forall i k, In (i, k) (i_qs s) -> get_at ms i = Some (Q k)) /\
  (forall k, In (Q k) ms -> exists i, In (i, k) (i_qs s)) /\
  map (fun p => Q (snd p)) (i_qs s) = filter (fun m => match m with Q _ => true | _ => false end) ms.

Lemma placed_other ms m m' d i : m <> m' -> placed ms m d i -> placed (ms ++ [m']) m d i.
Proof.
  intros N [A B]. split.
  - intros I. apply in_app_or in I. destruct I as [I|[I|[]]]; [|congruence].
    specialize (A I). rewrite get_at_app_l; auto. apply get_at_inv in A. lia.
  - intros I. apply B. intros J. apply I, in_or_app. auto.
Qed.
Lemma placed_same ms m d : placed (ms ++ [m]) m d (zlen ms).
Proof.
  split.
  - intros _. rewrite get_at_app_r by lia. rewrite Z.sub_diag. reflexivity.
  - intros I. exfalso. apply I, in_or_app. right; left; auto.
Qed.

Lemma combine_zupto_app {A} (pre : list A) a post :
  combine (zupto (zlen (pre ++ a :: post))) (pre ++ a :: post) =
  combine (zupto (zlen pre)) pre ++ (zlen pre, a) :: combine (zrange (zlen pre + 1) (zlen (pre ++ a :: post) - 1)) post.
Proof.
  rewrite !zupto_zrange. pose proof (zlen_nonneg pre). pose proof (zlen_nonneg post).
  assert (zlen (pre ++ a :: post) = zlen pre + 1 + zlen post) as L by (rewrite zlen_app, zlen_cons; lia).
  rewrite (zrange_app 0 (zlen pre)) by lia. rewrite (zrange_cons (zlen pre)) by lia.
  assert (length (zrange 0 (zlen pre - 1)) = length pre) as LE by (rewrite zrange_length; unfold zlen; lia).
  revert LE. generalize (zrange 0 (zlen pre - 1)) as l. generalize (zlen pre) at 1 3 as z.
  generalize (zrange (zlen pre + 1) (zlen (pre ++ a :: post) - 1)) as r. clear.
  induction pre as [|x pre IH]; intros r z [|y l] E; cbn in *; try lia; auto. f_equal. apply IH. lia.
Qed.

Definition qcount (ms : list metric) : Z := zlen (filter (fun m => match m with Q _ => true | _ => false end) ms).

Ltac conj := match goal with |- _ /\ _ => split; [|conj] | _ => idtac end.
Lemma parse_step ms m s : parsed ms s -> qcount ms < 100 \/ (forall k, m <> Q k) ->
  exists s', parse_sta1 s (zlen ms, m) = Ret s' /\ parsed (ms ++ [m]) s'.
Proof.
  intros (H1 & H2 & H3 & H4 & H5 & H6 & H7 & H8 & H9 & Q1 & Q2 & Q3) QC.
  destruct s as [a b c d e f g h k q]. cbn [i_num i_min i_max i_rng i_iqr i_avg i_std i_skw i_krt i_qs] in *.
  assert (forall i k0, In (i, k0) q -> get_at (ms ++ [m]) i = Some (Q k0)) as Q1'.
  { intros i k0 I. apply Q1 in I. rewrite get_at_app_l; auto. apply get_at_inv in I. lia. }
  assert ((forall k0, m <> Q k0) -> forall k0, In (Q k0) (ms ++ [m]) -> exists i, In (i, k0) q) as Q2'.
  { intros N k0 I. apply in_app_or in I. destruct I as [I|[I|[]]]; [auto|]. exfalso. apply (N k0 I). }
  unfold parsed.
  destruct m; cbn [parse_sta1];
  try (eexists; split; [reflexivity|]; cbn [i_num i_min i_max i_rng i_iqr i_avg i_std i_skw i_krt i_qs];
    conj; try (apply placed_other; [congruence|assumption]); try apply placed_same;
    [exact Q1'|apply Q2'; congruence|rewrite filter_app, app_nil_r; assumption]).
  assert (qcount ms < 100) as QL by (destruct QC as [|QC]; [auto|destruct (QC k0 eq_refl)]).
  assert (zlen q = qcount ms) as ZQ by (unfold qcount; rewrite <- Q3; unfold zlen; now rewrite map_length).
  replace (zlen q <? 100) with true by lia.
  eexists; split; [reflexivity|]; cbn [i_num i_min i_max i_rng i_iqr i_avg i_std i_skw i_krt i_qs].
  conj; try (apply placed_other; [congruence|assumption]).
  - intros i k1 I. apply in_app_or in I. destruct I as [I|[I|[]]]; auto. inversion I; subst.
    rewrite get_at_app_r by lia. rewrite Z.sub_diag. reflexivity.
  - intros k1 I. apply in_app_or in I. destruct I as [I|[I|[]]].
    + destruct (Q2 _ I) as (i & J). exists i. apply in_or_app; auto.
    + inversion I; subst. exists (zlen ms). apply in_or_app. right; left; auto.
  - rewrite map_app, filter_app, Q3. reflexivity.
Qed.

Lemma qcount_app a b : qcount (a ++ b) = qcount a + qcount b.
Proof. unfold qcount. rewrite filter_app, zlen_app. reflexivity. Qed.
Lemma qcount_nonneg a : 0 <= qcount a.
Proof. apply zlen_nonneg. Qed.

Lemma parse_sta_spec ms : qcount ms <= 100 -> exists s, parse_sta ms = Ret s /\ parsed ms s.
Proof.
  intros QC. unfold parse_sta.
  assert (forall post pre s, ms = pre ++ post -> parsed pre s -> 
    exists s', ofold parse_sta1 (combine (zrange (zlen pre) (zlen ms - 1)) post) s = Ret s' /\ parsed ms s') as G.
  { induction post as [|m post IH]; intros pre s E P.
    - rewrite app_nil_r in E. subst pre. exists s. split; auto. destruct (zrange _ _); reflexivity.
    - assert (zlen ms = zlen pre + 1 + zlen post) as L by (rewrite E, zlen_app, zlen_cons; lia).
      pose proof (zlen_nonneg post). rewrite zrange_cons by lia. cbn [combine ofold].
      destruct (Z.eq_dec (qcount pre) 100) as [Q100|QN].
      + (* no further quantile *)
        assert (qcount ms = qcount pre + qcount (m :: post)) as QE by (rewrite E, qcount_app; auto).
        assert (qcount (m :: post) = 0) as Q0 by (pose proof (qcount_nonneg (m :: post)); lia).
        assert (forall k, m <> Q k) as NQ.
        { intros k ->. unfold qcount in Q0. cbn [filter] in Q0. rewrite zlen_cons in Q0.
          pose proof (zlen_nonneg (filter (fun m => match m with Q _ => true | _ => false end) post)). lia. }
        destruct (parse_step pre m s P (or_intror NQ)) as (s' & E1 & P1).
        rewrite E1. cbn [bind]. replace (zlen pre + 1) with (zlen (pre ++ [m])) by (rewrite zlen_app; reflexivity).
        apply IH; auto. rewrite <- app_assoc. auto.
      + assert (qcount pre < 100) as QL.
        { rewrite E, qcount_app in QC. pose proof (qcount_nonneg (m :: post)). lia. }
        destruct (parse_step pre m s P (or_introl QL)) as (s' & E1 & P1). rewrite E1. cbn [bind].
        replace (zlen pre + 1) with (zlen (pre ++ [m])) by (rewrite zlen_app; reflexivity).
        apply IH; auto. rewrite <- app_assoc. auto. }
  rewrite zupto_zrange. apply (G ms [] sta0 eq_refl).
  unfold parsed, sta0, placed. cbn. repeat split; auto; try contradiction; try (intros ? ? []); try (intros ? []).
Qed.

(** ** Writing the bands *)
Section Bands.
Context (ms : list metric) (vs : list Z).
Hypothesis ND : NoDup ms.

Definition written (done : metric -> Prop) (o : list Z) : Prop := zlen o = zlen ms /\
  forall i m, get_at ms i = Some m -> done m -> exists v, get_at o i = Some v /\ described true vs m v.

Lemma written_none o : zlen o = zlen ms -> written (fun _ => False) o.
Proof. intros L. split; auto. intros; contradiction. Qed.
Lemma written_weaken (done done' : metric -> Prop) o : (forall m, In m ms -> done' m -> done m) -> written done o -> written done' o.
Proof. intros H [L W]. split; auto. intros i m G D. apply W; auto. apply H; auto. eapply get_at_In; eauto. Qed.

Lemma written_set done o i m v : get_at ms i = Some m -> described true vs m v -> written done o ->
  exists o', set_at o i v = Some o' /\ written (fun m' => done m' \/ m' = m) o'.
Proof.
  intros G D [L W]. pose proof (get_at_inv _ _ _ G) as R.
  assert (exists o', set_at o i v = Some o') as (o' & E) by (eexists; apply set_at_some; lia).
  exists o'. split; auto. split; [rewrite (set_at_length _ _ _ _ E); auto|].
  intros j m' G' [D'|E'].
  - destruct (Z.eq_dec i j) as [->|NJ].
    + assert (m' = m) by congruence. subst m'. exists v. split; auto. eapply get_set_same; eauto.
    + rewrite (get_set_other _ _ _ _ _ E NJ). auto.
  - subst m'. destruct (Z.eq_dec i j) as [->|NJ].
    + exists v. split; auto. eapply get_set_same; eauto.
    + exfalso. apply NJ. clear - ND G G'. unfold get_at in *.
      destruct (Z.ltb_spec i 0); [discriminate|]. destruct (Z.ltb_spec j 0); [discriminate|].
      rewrite NoDup_nth_error in ND. assert (Z.to_nat i = Z.to_nat j); [|lia]. apply ND; [|congruence].
      apply nth_error_Some. congruence.
Qed.

Lemma put_spec done o m i v : placed ms m (-1) i -> written done o ->
  (In m ms -> exists x, v = Ret x /\ described true vs m x) ->
  exists o', put o i v = Ret o' /\ written (fun m' => done m' \/ m' = m) o'.
Proof.
  intros [A B] W D. unfold put. destruct (in_dec metric_eq m ms) as [I|N].
  - specialize (A I). pose proof (get_at_inv _ _ _ A). replace (i >? -1) with true by lia.
    destruct (D I) as (x & -> & DX). cbn [bind].
    destruct (written_set done o i m x A DX W) as (o' & -> & W'). exists o'. auto.
  - rewrite (B N). cbn [Z.gtb Z.compare]. exists o. split; auto.
    apply (written_weaken done); auto. intros m' I' [|E]; auto. congruence.
Qed.

Lemma put_num o v : ms <> [] -> forall i, placed ms NUM 0 i -> zlen o = zlen ms ->
  described true vs NUM v -> exists o', put o i (Ret v) = Ret o' /\ written (fun m' => m' = NUM) o'.
Proof.
  intros NE i [A B] L D. unfold put. destruct (in_dec metric_eq NUM ms) as [I|N].
  - specialize (A I). pose proof (get_at_inv _ _ _ A). replace (i >? -1) with true by lia. cbn [bind].
    destruct (written_set _ o i NUM v A D (written_none o L)) as (o' & -> & W'). exists o'. split; auto.
    apply (written_weaken _ _ o' (fun m' _ H => or_intror H) W').
  - rewrite (B N). cbn [Z.gtb Z.compare bind].
    assert (0 < zlen ms) by (unfold zlen; destruct ms; [congruence|]; cbn [length]; lia).
    assert (exists o', set_at o 0 v = Some o') as (o' & E) by (eexists; apply set_at_some; lia).
    rewrite E. exists o'. split; auto. split; [rewrite (set_at_length _ _ _ _ E); auto|].
    intros j m G ->. exfalso. apply N. eapply get_at_In; eauto.
Qed.
End Bands.

Section Stm.
Context (ms : list metric) (vs : list Z) (useq : bool) (a : acc).
Hypothesis (ND : NoDup ms) (NEm : ms <> []) (SM : summ useq vs a) (NE : vs <> []) (MOD : moderate vs).
Hypothesis EX : forall m, In m ms -> exists_for vs m.

Definition q_state (d : Z) (x : Z) : Prop := x = -32768 \/ exists q, is_quantile vs (IZR d / 100) q /\ x = Ztrunc q /\ -16383 <= x <= 16383.

Lemma put_qs_spec : useq = true -> forall qs done o q25 q75,
  (forall i k, In (i, k) qs -> get_at ms i = Some (Q k)) -> written ms vs done o -> q_state 25 q25 -> q_state 75 q75 ->
  exists o' q25' q75', ofold (put_q a) qs (o, q25, q75) = Ret (o', q25', q75') /\
    written ms vs (fun m => done m \/ exists i k, In (i, k) qs /\ m = Q k) o' /\ q_state 25 q25' /\ q_state 75 q75'.
Proof.
  intros U. induction qs as [|[i k] qs IH]; intros done o q25 q75 G W S25 S75; cbn [ofold].
  - exists o, q25, q75. split; auto. split; auto. apply (written_weaken _ _ done); auto.
    intros m _ [|(i & k & [] & _)]; auto.
  - assert (get_at ms i = Some (Q k)) as GI by (apply G; left; auto).
    assert (1 <= k <= 99) as K by (apply (EX (Q k)); eapply get_at_In; eauto).
    destruct (q_value useq vs a SM NE MOD k U K) as (q & EQ & IQ & ES & BZ & _).
    unfold put_q at 1. cbn [fst snd]. rewrite EQ. cbn [bind]. rewrite ES. cbn [bind].
    destruct (written_set ms vs ND done o i (Q k) (Ztrunc q) GI) as (o' & -> & W'); [exists q; auto|auto|].
    cbn [of_option bind].
    destruct (IH (fun m' => done m' \/ m' = Q k) o' (if k =? 25 then Ztrunc q else q25) (if k =? 75 then Ztrunc q else q75))
      as (o'' & q25' & q75' & E & W'' & S1 & S2).
    + intros j l I. apply G. right; auto.
    + auto.
    + destruct (Z.eqb_spec k 25) as [->|]; auto. right. exists q. auto.
    + destruct (Z.eqb_spec k 75) as [->|]; auto. right. exists q. auto.
    + exists o'', q25', q75'. split; auto. split; auto. apply (written_weaken _ _ _ _ _) with (2 := W'').
      intros m _ [D|(j & l & [I|I] & ->)]; auto; [|right; eauto]. inversion I; subst. auto.
Qed.

Lemma stm_value_spec s out : parsed ms s -> useq = stm_useq s -> zlen out = zlen ms ->
  exists out', stm_value s a out = Ret out' /\ zlen out' = zlen ms /\
    forall i m, get_at ms i = Some m -> exists v, get_at out' i = Some v /\ described true vs m v.
Proof.
  intros (H1 & H2 & H3 & H4 & H5 & H6 & H7 & H8 & H9 & Q1 & Q2 & Q3) U L. unfold stm_value.
  destruct (put_num ms vs ND out _ NEm _ H1 L (num_value useq vs a SM MOD)) as (o1 & -> & W1). cbn [bind].
  destruct (put_spec ms vs ND _ o1 MIN (i_min s) (Ret (a_min a)) H2 W1) as (o2 & -> & W2).
  { intros _. eexists. split; [reflexivity|]. apply (min_value useq vs a SM NE). }
  cbn [bind]. destruct (put_spec ms vs ND _ o2 MAX (i_max s) (Ret (a_max a)) H3 W2) as (o3 & -> & W3).
  { intros _. eexists. split; [reflexivity|]. apply (max_value useq vs a SM NE). }
  cbn [bind]. destruct (put_spec ms vs ND _ o3 RNG (i_rng s) (Ret (to_short (a_max a - a_min a))) H4 W3) as (o4 & -> & W4).
  { intros _. eexists. split; [reflexivity|]. apply (rng_value useq vs a SM NE MOD). }
  cbn [bind]. destruct (put_spec ms vs ND _ o4 AVG (i_avg s) _ H6 W4 (fun _ => avg_value useq vs a SM NE MOD)) as (o5 & -> & W5).
  cbn [bind]. destruct (put_spec ms vs ND _ o5 STD (i_std s) _ H7 W5 (fun I => std_value useq vs a SM NE MOD (EX _ I))) as (o6 & -> & W6).
  cbn [bind]. destruct (put_spec ms vs ND _ o6 SKW (i_skw s) _ H8 W6 (fun I => skw_value useq vs a SM NE (EX _ I))) as (o7 & -> & W7).
  cbn [bind]. destruct (put_spec ms vs ND _ o7 KRT (i_krt s) _ H9 W7 (fun I => krt_value useq vs a SM NE (EX _ I))) as (o8 & -> & W8).
  cbn [bind].
  assert (exists o9 q25 q75, ofold (put_q a) (i_qs s) (o8, -32768, -32768) = Ret (o9, q25, q75) /\
     written ms vs (fun m => m <> IQR) o9 /\ q_state 25 q25 /\ q_state 75 q75) as (o9 & q25 & q75 & E9 & W9 & S25 & S75).
  { assert (forall done o, written ms vs done o -> (forall m, In m ms -> m <> IQR -> done m) -> written ms vs (fun m => m <> IQR) o) as WW.
    { intros done o W D. apply (written_weaken ms vs done); auto. }
    destruct (i_qs s) as [|p qs] eqn:EQ.
    - exists o8, (-32768), (-32768). split; auto. split; [|split; left; auto].
      eapply WW; [exact W8|]. intros m I N. destruct m; try tauto. destruct (Q2 k I) as (i & []).
    - destruct (put_qs_spec) with (qs := p :: qs) (done := fun m' => (((((((m' = NUM \/ m' = MIN) \/ m' = MAX) \/ m' = RNG) \/ m' = AVG) \/ m' = STD) \/ m' = SKW) \/ m' = KRT))
        (o := o8) (q25 := -32768) (q75 := -32768) as (o9 & q25 & q75 & E & W & S1 & S2); auto.
      + rewrite U. unfold stm_useq. rewrite EQ, zlen_cons. pose proof (zlen_nonneg qs).
        lia.
      + left; auto.
      + left; auto.
      + exists o9, q25, q75. split; auto. split; auto. eapply WW; [exact W|]. intros m I N. destruct m; try tauto.
        destruct (Q2 k I) as (i & J). right. eauto. }
  rewrite E9. cbn [bind].
  destruct (in_dec metric_eq IQR ms) as [I|N].
  - destruct H5 as [A _]. specialize (A I). pose proof (get_at_inv _ _ _ A) as R. replace (i_iqr s >? -1) with true by lia.
    assert (useq = true) as UT by (rewrite U; unfold stm_useq; replace (i_iqr s >? -1) with true by lia; apply orb_true_r).
    assert (forall d x, 1 <= d <= 99 -> q_state d x -> exists q,
      (if x =? -32768 then h <- quantile (a_q a) (a_n a) (percent d);; short_of_real (Some h) else Ret x) = Ret (Ztrunc q) /\
      is_quantile vs (IZR d / 100) q /\ -16383 <= Ztrunc q <= 16383) as QS.
    { intros d x D [->|(q & IQ & -> & B)].
      - destruct (q_value useq vs a SM NE MOD d UT D) as (q & EQ & IQ & ES & BZ & _).
        exists q. rewrite EQ. cbn [Z.eqb Pos.eqb bind]. auto.
      - exists q. replace (Ztrunc q =? -32768) with false by lia. auto. }
    destruct (QS 25 q25 ltac:(lia) S25) as (p1 & -> & I1 & B1). destruct (QS 75 q75 ltac:(lia) S75) as (p3 & -> & I3 & B3).
    cbn [bind]. unfold put. replace (i_iqr s >? -1) with true by lia. cbn [bind].
    assert (described true vs IQR (to_short (Ztrunc p3 - Ztrunc p1))) as DI.
    { cbn [described]. exists p1, p3. replace (1 / 4)%R with (25 / 100)%R by lra. replace (3 / 4)%R with (75 / 100)%R by lra.
      split; auto. split; auto. apply to_short_id. unfold in_short. lia. }
    destruct (written_set ms vs ND _ o9 (i_iqr s) IQR (to_short (Ztrunc p3 - Ztrunc p1)) A DI W9) as (o10 & -> & [L10 W10]).
    exists o10. split; auto. split; auto. intros i m G. apply W10; auto. destruct (metric_eq m IQR); auto.
  - destruct H5 as [_ B]. rewrite (B N). cbn [Z.gtb Z.compare]. destruct W9 as [L9 W9].
    exists o9. split; auto. split; auto. intros i m G. apply W9; auto. intros ->. apply N. eapply get_at_In; eauto.
Qed.
End Stm.

Lemma nodup_quantiles ms : NoDup ms -> (forall k, In (Q k) ms -> 1 <= k <= 99) -> qcount ms <= 100.
Proof.
  intros ND K. unfold qcount. set (f := fun m => match m with Q _ => true | _ => false end).
  assert (NoDup (filter f ms)) as NF by (apply NoDup_filter; auto).
  assert (incl (filter f ms) (map Q (zrange 1 99))) as IN.
  { intros m I. apply filter_In in I. destruct I as [I E]. destruct m; try discriminate. apply in_map, zrange_In. auto. }
  apply (NoDup_incl_length NF) in IN. rewrite map_length, zrange_length in IN. unfold zlen. lia.
Qed.

Lemma stm_pixel_spec nodata ms series bands : NoDup ms -> ms <> [] -> zlen bands = zlen ms -> Forall in_short series ->
  (forall k, In (Q k) ms -> 1 <= k <= 99) ->
  let vs := valid nodata series in
  (vs = [] -> stm_pixel nodata ms false series bands = Ret (map (fun _ => nodata) bands)) /\
  (vs <> [] -> moderate vs -> (forall m, In m ms -> exists_for vs m) ->
   exists out, stm_pixel nodata ms false series bands = Ret out /\ zlen out = zlen ms /\
     forall i m, get_at ms i = Some m -> exists v, get_at out i = Some v /\ described true vs m v).
Proof.
  intros ND NE LB F KQ vs.
  destruct (parse_sta_spec ms) as (s & E & P); [apply nodup_quantiles; auto|].
  destruct (collect_spec nodata (stm_useq s) series F) as (a & EC & S). fold vs in S.
  unfold stm_pixel. rewrite E. cbn [bind]. rewrite EC. cbn [bind]. pose proof S as (N & _). rewrite N. split.
  - intros ->. reflexivity.
  - intros NV MOD EX. assert (0 < zlen vs) by (unfold zlen; destruct vs; [congruence|]; cbn [length]; lia).
    replace (zlen vs >? 0) with true by lia. eapply stm_value_spec; eauto.
Qed.
