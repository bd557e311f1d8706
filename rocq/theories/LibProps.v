(** C94: library completeness. *)
From Coq Require Import Reals Lra Lia ZifyBool ZifyNat.
From Flocq Require Import Core.
From Verif Require Import Base BaseFacts Loops LoopsFacts StatsModel StatsSpec StatsProofs AggProofs CsoProofs ChunkProofs BapCor LibModel LibSpec LibProofs.
#[local] Open Scope R_scope.

(** The value written for a library is the distance to its closest entry, the summary is the distance to the closest entry of all libraries. *)
Theorem C94_closest_entry : forall rescale exclude mask nodata feats libs,
  mask <> Some false -> (exclude = true -> forall f, In f feats -> snd f = true) -> existsb snd feats = true -> Forall (well_formed rescale (zlen feats)) libs ->
  exists vs s, library_pixel rescale exclude mask nodata feats libs = Ret (vs ++ [s]) /\
    Forall2 (fun t v => written rescale nodata (fun d => exists row, In row t /\ d = distance rescale t feats row) v) libs vs /\
    written rescale nodata (fun d => exists t row, In t libs /\ In row t /\ d = distance rescale t feats row) s.
Proof.
  intros rescale exclude mask nodata feats libs M X U W. unfold library_pixel.
  assert (exclude && existsb (fun f => negb (snd f)) feats = false) as ->.
  { destruct exclude; auto. cbn [andb]. destruct (existsb (fun f : Z * bool => negb (snd f)) feats) eqn:E; auto. apply existsb_exists in E. destruct E as (f & I & E). rewrite (X eq_refl f I) in E. discriminate E. }
  rewrite Forall_forall in W.
  destruct (omap_all (library_error rescale feats) (fun t r => In t libs /\ r <= SHRT_MAX /\ (forall x, In x t -> r <= distance rescale t feats x) /\
      (r = SHRT_MAX \/ exists x, In x t /\ r = distance rescale t feats x)) libs) as (es & E & F).
  { intros t I. destruct (library_error_spec rescale (zlen feats) feats t (W t I) eq_refl U) as (r & Er & P). exists r. auto. }
  rewrite E. cbn [bind].
  assert (forall t row, In t libs -> In row t -> 0 <= distance rescale t feats row) as N.
  { intros t row It Ir. apply (distance_nonneg rescale (zlen feats)); auto. }
  exists (map (store_error rescale nodata) es), (store_error rescale nodata (fold_left (fun a m => if Rlt_bool m a then m else a) es SHRT_MAX)).
  split; [destruct mask as [[|]|]; auto; congruence|]. split.
  - assert (forall ls rs, Forall2 (fun t r => In t libs /\ r <= SHRT_MAX /\ (forall x, In x t -> r <= distance rescale t feats x) /\ (r = SHRT_MAX \/ exists x, In x t /\ r = distance rescale t feats x)) ls rs ->
      Forall2 (fun t v => written rescale nodata (fun d => exists row, In row t /\ d = distance rescale t feats row) v) ls (map (store_error rescale nodata) rs)) as H; [|now apply H].
    clear -N. intros ls rs F. induction F as [|t r ts rs (I & B & A & C) F IH]; cbn [map]; constructor; auto.
    apply store_spec; auto; intros d (row & Ir & ->); auto.
  - destruct (summary_fold es SHRT_MAX) as (B & A & C). cbv zeta in *. apply store_spec; auto.
    + intros d (t & row & It & Ir & ->). auto.
    + intros d (t & row & It & Ir & ->). destruct (Forall2_in_l _ _ _ F t It) as (r & Ie & _ & _ & P & _). specialize (A r Ie). specialize (P row Ir). lra.
    + destruct C as [C|C]; auto. destruct (Forall2_in_r _ _ _ F _ C) as (t & It & _ & _ & _ & [D|(x & Ix & D)]); [left; auto|right; eauto].
Qed.

(** No usable feature: nodata; outside of the mask, or with an unusable feature when these are excluded: nodata. *)
Theorem C94_nothing_to_compare : forall rescale exclude mask nodata feats libs,
  Forall (well_formed rescale (zlen feats)) libs ->
  mask = Some false \/ (exclude = true /\ exists f, In f feats /\ snd f = false) \/ (forall f, In f feats -> snd f = false) ->
  library_pixel rescale exclude mask nodata feats libs = Ret (repeat nodata (length libs + 1)).
Proof.
  intros rescale exclude mask nodata feats libs W H. unfold library_pixel.
  assert (map (fun _ : library => nodata) libs ++ [nodata] = repeat nodata (length libs + 1)) as ->.
  { rewrite repeat_app. cbn [repeat]. f_equal. clear. induction libs; cbn; congruence. }
  destruct (exclude && existsb (fun f => negb (snd f)) feats) eqn:X; [now destruct mask as [[|]|]|].
  assert (mask = Some false \/ existsb snd feats = false) as [->|U].
  { destruct H as [H|[(-> & f & I & V)|H]]; auto.
    - exfalso. cbn [andb] in X. assert (existsb (fun f : Z * bool => negb (snd f)) feats = true) by (apply existsb_exists; exists f; rewrite V; auto). congruence.
    - right. destruct (existsb snd feats) eqn:E; auto. apply existsb_exists in E. destruct E as (f & I & E). rewrite H in E by auto. discriminate E. }
  - reflexivity.
  - assert (omap (library_error rescale feats) libs = Ret (repeat SHRT_MAX (length libs))) as ->.
    { clear H X. induction libs as [|t ls IH]; cbn [omap length repeat]; auto. apply Forall_cons_iff in W. destruct W as (Wt & W).
      rewrite (library_error_none rescale (zlen feats)) by auto. cbn [bind]. now rewrite IH. }
    cbn [bind].
    assert (store_error rescale nodata SHRT_MAX = nodata) as S.
    { unfold store_error. rewrite !(Rlt_bool_false SHRT_MAX SHRT_MAX) by lra. cbn [andb]. now rewrite !(Rlt_bool_false SHRT_MAX SHRT_MAX) by lra. }
    assert (forall n, fold_left (fun a m => if Rlt_bool m a then m else a) (repeat SHRT_MAX n) SHRT_MAX = SHRT_MAX) as ->.
    { induction n as [|n IH]; cbn [repeat fold_left]; auto. rewrite (Rlt_bool_false SHRT_MAX SHRT_MAX) by lra. auto. }
    rewrite S. rewrite repeat_app. cbn [repeat]. assert (map (store_error rescale nodata) (repeat SHRT_MAX (length libs)) = repeat nodata (length libs)) as ->.
    { generalize (length libs). induction n as [|n IH]; cbn; congruence. }
    now destruct mask as [[|]|].
Qed.

(** A pixel that equals an entry in all its usable features has distance 0 to the library and to the set of libraries. *)
Theorem C94_exact_match : forall rescale exclude mask nodata feats libs l t row,
  mask <> Some false -> (exclude = true -> forall f, In f feats -> snd f = true) -> existsb snd feats = true -> Forall (well_formed rescale (zlen feats)) libs ->
  get_at libs l = Some t -> In row t -> (forall c v, get_at feats c = Some (v, true) -> entry row c = IZR v) ->
  exists vs, library_pixel rescale exclude mask nodata feats libs = Ret (vs ++ [0%Z]) /\ get_at vs l = Some 0%Z.
Proof.
  intros rescale exclude mask nodata feats libs l t row M X U W G I H.
  destruct (C94_closest_entry rescale exclude mask nodata feats libs M X U W) as (vs & s & E & F & S).
  assert (distance rescale t feats row = 0) as D.
  { unfold distance, mean. set (us := filter (usable feats) (zupto (zlen feats))).
    assert (forall l, incl l us -> sum (fun x => x) (map (fun c => Rabs (entry row c - feature feats c) / unit_of rescale t c) l) = 0) as Q.
    { induction l0 as [|c l0 IH]; intros Sub; cbn [map sum]; auto. rewrite IH by (intros q Hq; apply Sub; right; auto).
      assert (In c us) as Ic by (apply Sub; left; auto). unfold us in Ic. apply filter_In in Ic. destruct Ic as (_ & Uc). unfold usable in Uc. destruct (get_at feats c) as [(v & [|])|] eqn:Gc; try discriminate.
      unfold feature. rewrite Gc, (H c v Gc). rewrite Rminus_diag_eq, Rabs_R0 by auto. unfold Rdiv. ring. }
    rewrite Q by (intros q Hq; auto). unfold Rdiv. ring. }
  rewrite Forall_forall in W.
  assert (forall t row, In t libs -> In row t -> 0 <= distance rescale t feats row) as N.
  { intros t' row' It Ir. apply (distance_nonneg rescale (zlen feats)); auto. }
  pose proof (get_at_In _ _ _ G) as It.
  assert (forall v (ds : R -> Prop), ds 0 -> (forall d, ds d -> 0 <= d) -> written rescale nodata ds v -> v = 0%Z) as Z0.
  { intros v ds Z P (Wr & _). specialize (Wr 0 Z P). rewrite Rmult_0_r in Wr. specialize (Wr ltac:(lra)). assert (v <= 0)%Z by (apply le_IZR; lra). assert (0 < v + 1)%Z by (apply lt_IZR; rewrite plus_IZR; lra). lia. }
  assert (s = 0%Z) as -> by (refine (Z0 s _ _ _ S); [exists t, row; auto|intros d (t' & row' & ? & ? & ->); auto]).
  exists vs. split; auto.
  pose proof (get_at_inv _ _ _ G) as R. assert (length vs = length libs) as Lv by (symmetry; clear -F; induction F; cbn; congruence).
  destruct (get_at_some vs l) as (v & Gv); [unfold zlen in *; lia|]. rewrite Gv. f_equal.
  assert (written rescale nodata (fun d => exists row, In row t /\ d = distance rescale t feats row) v) as Wv.
  { clear -F G Gv. unfold get_at in *. destruct (l <? 0)%Z; [discriminate|]. revert G Gv. generalize (Z.to_nat l). induction F; intros [|n]; cbn; intros G Gv; try discriminate; [injection G as <-; injection Gv as <-; auto|eauto]. }
  refine (Z0 v _ _ _ Wv); [exists row; auto|intros d (row' & ? & ->); auto].
Qed.

(** Without rescaling, entries added to a library never increase the value. *)
Theorem C94_more_entries : forall nodata feats t more vs s vs' s', zlen feats <> 0%Z ->
  well_formed false (zlen feats) (t ++ more) ->
  library_pixel false true None nodata feats [t] = Ret (vs ++ [s]) -> library_pixel false true None nodata feats [t ++ more] = Ret (vs' ++ [s']) ->
  s <> nodata -> (s' <= s)%Z.
Proof.
  intros nodata feats t more vs s vs' s' NF W E E' NS.
  assert (well_formed false (zlen feats) t) as W0. { destruct W as (W & _). split; [|discriminate]. intros row I. apply W. apply in_or_app. auto. }
  destruct (existsb (fun f => negb (snd f)) feats) eqn:X.
  { exfalso. unfold library_pixel in E. rewrite X in E. cbn in E. injection E as E. apply NS. change [nodata; nodata] with ([nodata] ++ [nodata]) in E. apply app_inj_tail in E. intuition congruence. }
  assert (forall f, In f feats -> snd f = true) as X'.
  { intros f I. destruct (snd f) eqn:Sf; auto. exfalso. assert (existsb (fun f : Z * bool => negb (snd f)) feats = true) by (apply existsb_exists; exists f; rewrite Sf; auto). congruence. }
  assert (existsb snd feats = true) as U. { destruct feats as [|f fs]; [cbn in NF; congruence|]. apply existsb_exists. exists f. split; [left; auto|apply X'; left; auto]. }
  destruct (C94_closest_entry false true None nodata feats [t] ltac:(discriminate) ltac:(auto) U ltac:(auto)) as (ws & w & Ew & _ & Sw).
  destruct (C94_closest_entry false true None nodata feats [t ++ more] ltac:(discriminate) ltac:(auto) U ltac:(auto)) as (ws' & w' & Ew' & _ & Sw').
  rewrite E in Ew. rewrite E' in Ew'. injection Ew as Ew. injection Ew' as Ew'. apply app_inj_tail in Ew, Ew'. destruct Ew as (_ & <-), Ew' as (_ & <-).
  destruct Sw as (S1 & S2), Sw' as (S3 & S4). unfold factor in *.
  assert (forall row, distance false (t ++ more) feats row = distance false t feats row) as De by (intros row; reflexivity).
  (* smallest distances exist *)
  assert (forall l : list (list R), l = [] \/ exists r, In r l /\ forall r', In r' l -> distance false t feats r <= distance false t feats r') as Mn.
  { induction l as [|r l [->|(m & I & Mm)]]; [left; auto|right; exists r; split; [left; auto|intros r' [->|[]]; lra]|].
    right. destruct (Rle_or_lt (distance false t feats r) (distance false t feats m)) as [Q|Q].
    - exists r. split; [left; auto|]. intros r' [->|I']; [lra|]. specialize (Mm r' I'). lra.
    - exists m. split; [right; auto|]. intros r' [->|I']; [lra|]. auto. }
  destruct (Mn t) as [->|(m & Im & Mm)].
  { exfalso. apply NS, S2. intros d (t' & row & [<-|[]] & [] & _). }
  destruct (Mn (t ++ more)) as [Z|(m' & Im' & Mm')]; [destruct t; [destruct Im|discriminate]|].
  destruct (Rle_or_lt 32767 (distance false t feats m)) as [Q|Q].
  { exfalso. apply NS, S2. intros d (t' & row & [<-|[]] & Ir & ->). specialize (Mm row Ir). lra. }
  assert (distance false t feats m' <= distance false t feats m) as Le by (apply Mm', in_or_app; auto).
  destruct (S1 (distance false t feats m)) as (_ & B); [exists t, m; cbn; auto|intros e (t' & row & [<-|[]] & Ir & ->); auto|lra|].
  destruct (S3 (distance false t feats m')) as (B' & _); [exists (t ++ more), m'; cbn; auto|intros e (t' & row & [<-|[]] & Ir & ->); rewrite De; auto|lra|].
  assert (s' < s + 1)%Z by (apply lt_IZR; rewrite plus_IZR; lra). lia.
Qed.

(** With rescaling they may: the unit of measurement changes with the library. *)
Lemma one_feature rescale t v x : distance rescale t [(v, true)] [x] = Rabs (x - IZR v) * / unit_of rescale t 0.
Proof.
  unfold distance. change (filter (usable [(v, true)]) (zupto (zlen [(v, true)]))) with [0%Z]. unfold mean, size. cbn [map sum length INR].
  change (entry [x] 0) with x. change (feature [(v, true)] 0) with (IZR v). unfold Rdiv. rewrite Rinv_1. ring.
Qed.
Lemma in_range_of rescale v t lo hi (d : R) s : written rescale 0 (fun e => exists t' row, In t' [t] /\ In row t' /\ e = distance rescale t' [(v, true)] row) s ->
  (exists row, In row t /\ d = distance rescale t [(v, true)] row) -> (forall row, In row t -> d <= distance rescale t [(v, true)] row) ->
  factor rescale * d < 32767 -> lo <= factor rescale * d <= hi -> lo - 1 < IZR s <= hi.
Proof.
  intros (W & _) (row & I & D) Mn F B. destruct (W d) as (W1 & W2); auto; [exists t, row; cbn; auto|intros e (t' & row' & [<-|[]] & I' & ->); auto|]. lra.
Qed.
Theorem C94_more_entries_refuted : exists feats t more vs s vs' s', well_formed true (zlen feats) t /\ well_formed true (zlen feats) (t ++ more) /\
  library_pixel true true None 0 feats [t] = Ret (vs ++ [s]) /\ library_pixel true true None 0 feats [t ++ more] = Ret (vs' ++ [s']) /\ s <> 0%Z /\ (s < s')%Z.
Proof.
  set (feats := [(4%Z, true)]). set (t := [[0]; [2]]). set (more := [[1]]).
  assert (well_formed true 1 t) as W. { split; [intros row [<-|[<-|[]]]; reflexivity|]. intros _ c C. exists [0], [2]. cbn. assert (c = 0%Z) as -> by lia. cbn. repeat split; auto; lra. }
  assert (well_formed true 1 (t ++ more)) as W'. { split; [intros row [<-|[<-|[<-|[]]]]; reflexivity|]. intros _ c C. exists [0], [2]. cbn. assert (c = 0%Z) as -> by lia. cbn. repeat split; auto; lra. }
  destruct (C94_closest_entry true true None 0 feats [t]) as (vs & s & E & _ & S); auto; try discriminate; [cbn; intros _ f [<-|[]]; auto|].
  destruct (C94_closest_entry true true None 0 feats [t ++ more]) as (vs' & s' & E' & _ & S'); auto; try discriminate; [cbn; intros _ f [<-|[]]; auto|].
  exists feats, t, more, vs, s, vs', s'. do 4 (split; auto).
  assert (unit_of true t 0 = sqrt 2) as U. { unfold unit_of, spread. cbn. f_equal. unfold dev, mean, size. cbn. field. }
  assert (unit_of true (t ++ more) 0 = 1) as U'. { unfold unit_of, spread. cbn. transitivity (sqrt 1); [f_equal|apply sqrt_1]. unfold dev, mean, size. cbn. field. }
  assert (1.4 < sqrt 2 < 1.5) as Q. { split; [rewrite <- (sqrt_pow2 1.4) by lra|rewrite <- (sqrt_pow2 1.5) by lra]; apply sqrt_lt_1; lra. }
  assert (/ 1.5 < / sqrt 2 < / 1.4) as Qi by (split; apply Rinv_lt_contravar; nra).
  assert (forall x, Rabs (x - 4) = 4 - x \/ 4 < x) as A. { intros x. destruct (Rle_or_lt x 4); auto. left. rewrite Rabs_left1; lra. }
  assert (1 <= IZR s <= 1500) as Rs.
  { destruct (in_range_of true 4 t 1001 1500 (2 * / sqrt 2) s S) as (B1 & B2); unfold factor; try lra.
    - exists [2]. split; [cbn; auto|]. rewrite one_feature, U. destruct (A 2) as [-> |]; lra.
    - intros row [<-|[<-|[]]]; rewrite one_feature, U; [destruct (A 0) as [-> |]|destruct (A 2) as [-> |]]; nra. }
  assert (1999 < IZR s' <= 2000) as Rs'.
  { destruct (in_range_of true 4 (t ++ more) 2000 2000 2 s' S') as (B1 & B2); unfold factor; try lra.
    - exists [2]. split; [cbn; auto|]. rewrite one_feature, U'. destruct (A 2) as [-> |]; lra.
    - intros row [<-|[<-|[<-|[]]]]; rewrite one_feature, U'; [destruct (A 0) as [-> |]|destruct (A 2) as [-> |]|destruct (A 1) as [-> |]]; lra. }
  split; [intros ->; lra|]. apply lt_IZR. lra.
Qed.
(** With rescaling, a feature that is constant in the library makes every pixel nodata, also one that equals an entry. *)
Theorem C94_constant_feature_refuted : exists feats t row nodata, (forall r, In r t -> zlen r = zlen feats) /\ In row t /\
  (forall c v, get_at feats c = Some (v, true) -> entry row c = IZR v) /\ (forall f, In f feats -> snd f = true) /\
  library_pixel true true None nodata feats [t] = Ret [nodata; nodata].
Proof.
  exists [(1%Z, true); (2%Z, true)], [[1; 0]; [1; 2]], [1; 2], (-9999)%Z. split; [intros r [<-|[<-|[]]]; reflexivity|]. split; [cbn; auto|].
  split.
  { intros c v G. pose proof (get_at_inv _ _ _ G) as R. cbn in R. assert (c = 0 \/ c = 1)%Z as [-> | ->] by lia; cbn in G; injection G as <-; reflexivity. }
  split; [cbn; intros f [<-|[<-|[]]]; auto|].
  set (t := [[1; 0]; [1; 2]]).
  assert (col_sd t 0 = None) as Sd.
  { unfold col_sd. cbn [zlen length]. change (Z.of_nat (length t) <? 2)%Z with false. cbv iota zeta.
    destruct (run_var_spec (column t 0)) as (_ & ->); [discriminate|]. rewrite (dev2_const (column t 0) 1); [|cbn; intros x [<-|[<-|[]]]; auto|discriminate].
    unfold standdev, variance. replace (0 / (IZR (zlen t) - 1)) with 0 by (cbn; field). rewrite sqrt_0. now rewrite Req_bool_true. }
  assert (forall row, zlen row = 2%Z -> row_error true t [(1%Z, true); (2%Z, true)] row = Ret None) as Re.
  { intros [|x [|y [|? row]]] L; try discriminate L; [|unfold zlen in L; cbn in L; lia]. unfold row_error.
    change (combine (zupto (zlen [(1%Z, true); (2%Z, true)])) [(1%Z, true); (2%Z, true)]) with [(0%Z, (1%Z, true)); (1%Z, (2%Z, true))]. cbn [ofold negb].
    change (get_at [x; y] 0) with (Some x). change (get_at [x; y] 1) with (Some y). unfold scaled. rewrite Sd. reflexivity. }
  unfold library_pixel. cbn [andb existsb negb snd orb omap]. cbv iota.
  assert (library_error true [(1%Z, true); (2%Z, true)] t = Ret SHRT_MAX) as ->.
  { unfold library_error, t. cbn [ofold]. fold t. rewrite !Re by reflexivity. reflexivity. }
  cbn [bind fold_left map app].
  assert (store_error true (-9999) SHRT_MAX = (-9999)%Z) as S.
  { unfold store_error. rewrite !(Rlt_bool_false SHRT_MAX SHRT_MAX) by lra. cbn [andb]. now rewrite !(Rlt_bool_false SHRT_MAX SHRT_MAX) by lra. }
  rewrite (Rlt_bool_false SHRT_MAX SHRT_MAX) by lra. now rewrite S.
Qed.
(** Two features, one library of two entries, distances 15 and 185. *)
Example C94_case : library_pixel false true None (-9999) [(110%Z, true); (220%Z, true)] [[[100; 200]; [300; 400]]] = Ret [15%Z; 15%Z].
Proof.
  set (t := [[100; 200]; [300; 400]]).
  assert (well_formed false 2 t) as W by (split; [intros r [<-|[<-|[]]]; reflexivity|discriminate]).
  destruct (C94_closest_entry false true None (-9999) [(110%Z, true); (220%Z, true)] [t]) as (vs & s & E & F & S); auto; try discriminate; [cbn; intros _ f [<-|[<-|[]]]; auto|].
  assert (forall x y, distance false t [(110%Z, true); (220%Z, true)] [x; y] = (Rabs (x - 110) + Rabs (y - 220)) / 2) as D.
  { intros x y. unfold distance. change (filter (usable [(110%Z, true); (220%Z, true)]) (zupto (zlen [(110%Z, true); (220%Z, true)]))) with [0%Z; 1%Z]. unfold mean, size. cbn [map sum length INR].
    change (entry [x; y] 0) with x. change (entry [x; y] 1) with y. change (feature [(110%Z, true); (220%Z, true)] 0) with 110. change (feature [(110%Z, true); (220%Z, true)] 1) with 220. unfold unit_of, Rdiv. rewrite Rinv_1. replace (1 + 1) with 2 by ring. ring. }
  assert (Rabs (100 - 110) = 10) as A1 by (rewrite Rabs_left; lra). assert (Rabs (200 - 220) = 20) as A2 by (rewrite Rabs_left; lra).
  assert (Rabs (300 - 110) = 190) as A3 by (rewrite Rabs_right; lra). assert (Rabs (400 - 220) = 180) as A4 by (rewrite Rabs_right; lra).
  inversion F as [|? v ? ? Wv F']; subst. inversion F'; subst. rewrite E. cbn [app].
  assert (forall v : Z, IZR v <= 15 < IZR v + 1 -> v = 15%Z) as V.
  { intros w (H1 & H2). apply le_IZR in H1. rewrite <- plus_IZR in H2. apply lt_IZR in H2. lia. }
  destruct Wv as (Wv & _), S as (S & _). unfold factor in *.
  specialize (Wv 15). specialize (S 15). rewrite Rmult_1_l in Wv, S.
  rewrite (V v), (V s); auto.
  - apply S; [exists t, [100; 200]; rewrite D; cbn; repeat split; auto; lra| |lra]. intros e (t' & row & [<-|[]] & [<-|[<-|[]]] & ->); rewrite D; lra.
  - apply Wv; [exists [100; 200]; rewrite D; cbn; split; auto; lra| |lra]. intros e (row & [<-|[<-|[]]] & ->); rewrite D; lra.
Qed.

Print Assumptions C94_closest_entry. Print Assumptions C94_nothing_to_compare. Print Assumptions C94_exact_match. Print Assumptions C94_more_entries.
Print Assumptions C94_more_entries_refuted. Print Assumptions C94_constant_feature_refuted.
