(** C60 - C64: spectral indices. *)
From Coq Require Import Reals Lra.
From Flocq Require Import Core.
From Verif Require Import Base BaseFacts Loops CStr StringModel StringProofs ChunkProofs AggModel RoundModel RoundFacts CsoProofs BapComposite
  IndexModel IndexSpec IndexProofs IndexProofs2 IndexProofs3 IndexProofs4.
#[local] Open Scope R_scope.

(** ** C60 *)
Theorem C60_indices_follow_their_formulas : forall domains name inputs nodata obs,
  In (name, inputs) shipped -> name <> `"NDVIre1n" -> incl inputs domains ->
  (forall o, In o obs -> ob_valid o = true -> usable domains name inputs (ob_dat o)) ->
  exists out, index_equation domains name inputs nodata true obs = Ret out /\ zlen out = zlen obs /\
    forall t o, get_at obs t = Some o ->
    exists y, get_at out t = Some y /\ result_ok domains name nodata (ob_valid o) (ob_dat o) y.
Proof.
  intros domains name inputs nodata obs HS HN HI U.
  assert (A : assoc shipped name = Some inputs /\ exists need args k, assoc implementations name = Some (need, args, k)).
  { unfold shipped in HS. cbn [In] in HS.
    repeat (destruct HS as [HS|HS]; [injection HS as <- <-; first [now elim HN | split; [reflexivity|];
      match goal with |- exists _ _ _, ?l = _ => let y := eval hnf in l in match y with Some (?a, ?b, ?c) => exists a, b, c; reflexivity end end]|]).
    destruct HS. }
  destruct A as (A & need & args & k & B). exact (series_ok domains name inputs nodata obs need args k A B HI U).
Qed.

Theorem C60_outside_the_mask : forall domains name inputs nodata obs out,
  index_equation domains name inputs nodata false obs = Ret out -> out = map (fun _ => nodata) obs.
Proof.
  intros domains name inputs nodata obs out. unfold index_equation. destruct (assoc implementations name) as [((need, args), k)|]; [|discriminate].
  destruct (negb (need =? zlen inputs)%Z); [discriminate|].
  destruct (omap _ args); cbn [bind negb]; try discriminate. now intros [= <-].
Qed.

(** A band instead of an index. *)
Theorem C60_plain_band : forall domains name nodata obs, In name domains ->
  (forall o, In o obs -> ob_valid o = true -> exists v, band domains (ob_dat o) name = Some v) ->
  exists out, index_band domains name nodata true obs = Ret out /\ zlen out = zlen obs /\
    forall t o, get_at obs t = Some o ->
    exists y, get_at out t = Some y /\ if ob_valid o then band domains (ob_dat o) name = Some y else y = nodata.
Proof.
  intros domains name nodata obs I V. destruct (band_found domains name I) as (b & B). unfold index_band. rewrite B. cbn [bind negb].
  apply (omap_get _ (fun o y => if ob_valid o then band domains (ob_dat o) name = Some y else y = nodata)).
  intros t o G. apply get_at_In in G. destruct (ob_valid o) eqn:E; cbn [negb]; [|eauto].
  destruct (V o G E) as (v & W). rewrite (band_reads _ _ _ _ _ W B). cbn [of_option]. eauto.
Qed.

(** Two observations, NIR 0.4 and RED 0.1 in the valid one. *)
Definition ex_domains : list (list Z) := [`"BLUE"; `"RED"; `"NIR"].
Definition ex_obs : list observation := [mkObservation false []; mkObservation true [500; 1000; 4000]%Z].

Example C60_example : exists y, index_equation ex_domains (`"NDVI") [`"NIR"; `"RED"] (-9999) true ex_obs = Ret [(-9999)%Z; y] /\ (5999 <= y <= 6001)%Z.
Proof.
  destruct (C60_indices_follow_their_formulas ex_domains (`"NDVI") [`"NIR"; `"RED"] (-9999) ex_obs) as (out & E & L & G).
  - now left.
  - discriminate.
  - intros x [<-|[<-|[]]]; vm_compute; tauto.
  - intros o [<-|[<-|[]]]; [discriminate|]. intros _. split.
    + intros nm [<-|[<-|[]]]; eexists; (split; [vm_compute; reflexivity|]; split; [lia | discriminate]).
    + intros x sc. unfold documented. cbn [In].
      replace (spectrum ex_domains (ob_dat (mkObservation true [500; 1000; 4000]%Z)) (lit "NIR")) with (IZR 4000 / 10000) by reflexivity.
      replace (spectrum ex_domains (ob_dat (mkObservation true [500; 1000; 4000]%Z)) (lit "RED")) with (IZR 1000 / 10000) by reflexivity.
      intros [H|H].
      * injection H as H <-. rewrite nd_scale in H by lra. unfold nd, quotient in H. destruct (Req_EM_T (4000 + 1000) 0) as [Z0|Z0]; [lra|].
        injection H as <-. apply Rabs_le. lra.
      * exfalso. repeat (destruct H as [H|H]; [discriminate H|]). exact H.
  - destruct (G 0%Z _ eq_refl) as (y0 & Y0 & R0). destruct (G 1%Z _ eq_refl) as (y1 & Y1 & R1). cbn [result_ok ob_valid ob_dat] in R0, R1.
    subst y0. specialize (R1 (nd (IZR 4000 / 10000) (IZR 1000 / 10000)) 10000 (or_introl eq_refl)).
    rewrite nd_scale in R1 by lra. unfold nd, quotient in R1. destruct (Req_EM_T (4000 + 1000) 0) as [Z0|Z0]; [lra|].
    unfold represents in R1. apply Rabs_lt_inv in R1.
    destruct out as [|a [|b [|c out]]]; try discriminate Y1.
    + rewrite E. cbn in Y0, Y1. injection Y0 as ->. injection Y1 as ->. exists y1. split; [reflexivity|].
      assert (A : IZR 5998 < IZR y1 < IZR 6002) by lra. destruct A as [A1 A2]. apply lt_IZR in A1, A2. lia.
    + exfalso. unfold zlen in L. cbn [length ex_obs] in L. lia.
Qed.

(** ** C61 *)
(** With all its bands present the index is never rejected ... *)
Theorem C61_shipped_indices_accepted_partial : forall domains name inputs nodata inside obs,
  In (name, inputs) shipped -> name <> `"NDVIre1n" -> incl inputs domains ->
  index_equation domains name inputs nodata inside obs <> Exit.
Proof.
  intros domains name inputs nodata inside obs HS HN HI.
  assert (A : exists need args k, assoc implementations name = Some (need, args, k) /\ need = zlen inputs /\
     exists names, omap (fun a => of_option (get_at inputs a)) args = Ret names).
  { unfold shipped in HS. cbn [In] in HS.
    repeat (destruct HS as [HS|HS]; [injection HS as <- <-; first [now elim HN |
      match goal with |- exists _ _ _, ?l = _ /\ _ => let y := eval hnf in l in match y with Some (?a, ?b, ?c) => exists a, b, c; split; [reflexivity|];
        split; [reflexivity | eexists; reflexivity] end end]|]).
    destruct HS. }
  destruct A as (need & args & k & A & -> & names & O). unfold index_equation. rewrite A, Z.eqb_refl. cbn [negb].
  destruct (bands_found domains inputs HI args names O) as (bands & -> & _). cbn [bind]. destruct inside; cbn [negb]; [|discriminate].
  assert (NE : forall (X Y : Type) (f : X -> outcome Y) l, (forall x, f x <> Exit) -> omap f l <> Exit).
  { intros X Y f l F. induction l as [|x l IH]; cbn [omap]; [discriminate|]. specialize (F x). destruct (f x); cbn [bind]; try congruence.
    destruct (omap f l); cbn [bind]; congruence. }
  apply NE. intro o. unfold index_observation. destruct (negb (ob_valid o)); [discriminate|].
  destruct (omap _ bands) as [v| |] eqn:V; cbn [bind]; [|discriminate|].
  2: { exfalso. revert V. apply NE. intro b. destruct (get_at (ob_dat o) b); discriminate. }
  assert (TV : forall x, to_value x <> Exit) by (intro x; unfold to_value, short_of_real; destruct (in_shortb _); discriminate).
  assert (VE : value k v <> Exit).
  { unfold value. destruct k; repeat (destruct v as [|? v]; try discriminate).
    - unfold differenced. cbv zeta. repeat (destruct (_ =? _)%Z || destruct (Rlt_dec _ _)); try discriminate; apply TV.
    - apply TV.
    - unfold ratio_minus1. cbv zeta. repeat (destruct (_ =? _)%Z || destruct (Rlt_dec _ _)); try discriminate; apply TV.
    - unfold msrre. cbv zeta. repeat (destruct (_ =? _)%Z || destruct (Rlt_dec _ _) || destruct (Req_EM_T _ _)); try discriminate; apply TV.
    - unfold kernelized. cbv zeta. destruct (_ || _)%bool; [discriminate | apply TV].
    - unfold resistance. cbv zeta. destruct (Req_EM_T _ _); [discriminate | apply TV].
    - apply TV. }
  destruct (value k v); cbn [bind]; congruence.
Qed.

(** ... and without one of them it is. *)
Theorem C61_missing_band : forall domains name inputs nodata inside obs nm,
  In (name, inputs) shipped -> In nm inputs -> ~ In nm domains -> index_equation domains name inputs nodata inside obs = Exit.
Proof.
  intros domains name inputs nodata inside obs nm HS HI ND.
  unfold index_equation. destruct (assoc implementations name) as [((need, args), k)|] eqn:A; [|reflexivity].
  destruct (need =? zlen inputs)%Z eqn:E; cbn [negb]; [|reflexivity].
  assert (C : exists a, In a args /\ get_at inputs a = Some nm).
  { unfold shipped in HS. cbn [In] in HS.
    repeat (destruct HS as [HS|HS]; [injection HS as <- <-;
      match type of A with ?l = _ => let y := eval hnf in l in change (y = Some (need, args, k)) in A end; first [discriminate A | injection A as <- <- <-;
      cbn [In] in HI;
      repeat (destruct HI as [<-|HI]; [first [exists 0%Z; split; [cbn; tauto | reflexivity] | exists 1%Z; split; [cbn; tauto | reflexivity]
        | exists 2%Z; split; [cbn; tauto | reflexivity] | exists 3%Z; split; [cbn; tauto | reflexivity]
        | exists 4%Z; split; [cbn; tauto | reflexivity] | exists 5%Z; split; [cbn; tauto | reflexivity]]|]); destruct HI] |]).
    destruct HS. }
  destruct C as (a & IA & G).
  assert (NF : band_for domains nm = Exit).
  { unfold band_for, vector_contains_pos. destruct (contains_pos_spec domains nm 0 ltac:(lia)) as [(-> & _)|(q & _ & Q & _)]; [reflexivity|].
    elim ND. eapply nth_error_In; exact Q. }
  assert (AG : forall b, In b args -> get_at inputs b <> None).
  { clear - A HS. unfold shipped in HS. cbn [In] in HS.
    repeat (destruct HS as [HS|HS]; [injection HS as <- <-;
      match type of A with ?l = _ => let y := eval hnf in l in change (y = Some (need, args, k)) in A end; first [discriminate A | injection A as <- <- <-;
      intros b B; cbn [In] in B; repeat (destruct B as [<-|B]; [discriminate|]); destruct B] |]).
    destruct HS. }
  assert (R : omap (fun a => nm <- of_option (get_at inputs a) ;; band_for domains nm) args = Exit).
  { clear - G NF AG IA. induction args as [|b args IH]; [destruct IA|]. cbn [omap].
    destruct (get_at inputs b) as [x|] eqn:B; [|elim (AG b (or_introl eq_refl)); exact B]. cbn [of_option bind].
    destruct IA as [->|IA]; [rewrite G in B; injection B as <-; now rewrite NF|].
    assert (BF : band_for domains x <> UB) by (unfold band_for; destruct (_ <? 0)%Z; discriminate).
    destruct (band_for domains x); [|now elim BF | reflexivity]. cbn [bind]. rewrite IH by (auto; intros c C; apply AG; now right). reflexivity. }
  now rewrite R.
Qed.

(** One of the names is not known to the program. *)
Theorem C61_ndvire1n_refuted :
  In (`"NDVIre1n", [`"NIR"; `"REDEDGE1"]) shipped /\
  forall domains inputs nodata inside obs, index_equation domains (`"NDVIre1n") inputs nodata inside obs = Exit.
Proof.
  split; [vm_compute; tauto|]. intros. unfold index_equation.
  match goal with |- match ?l with _ => _ end = _ => let y := eval hnf in l in change l with y end. reflexivity.
Qed.

(** A zero reflectance: the kernel NDVI of 0.5 and 0 is defined, nodata is stored. *)
Theorem C61_kndvi_of_zero_refuted :
  index_equation ex_domains (`"kNDVI") [`"NIR"; `"RED"] (-9999) true [mkObservation true [500; 0; 5000]%Z] = Ret [(-9999)%Z] /\
  exists x, In (`"kNDVI", Some x, 10000) (documented (spectrum ex_domains [500; 0; 5000]%Z)) /\ 5000 <= 10000 * x <= 10000.
Proof.
  split.
  - unfold index_equation. match goal with |- match ?l with _ => _ end = _ => let y := eval hnf in l in change l with y end. reflexivity.
  - set (k := exp (- (IZR 5000 / 10000 - IZR 0 / 10000) ^ 2 / (2 * (0.5 * (IZR 5000 / 10000 + IZR 0 / 10000)) ^ 2))).
    assert (K : k = exp (-2)) by (unfold k; replace (IZR 5000 / 10000 - IZR 0 / 10000) with (1 / 2) by lra;
      replace (0.5 * (IZR 5000 / 10000 + IZR 0 / 10000)) with (1 / 4) by lra; f_equal; field).
    assert (K0 : 0 < k <= 1 / 3).
    { rewrite K. split; [apply exp_pos|]. replace (-2) with (- (2)) by lra. rewrite exp_Ropp. assert (3 <= exp 2).
      { pose proof (exp_ineq1 2 ltac:(lra)). lra. }
      replace (1 / 3) with (/ 3) by lra. apply Rinv_le_contravar; lra. }
    exists ((1 - k) / (1 + k)). split.
    + replace (Some ((1 - k) / (1 + k))) with (quotient (1 - k) (1 + k)).
      * unfold documented. do 16 apply in_cons. left. reflexivity.
      * unfold quotient. destruct (Req_EM_T (1 + k) 0); [lra | reflexivity].
    + split.
      * apply Rmult_le_reg_r with (1 + k); [lra|]. replace (10000 * ((1 - k) / (1 + k)) * (1 + k)) with (10000 * (1 - k)) by (field; lra). lra.
      * apply Rmult_le_reg_r with (1 + k); [lra|]. replace (10000 * ((1 - k) / (1 + k)) * (1 + k)) with (10000 * (1 - k)) by (field; lra). lra.
Qed.

(** ** C62 *)
Theorem C62_ratios_always_defined_partial : forall k a b,
  k = Differenced \/ k = Ratio1 \/ k = Kernelized -> exists r, value k [a; b] = Ret r.
Proof.
  intros k a b [->|[->| ->]]; cbn [value].
  - destruct (differenced_inv a b) as (r & E & _). eauto.
  - apply ratio_minus1_total.
  - destruct (kernelized_total a b) as (r & E & _). eauto.
Qed.

(** For reflectances between 0 and 1. *)
Theorem C62_defined_within_range_partial : forall k v, Forall (fun x => 0 <= x <= 10000)%Z v ->
  match k with
  | Msrre => length v = 2%nat
  | ContRemove a b c => length v = 3%nat /\ a = rnd32 (1610 / 1000) /\ b = rnd32 (864 / 1000) /\ c = rnd32 (2186 / 1000)
  | Tasseled c => length v = 6%nat /\ c <> TCD
  | Resistance f1 f2 f3 f4 rbc => length v = 3%nat /\ f2 = 1 /\ f3 = 0 /\ rbc = false /\ ((f1 = 15 / 10 /\ f4 = 5 / 10) \/ (f1 = rnd32 (24 / 10) /\ f4 = 1))
  | _ => False
  end -> exists r, value k v = Ret r.
Proof.
  intros k v V K. destruct k; try contradiction.
  - destruct K as (L & -> & -> & ->). destruct v as [|c [|a [|b [|]]]]; try discriminate L. cbn [value].
    repeat match goal with H : Forall _ (_ :: _) |- _ => apply Forall_cons_iff in H; destruct H as [? H] end.
    pose proof (cont_remove_ok c a b H H0 H1) as S. unfold stores in S. destruct S as (x & E & _); [|eauto].
    apply IZR_range in H, H0, H1. apply Rabs_le. lra.
  - destruct v as [|a [|b [|]]]; try discriminate K. cbn [value].
    repeat match goal with H : Forall _ (_ :: _) |- _ => apply Forall_cons_iff in H; destruct H as [? H] end.
    unfold msrre. destruct (b =? 0)%Z eqn:B; [eauto|]. cbv zeta.
    assert (Q : 0 <= fdiv (IZR a) (IZR b)).
    { unfold fdiv. rewrite <- rnd32_0. apply rnd32_le. apply Rmult_le_pos; [apply IZR_le; lia|]. left. apply Rinv_0_lt_compat. apply IZR_lt. lia. }
    destruct (Rlt_dec _ 0) as [L|L].
    { exfalso. assert (0 <= rnd64 (fdiv (IZR a) (IZR b) + 1)) by (rewrite <- rnd64_0; apply rnd64_le; lra). lra. }
    destruct (Req_EM_T _ _); [eauto|]. destruct (Rlt_dec 32767 _); [eauto|]. destruct (Rlt_dec _ _); [eauto|].
    match goal with |- exists r, to_value ?x = _ => destruct (to_value_between (-32768) 32767 x ltac:(lia) ltac:(lia) ltac:(lra)) as [-> _] end. eauto.
  - destruct K as (L & -> & -> & -> & [(-> & ->)|(-> & ->)]); destruct v as [|n [|r [|b [|]]]]; try discriminate L; cbn [value];
    repeat match goal with H : Forall _ (_ :: _) |- _ => apply Forall_cons_iff in H; destruct H as [? H] end.
    + pose proof (resistance_doc (15 / 10) 1.5 1 0 (5 / 10) 1 0 1 false n r b _ _ factor_15 eq_refl ltac:(lra) ltac:(lra) ltac:(lia) ltac:(lia) ltac:(lia) H H0 H1 eq_refl eq_refl) as S.
      cbv zeta in S. unfold quotient in S. destruct (Req_EM_T _ 0) as [Z0|Z0]; [eauto|]. unfold stores in S.
      destruct S as (x & E & _); [|eauto].
      apply IZR_range in H, H0. apply Rabs_le.
      set (N := IZR n / 10000) in *. set (R := IZR r / 10000) in *.
      assert (0 <= N <= 1) by (unfold N; lra). assert (0 <= R <= 1) by (unfold R; lra).
      replace (N + 1 * R - 0 * (IZR b / 10000) + 5 / 10) with (N + R + 5 / 10) in * by ring.
      assert (P : -1 <= 1.5 * (N - R) / (N + R + 5 / 10) <= 1); [|lra].
      split; (apply Rmult_le_reg_r with (N + R + 5 / 10); [lra|]);
        replace (1.5 * (N - R) / (N + R + 5 / 10) * (N + R + 5 / 10)) with (1.5 * (N - R)) by (field; lra); lra.
    + pose proof (resistance_doc (rnd32 (24 / 10)) 2.4 1 0 (1) 1 0 2 false n r b _ _ factor_24 eq_refl ltac:(lra) ltac:(lra) ltac:(lia) ltac:(lia) ltac:(lia) H H0 H1 eq_refl eq_refl) as S.
      cbv zeta in S. unfold quotient in S. destruct (Req_EM_T _ 0) as [Z0|Z0]; [eauto|]. unfold stores in S.
      destruct S as (x & E & _); [|eauto].
      apply IZR_range in H, H0. apply Rabs_le.
      set (N := IZR n / 10000) in *. set (R := IZR r / 10000) in *.
      assert (0 <= N <= 1) by (unfold N; lra). assert (0 <= R <= 1) by (unfold R; lra).
      replace (N + 1 * R - 0 * (IZR b / 10000) + 1) with (N + R + 1) in * by ring.
      assert (P : -2.4 <= 2.4 * (N - R) / (N + R + 1) <= 2.4); [|lra].
      split; (apply Rmult_le_reg_r with (N + R + 1); [lra|]);
        replace (2.4 * (N - R) / (N + R + 1) * (N + R + 1)) with (2.4 * (N - R)) by (field; lra); lra.
  - destruct K as (L & C). destruct v as [|b [|g [|r [|n [|s1 [|s2 [|]]]]]]]; try discriminate L. cbn [value].
    pose proof (tasseled_ok c _ L V) as S. unfold stores in S. destruct S as (x & E & _); [|eauto].
    destruct (component_err c _ C L V) as [_ B]. apply Rabs_le_inv in B. apply Rabs_le. lra.
Qed.

Theorem C62_evi_overflow_refuted : exists n r b, (0 <= n <= 10000 /\ 0 <= r <= 10000 /\ 0 <= b <= 10000)%Z /\
  index_equation ex_domains (`"EVI") [`"NIR"; `"RED"; `"BLUE"] (-9999) true [mkObservation true [b; r; n]%Z] = UB.
Proof.
  exists 5001%Z, 0%Z, 2000%Z. split; [lia|]. unfold index_equation.
  match goal with |- match ?l with _ => _ end = _ => let y := eval hnf in l in change l with y end.
  change (bind (index_observation (Resistance (25 / 10) 6 (75 / 10) 1 false) [2; 1; 0]%Z (-9999) (mkObservation true [2000; 0; 5001]%Z))
    (fun y => bind (Ret []) (fun ys => Ret (y :: ys))) = UB).
  unfold index_observation. cbn [ob_valid negb ob_dat].
  change (omap (fun b => of_option (get_at [2000%Z; 0%Z; 5001%Z] b)) [2%Z; 1%Z; 0%Z]) with (Ret [5001; 0; 2000]%Z). cbn [bind value].
  now rewrite evi_overflow.
Qed.

Theorem C62_arvi_overflow_refuted : exists n r b, (0 <= n <= 10000 /\ 0 <= r <= 10000 /\ 0 <= b <= 10000)%Z /\
  index_equation ex_domains (`"ARVI") [`"NIR"; `"RED"; `"BLUE"] (-9999) true [mkObservation true [b; r; n]%Z] = UB.
Proof.
  exists 5001%Z, 0%Z, 5000%Z. split; [lia|]. unfold index_equation.
  match goal with |- match ?l with _ => _ end = _ => let y := eval hnf in l in change l with y end.
  change (bind (index_observation (Resistance 1 1 0 0 true) [2; 1; 0]%Z (-9999) (mkObservation true [5000; 0; 5001]%Z))
    (fun y => bind (Ret []) (fun ys => Ret (y :: ys))) = UB).
  unfold index_observation. cbn [ob_valid negb ob_dat].
  change (omap (fun b => of_option (get_at [5000%Z; 0%Z; 5001%Z] b)) [2%Z; 1%Z; 0%Z]) with (Ret [5001; 0; 5000]%Z). cbn [bind value].
  now rewrite arvi_overflow.
Qed.

Theorem C62_sarvi_overflow_refuted : exists n r b, (0 <= n <= 10000 /\ 0 <= r <= 10000 /\ 0 <= b <= 10000)%Z /\
  index_equation ex_domains (`"SARVI") [`"NIR"; `"RED"; `"BLUE"] (-9999) true [mkObservation true [b; r; n]%Z] = UB.
Proof.
  exists 1%Z, 0%Z, 5000%Z. split; [lia|]. unfold index_equation.
  match goal with |- match ?l with _ => _ end = _ => let y := eval hnf in l in change l with y end.
  change (bind (index_observation (Resistance (15 / 10) 1 0 (5 / 10) true) [2; 1; 0]%Z (-9999) (mkObservation true [5000; 0; 1]%Z))
    (fun y => bind (Ret []) (fun ys => Ret (y :: ys))) = UB).
  unfold index_observation. cbn [ob_valid negb ob_dat].
  change (omap (fun b => of_option (get_at [5000%Z; 0%Z; 1%Z] b)) [2%Z; 1%Z; 0%Z]) with (Ret [1; 0; 5000]%Z). cbn [bind value].
  now rewrite sarvi_overflow.
Qed.

Theorem C62_tcdi_overflow_refuted : exists v, Forall (fun x => 0 <= x <= 10000)%Z v /\ value (Tasseled TCD) v = UB.
Proof. exists [10000; 10000; 10000; 0; 10000; 10000]%Z. split; [repeat constructor; lia | exact tcdi_overflow]. Qed.

(** Negative reflectances happen over dark water. *)
Theorem C62_msrre_of_negative_refuted : exists a b, value Msrre [a; b] = UB.
Proof. exists (-20)%Z, 10%Z. exact msrre_nan. Qed.

(** ** C63 *)
Theorem C63_normalized_difference_within_one : forall a b v, differenced a b = Ret (Some v) -> (-10000 <= v <= 10000)%Z.
Proof. intros a b v E. destruct (differenced_inv a b) as (r & E' & H). rewrite E in E'. injection E' as <-. now apply H. Qed.

Theorem C63_antisymmetric : forall a b,
  differenced b a = match differenced a b with Ret (Some v) => Ret (Some (- v)%Z) | r => r end.
Proof. intros a b. rewrite (differenced_swap a b). unfold neg_value. now destruct (differenced a b) as [[v|]| |]. Qed.

(** Only the ratio of the bands matters: illumination cancels out. *)
Theorem C63_scale_invariant : forall a b c, (a + b <> 0)%Z -> (c <> 0)%Z -> differenced (c * a) (c * b) = differenced a b.
Proof. intros a b c S C. apply differenced_ratio; nia. Qed.

Theorem C63_monotone : forall a a' b b', (0 <= a <= a')%Z -> (0 <= b' <= b)%Z -> (0 < a + b)%Z -> (0 < a' + b')%Z ->
  exists v v', differenced a b = Ret (Some v) /\ differenced a' b' = Ret (Some v') /\ (v <= v')%Z.
Proof. exact differenced_mono. Qed.

Example C63_example : differenced 3000 1000 = Ret (Some 5000%Z) /\ differenced 1000 3000 = Ret (Some (-5000)%Z).
Proof.
  assert (E : differenced 3000 1000 = Ret (Some 5000%Z)).
  { rewrite differenced_value by lia. do 2 f_equal. unfold fdiv. replace (IZR (3000 - 1000) / IZR (3000 + 1000)) with (IZR 1 / 2) by (change (3000 - 1000)%Z with 2000%Z; change (3000 + 1000)%Z with 4000%Z; lra).
    rewrite rnd32_half by reflexivity. unfold fmul. replace (IZR 1 / 2 * 10000) with (IZR 5000) by lra.
    rewrite rnd32_int by reflexivity. apply Ztrunc_IZR. }
  split; [exact E|]. rewrite C63_antisymmetric, E. reflexivity.
Qed.

(** ** C64 *)
Theorem C64_normalized_difference_is_never_nodata_partial : forall a b, (0 <= a <= 10000)%Z -> (0 <= b <= 10000)%Z ->
  differenced a b <> Ret (Some (-9999)%Z).
Proof. exact differenced_not_nodata. Qed.

Theorem C64_kernel_index_is_never_nodata_partial : forall a b, kernelized a b <> Ret (Some (-9999)%Z).
Proof. intros a b E. destruct (kernelized_total a b) as (r & E' & H). rewrite E in E'. injection E' as <-. specialize (H _ eq_refl). lia. Qed.

(** The wetness of a valid observation is stored as -9999. *)
Theorem C64_wetness_refuted : exists v, Forall (fun x => 0 <= x <= 10000)%Z v /\ value (Tasseled TCW) v = Ret (Some (-9999)%Z).
Proof. exists [0; 0; 0; 0; 7200; 8347]%Z. split; [repeat constructor; lia | exact tcwet_nodata]. Qed.

Print Assumptions C60_indices_follow_their_formulas.
Print Assumptions C60_outside_the_mask.
Print Assumptions C60_plain_band.
Print Assumptions C61_shipped_indices_accepted_partial.
Print Assumptions C61_missing_band.
Print Assumptions C61_ndvire1n_refuted.
Print Assumptions C61_kndvi_of_zero_refuted.
Print Assumptions C62_ratios_always_defined_partial.
Print Assumptions C62_defined_within_range_partial.
Print Assumptions C62_evi_overflow_refuted.
Print Assumptions C62_arvi_overflow_refuted.
Print Assumptions C62_sarvi_overflow_refuted.
Print Assumptions C62_tcdi_overflow_refuted.
Print Assumptions C62_msrre_of_negative_refuted.
Print Assumptions C63_normalized_difference_within_one.
Print Assumptions C63_antisymmetric.
Print Assumptions C63_scale_invariant.
Print Assumptions C63_monotone.
Print Assumptions C64_normalized_difference_is_never_nodata_partial.
Print Assumptions C64_kernel_index_is_never_nodata_partial.
Print Assumptions C64_wetness_refuted.
