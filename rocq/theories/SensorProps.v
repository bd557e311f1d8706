(** C51 and C52. *)
From Verif Require Import Base CStr BaseFacts StringModel ListingProofs ChunkProofs SensorModel SensorSpec SensorProofs.
From Coq Require Import Permutation.

Lemma check_ok defs target bands : check_target defs target bands = true <-> suits defs target bands.
Proof.
  unfold check_target, suits. destruct (defs target) as [tb|].
  - rewrite andb_true_iff, forallb_forall. split.
    + intros (L & F). exists tb. repeat split; [lia|]. intros b I. apply vec_in. auto.
    + intros (tb' & [= <-] & L & F). split; [lia|]. intros b I. apply vec_in. auto.
  - split; [discriminate|]. intros (tb & Q & _). discriminate.
Qed.

Lemma selected_fun {A} (P : A -> Prop) l a b : selected P l a -> selected P l b -> a = b.
Proof.
  intros H. revert b. induction H; intros b' K; inversion K; subst; try contradiction; auto.
  f_equal. auto.
Qed.

Lemma numbers_ok names bands : Forall2 (fun t row => Forall2 (number_of t) bands row) names (band_numbers names bands).
Proof.
  unfold band_numbers. induction names as [|t names IH]; cbn [map]; constructor; auto.
  clear. induction bands as [|b bands IH]; cbn [map]; constructor; auto. apply number_ok.
Qed.

Lemma retrieve_ok defs s0 rest t0 ts target bands :
  Forall2 (fun n t => defs n = Some t) (s0 :: rest) (t0 :: ts) ->
  selected (fun b => forall t, In t ts -> In b t) t0 bands ->
  retrieve_sensor defs (s0 :: rest) target false =
    Ret (match bands with [] => None | _ => if check_target defs target bands then Some (bands, band_numbers (t0 :: ts) bands) else None end).
Proof.
  intros F S. unfold retrieve_sensor.
  pose proof (load_ok defs (s0 :: rest) 0 (t0 :: ts) [] eq_refl F) as E. cbn [app] in E. rewrite E. cbn [bind].
  change (0 <? 0) with false. cbv iota. unfold band_intersection. change (get_at (t0 :: ts) 0) with (Some t0). cbn [of_option bind tl].
  assert (filter (fun b => forallb (fun other => vector_contains other b) ts) t0 = bands) as ->.
  { refine (selected_fun _ _ _ _ _ S). apply filter_selected. intros b. rewrite forallb_forall. split; intros H t I; apply vec_in; auto. }
  assert (length (s0 :: rest) = length (t0 :: ts)) as ->. { clear - F. induction F; cbn [length]; congruence. }
  rewrite firstn_all. destruct bands as [|b bands]; [reflexivity|]. destruct (check_target defs target (b :: bands)); reflexivity.
Qed.

(** Without spectral adjustment: the bands are those of the first sensor that all
    the others have, and for each sensor the number of the band is right. *)
Theorem C51_common_bands defs s0 rest t0 ts target bands :
  Forall2 (fun n t => defs n = Some t) (s0 :: rest) (t0 :: ts) ->
  selected (fun b => forall t, In t ts -> In b t) t0 bands -> bands <> [] -> suits defs target bands ->
  exists numbers, retrieve_sensor defs (s0 :: rest) target false = Ret (Some (bands, numbers)) /\
    Forall2 (fun t row => Forall2 (fun b n => number_of t b n /\ 1 <= n <= zlen t) bands row) (t0 :: ts) numbers.
Proof.
  intros F S N T. exists (band_numbers (t0 :: ts) bands). rewrite (retrieve_ok defs s0 rest t0 ts target bands F S).
  apply check_ok in T. rewrite T. split; [destruct bands; congruence|].
  assert (forall t b, In t (t0 :: ts) -> In b bands -> In b t) as B.
  { assert (forall b, In b bands -> In b t0 /\ forall t, In t ts -> In b t) as B.
    { clear - S. induction S; intros x I; [destruct I| |].
      - destruct I as [<- |I]; [split; [now left|auto]|]. destruct (IHS _ I). split; [now right|auto].
      - destruct (IHS _ I). split; [now right|auto]. }
    intros t b I J. destruct (B b J) as (B1 & B2). destruct I as [<- |I]; auto. }
  pose proof (numbers_ok (t0 :: ts) bands) as K. revert B K. generalize (t0 :: ts) (band_numbers (t0 :: ts) bands). clear.
  intros names rows B K. induction K as [|t row names rows K1 K IH]; constructor.
  - assert (forall b, In b bands -> In b t) as B' by (intros b; apply B; now left). clear - B' K1.
    induction K1 as [|b n bands row Q K IH]; constructor; [|apply IH; intros; apply B'; now right].
    split; auto. destruct Q as [(_ & Q)|(Q & _)]; [destruct Q; apply B'; now left|]. apply get_at_inv in Q. lia.
  - apply IH. intros t' b I. apply B. now right.
Qed.

(** It fails if the sensors have no band in common, if their bands are not those of the target ... *)
Theorem C51_incompatible_fails defs s0 rest t0 ts target bands :
  Forall2 (fun n t => defs n = Some t) (s0 :: rest) (t0 :: ts) ->
  selected (fun b => forall t, In t ts -> In b t) t0 bands -> (bands = [] \/ ~ suits defs target bands) ->
  retrieve_sensor defs (s0 :: rest) target false = Ret None.
Proof.
  intros F S D. rewrite (retrieve_ok defs s0 rest t0 ts target bands F S). destruct bands as [|b bands]; auto.
  destruct D as [D|D]; [discriminate|]. rewrite <- check_ok in D. destruct (check_target defs target (b :: bands)); congruence.
Qed.

(** ... or if a sensor is not known. *)
Theorem C51_unknown_sensor_fails defs sensors target n : In n sensors -> defs n = None -> retrieve_sensor defs sensors target false = Ret None.
Proof.
  intros I D. unfold retrieve_sensor.
  destruct (load_defined defs sensors 0 (repeat [] (length sensors)) 0) as (t & e & E); [lia| |].
  { unfold zlen. rewrite repeat_length. lia. }
  rewrite E. cbn [bind]. destruct (load_errors _ _ _ _ _ _ _ E) as (L & K).
  destruct (Z.ltb_spec 0 e) as [G|G]; [reflexivity|]. destruct (K ltac:(lia) n I D).
Qed.

(** Definitions without repeated bands: the bands suit the target iff they are its bands, in any order. *)
Theorem C51_target_bands defs target tb bands : defs target = Some tb -> NoDup bands ->
  (suits defs target bands <-> Permutation tb bands).
Proof.
  intros D N. split.
  - intros (tb' & D' & L & I). rewrite D in D'. injection D' as <-. symmetry. apply NoDup_Permutation_bis; auto. unfold zlen in L. lia.
  - intros P. exists tb. repeat split; auto.
    + unfold zlen. now rewrite (Permutation_length P).
    + intros b. apply Permutation_in. now symmetry.
Qed.

(** The union of the bands: all bands of all sensors, each once, in the order of
    their first occurrence. *)
Theorem C52_union_partial names bands : band_union names = Some bands ->
  NoDup bands /\ (forall b, In b bands <-> exists t, In t names /\ In b t) /\ (exists t ts, names = t :: ts /\ (NoDup t -> exists more, bands = t ++ more)).
Proof.
  unfold band_union. set (l := fold_left _ names []). intros E.
  assert (bands = l) as -> by (destruct l; congruence). repeat split.
  - apply union_all_nodup. constructor.
  - intros I. apply union_all in I. destruct I as [[]|I]. auto.
  - intros I. apply union_all. now right.
  - destruct names as [|t ts]; [discriminate E|]. exists t, ts. split; auto. intros N. clear E. subst l. cbn [fold_left].
    assert (forall bs acc, NoDup (acc ++ bs) -> fold_left add_band bs acc = acc ++ bs) as P1.
    { induction bs as [|b bs IH]; intros acc D; cbn [fold_left]; [now rewrite app_nil_r|].
      unfold add_band at 2. destruct (vector_contains acc b) eqn:V.
      - apply vec_in in V. apply NoDup_remove_2 in D. destruct D. apply in_app_iff. now left.
      - rewrite IH; rewrite <- app_assoc; auto. }
    assert (forall bs acc, exists more, fold_left add_band bs acc = acc ++ more) as P2.
    { induction bs as [|b bs IH]; intros acc; cbn [fold_left]; [exists []; now rewrite app_nil_r|].
      destruct (IH (add_band acc b)) as (m & ->). unfold add_band. destruct (vector_contains acc b); [eauto|]. exists (b :: m). now rewrite <- app_assoc. }
    rewrite P1 by auto. cbn [app]. generalize t. clear - P2. induction ts as [|b ts IH]; intros t; cbn [fold_left].
    + exists []. now rewrite app_nil_r.
    + destruct (P2 b t) as (m & ->). destruct (IH (t ++ m)) as (m' & ->). exists (m ++ m'). now rewrite <- app_assoc.
Qed.

(** With spectral adjustment, whatever the sensors are, memory behind the tables is
    written: they have no room for the additional sensor. *)
Theorem C52_adjusted_refuted defs sensors target bs : defs (`"SEN2A") = Some bs ->
  retrieve_sensor defs sensors target true = UB.
Proof.
  intros D. unfold retrieve_sensor. rewrite (load_overflow defs _ bs D); [reflexivity| |lia].
  unfold zlen. rewrite repeat_length. lia.
Qed.

Definition ex_defs : definitions := fun n =>
  if streq n (`"LND08") then Some [`"BLUE"; `"GREEN"; `"RED"; `"NIR"; `"SWIR1"]
  else if streq n (`"SEN2A") then Some [`"BLUE"; `"GREEN"; `"RED"; `"RE1"; `"BNIR"; `"NIR"]
  else if streq n (`"VNIR") then Some [`"NIR"; `"RED"; `"GREEN"; `"BLUE"] else None.
Example C51_two_sensors :
  retrieve_sensor ex_defs [`"SEN2A"; `"LND08"] (`"VNIR") false =
    Ret (Some ([`"BLUE"; `"GREEN"; `"RED"; `"NIR"], [[1; 2; 3; 6]; [1; 2; 3; 4]]))
  /\ retrieve_sensor ex_defs [`"SEN2A"; `"LND08"] (`"LND08") false = Ret None
  /\ retrieve_sensor ex_defs [`"SEN2A"; `"LND09"] (`"LND08") false = Ret None
  /\ retrieve_sensor ex_defs [`"SEN2A"; `"LND08"] (`"SEN2A") true = UB
  /\ band_union [[`"RED"; `"NIR"]; [`"BLUE"; `"RED"]] = Some [`"RED"; `"NIR"; `"BLUE"].
Proof. repeat split. Qed.
Example C51_two_sensors_hypotheses :
  Forall2 (fun n t => ex_defs n = Some t) [`"SEN2A"; `"LND08"] [[`"BLUE"; `"GREEN"; `"RED"; `"RE1"; `"BNIR"; `"NIR"]; [`"BLUE"; `"GREEN"; `"RED"; `"NIR"; `"SWIR1"]]
  /\ suits ex_defs (`"VNIR") [`"BLUE"; `"GREEN"; `"RED"; `"NIR"].
Proof. split; [repeat constructor|]. apply check_ok. reflexivity. Qed.

Print Assumptions C51_common_bands.
Print Assumptions C51_incompatible_fails.
Print Assumptions C51_unknown_sensor_fails.
Print Assumptions C51_target_bands.
Print Assumptions C52_union_partial.
Print Assumptions C52_adjusted_refuted.
