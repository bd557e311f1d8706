(** C149 to C151. *)
From Verif Require Import Base BaseFacts Loops CStr LsmModel QaiModel SensorModel SensorSpec SensorProofs SensorProps ReadModel ReadSpec ReadProofs.

(** ** C149: all images of a chunk are read, or an error is reported *)
(** Whatever the number of threads and however the dates are shared among them. *)
Theorem C149_read : forall nc w threads who l, 0 <= nc -> sensible w -> (forall t, (who t < threads)%nat) -> l <> [] -> Forall (regular nc) l ->
  (Forall (readable w) l -> exists es, read_ard nc w threads who l = Ret (Images es) /\ Forall2 (image_of nc w) l es) /\
  (Exists (fun f => ~ readable w f) l -> read_ard nc w threads who l = Ret Failed).
Proof.
  intros nc w threads who l N S W NE RG. destruct (read_all_ok nc w who threads N S W l 0%nat (fun _ => 0) RG) as (x & E & M & A & B); [intros; lia|].
  assert (R : read_ard nc w threads who l = Ret (if 0 <? total threads (snd x) then Failed else Images (fst x))).
  { unfold read_ard. destruct l; [congruence|]. rewrite E. reflexivity. }
  rewrite R. split.
  - intros F. destruct (A (fun _ => eq_refl) F) as (Z0 & I). rewrite (total_zero _ _ Z0). change (0 <? 0) with false. cbv iota. eauto.
  - intros X. pose proof (total_pos threads (snd x) M (B X)) as P. apply Z.ltb_lt in P. rewrite P. reflexivity.
Qed.
(** The modules ask for something sensible, except for clear sky observations without quality product. *)
Theorem C149_modules : forall m quality aux, (m = CSO -> quality = true /\ aux = false) -> sensible (wanted m quality aux).
Proof.
  intros m quality aux H. unfold sensible, wanted. cbn [w_ref w_qai w_quality w_aux]. destruct m; split; auto.
  - intros A. destruct (H eq_refl); congruence.
  - intros _. left. apply (H eq_refl).
Qed.
(** There the quality would be made from images that were not read: a null pointer is followed (brick_base-cl.c:146). *)
Theorem C149_no_quality_refuted : forall nc threads who f l, read_ard nc (wanted CSO false false) threads who (f :: l) = UB.
Proof. intros. reflexivity. Qed.
Example C149_example : let f := mkFiles (Some [[5; -9999]; [7; 8]]) None [Some [1; 2]] in
  read_ard 2 (wanted LEVEL3 false true) 2 (fun t => Nat.modulo t 2) [f; f] =
    Ret (Images [mkEntry (Some [[5; -9999]; [7; 8]]) (Some [0; 1]) (Some [[1; 2]]); mkEntry (Some [[5; -9999]; [7; 8]]) (Some [0; 1]) (Some [[1; 2]])]) /\
  read_ard 2 (wanted LEVEL3 false true) 2 (fun t => Nat.modulo t 2) [f; f; mkFiles (Some [[5; 5]; [7; 8]]) None [None]] = Ret Failed /\
  Forall (regular 2) [f; f] /\ Forall (readable (wanted LEVEL3 false true)) [f; f].
Proof.
  cbv zeta. split; [reflexivity|]. split; [reflexivity|]. split.
  - repeat constructor; intros d [= <-]; repeat constructor.
  - repeat constructor; cbn; try discriminate; intros _ [H|[]]; discriminate.
Qed.

(** ** C150: mask and features *)
(** The pixels with value 1 are processed; a chunk without such a pixel is skipped. *)
Theorem C150_mask : forall l, Forall (fun v => 0 <= v <= 255) l ->
  (In 1 l -> exists m, read_mask true true (Some l) = Mask m /\ zlen m = zlen l /\ forall p, 0 <= p < zlen l -> (get_at m p = Some 1 <-> get_at l p = Some 1) /\ (get_at m p = Some 0 <-> get_at l p <> Some 1)) /\
  (~ In 1 l -> read_mask true true (Some l) = Skip).
Proof.
  intros l B. rewrite Forall_forall in B. unfold read_mask. cbn [negb].
  assert (S : forall v, In v l -> (small v =? 1) = (v =? 1)) by (intros v I; unfold small; rewrite Z.mod_small by (specialize (B v I); lia); reflexivity).
  assert (F : filter (fun v => small v =? 1) l = filter (fun v => v =? 1) l) by (apply filter_ext_in; exact S).
  rewrite F. split.
  - intros I. destruct (filter (fun v => v =? 1) l) eqn:E; [exfalso; assert (In 1 (filter (fun v => v =? 1) l)) as J by (apply filter_In; split; [exact I|reflexivity]); rewrite E in J; destruct J|].
    cbn [length Nat.eqb]. eexists. split; [reflexivity|]. unfold binary. split; [unfold zlen; rewrite map_length; reflexivity|]. intros p P.
    destruct (get_at_some l p) as (v & V); [exact P|].
    assert (G : get_at (map (fun v => if small v =? 1 then 1 else 0) l) p = Some (if v =? 1 then 1 else 0)).
    { rewrite <- (S v (get_at_In _ _ _ V)). unfold get_at in *. destruct (p <? 0); [discriminate|]. rewrite nth_error_map, V. reflexivity. }
    rewrite G, V. destruct (Z.eqb_spec v 1) as [->|]; repeat split; congruence.
  - intros NI. destruct (filter (fun v => v =? 1) l) as [|a r] eqn:E; [reflexivity|]. exfalso. apply NI.
    assert (In a (filter (fun v => v =? 1) l)) as J by (rewrite E; now left). apply filter_In in J. destruct J as (J & K). apply Z.eqb_eq in K. congruence.
Qed.
(** Without a mask everything is processed; a tile without mask is skipped; an unreadable mask gives no product. *)
Theorem C150_no_mask : forall listed img l, (read_mask false listed img = NoMask) /\ (read_mask true false img = Skip) /\ (read_mask true true None = MaskError) /\
  (input Skip l = None) /\ (input MaskError l = None) /\ (input NoMask l <> None <-> exists e r, l = Images (e :: r)).
Proof.
  intros. repeat split; try reflexivity.
  - destruct l as [| |[|e r]]; cbn; try congruence. eauto.
  - intros (e & r & ->). discriminate.
Qed.
(** What is computed with: the images with the mask that was read, if one is configured. *)
Theorem C150_input : forall configured listed img l k es, (forall v, img = Some v -> Forall (fun x => 0 <= x <= 255) v) ->
  (input (read_mask configured listed img) l = Some (k, es) <->
   l = Images es /\ es <> [] /\ (configured = false /\ k = None \/
     configured = true /\ listed = true /\ exists v m, img = Some v /\ In 1 v /\ k = Some m /\ zlen m = zlen v /\ forall p, 0 <= p < zlen v -> (get_at m p = Some 1 <-> get_at v p = Some 1) /\ (get_at m p = Some 0 <-> get_at v p <> Some 1))).
Proof.
  intros configured listed img l k es B. destruct configured; [|destruct listed; destruct l as [| |[|e r]]; cbn; split; try discriminate; (intros (E & N & H); try discriminate; try (injection E as <-; destruct H as [(_ & ->)|(H & _)]; [try reflexivity; congruence|discriminate])) || (intros E; injection E as <- <-; split; [reflexivity|]; split; [discriminate|]; left; auto)].
  destruct listed; [|cbn; split; [discriminate|intros (_ & _ & [(H & _)|(_ & H & _)]); discriminate]]. destruct img as [v|]; [|cbn; split; [discriminate|intros (_ & _ & [(H & _)|(_ & _ & v & m & H & _)]); discriminate]].
  destruct (C150_mask v (B v eq_refl)) as (M1 & M2). destruct (in_dec Z.eq_dec 1 v) as [I|I].
  - destruct (M1 I) as (m & E & Q). rewrite E. cbn [input]. split.
    + destruct l as [| |[|e r]]; try discriminate. intros H. injection H as <- <-. split; [reflexivity|]. split; [discriminate|]. right. split; [reflexivity|]. split; [reflexivity|]. exists v, m. destruct Q. auto.
    + intros (-> & N & [(H & _)|(_ & _ & v' & m' & H & _ & -> & L & P)]); [discriminate|]. injection H as <-. destruct es as [|e r]; [contradiction|]. repeat f_equal. destruct Q as (Lm & Q). symmetry in Lm. apply get_at_ext; [congruence|]. intros p Bp. rewrite <- Lm in Bp. destruct (P p Bp) as (P1 & P2). destruct (Q p Bp) as (Q1 & Q2).
      destruct (get_at v p) as [x|] eqn:G. { destruct (Z.eq_dec x 1) as [->|X]; [rewrite (proj2 Q1), (proj2 P1); auto | rewrite (proj2 Q2), (proj2 P2); congruence]. } { rewrite (proj2 Q2), (proj2 P2); congruence. }
  - rewrite (M2 I). cbn. split; [discriminate|]. intros (_ & _ & [(H & _)|(_ & _ & v' & m' & H & J & _)]); [discriminate|]. injection H as <-. contradiction.
Qed.
Example C150_input_case : input (read_mask true true (Some [0; 1])) (Images [mkEntry None None None]) = Some (Some [0; 1], [mkEntry None None None]).
Proof. reflexivity. Qed.
(** A mask with 16 bits: 257 counts as 1. *)
Theorem C150_wide_mask_refuted : read_mask true true (Some [0; 257]) = Mask [0; 1].
Proof. reflexivity. Qed.
(** A feature is missing exactly where it is nodata; a tile without one of the files is skipped; an unreadable file is an error. *)
Theorem C150_features : forall nc nodata l, 0 <= nc -> (forall ex b, In (ex, Some b) l -> zlen b = nc) ->
  (Exists (fun f => fst f = false) l -> read_features nc nodata l = Ret Nothing) /\
  (Forall (fun f => fst f = true) l -> Exists (fun f => snd f = None) l -> read_features nc nodata l = Ret Failed) /\
  (Forall (fun f => fst f = true /\ snd f <> None) l -> exists es, read_features nc nodata l = Ret (Images es) /\
     Forall2 (fun f e => exists b q, snd f = Some b /\ e_dat e = Some [b] /\ e_qai e = Some q /\ flags_missing nc nodata [b] q) l es).
Proof.
  intros nc nodata l N R. unfold read_features.
  assert (X : exists es, omap (fun f : bool * option (list Z) => match snd f with None => Ret None | Some b => q <- feature_quality nc nodata b ;; Ret (Some (mkEntry (Some [b]) (Some q) None)) end) l = Ret es /\
    Forall2 (fun f e => match e with None => snd f = None | Some e => exists b q, snd f = Some b /\ e_dat e = Some [b] /\ e_qai e = Some q /\ flags_missing nc nodata [b] q end) l es).
  { apply omap_spec. intros (ex, [b|]) I; cbn [snd].
    - destruct (feature_ok nc nodata b N (R _ _ I)) as (q & Q1 & Q2). rewrite Q1. cbn [bind]. eexists. split; [reflexivity|]. cbn [e_dat e_qai]. eauto 7.
    - eexists. split; reflexivity. }
  destruct X as (es & E & F). rewrite E. cbn [bind]. clear E R. split; [|split].
  - intros X. assert (forallb fst l = false) as ->; [|reflexivity]. clear - X. induction X as [f l H|f l H IH]; cbn [forallb]; [rewrite H; reflexivity|rewrite IH; apply andb_false_r].
  - intros A X. assert (forallb fst l = true) as -> by (apply forallb_forall; rewrite Forall_forall in A; exact A). cbn [negb].
    assert (forallb (fun x : option entry => match x with None => false | Some _ => true end) es = false) as ->; [|reflexivity]. clear A. induction F as [|f e l es H F IH]; [inversion X|].
    inversion X as [? ? U|? ? U]; subst; cbn [forallb]; [|rewrite IH by exact U; apply andb_false_r]. destruct e as [e|]; [|reflexivity]. destruct H as (b & q & H & _). congruence.
  - intros A. assert (forallb fst l = true) as -> by (apply forallb_forall; rewrite Forall_forall in A; intros f I; apply A, I). cbn [negb].
    assert (Y : forallb (fun x : option entry => match x with None => false | Some _ => true end) es = true /\
       Forall2 (fun f e => exists b q, snd f = Some b /\ e_dat e = Some [b] /\ e_qai e = Some q /\ flags_missing nc nodata [b] q) l (flat_map (fun x => match x with None => [] | Some a => [a] end) es)).
    { induction F as [|f e l es H F IH]; [split; [reflexivity|constructor]|]. inversion A as [|? ? (A1 & A2) A3]; subst. destruct (IH A3) as (I1 & I2).
      destruct e as [e|]; [|congruence]. cbn [forallb flat_map app]. split; [exact I1|constructor; assumption]. }
    destruct Y as (-> & Y). eauto.
Qed.
Example C150_example : read_mask true true (Some [0; 1; 255; 1]) = Mask [0; 1; 0; 1] /\
  read_features 2 (-9999) [(true, Some [5; -9999]); (true, Some [3; 4])] = Ret (Images [mkEntry (Some [[5; -9999]]) (Some [0; 1]) None; mkEntry (Some [[3; 4]]) (Some [0; 0]) None]).
Proof. split; reflexivity. Qed.

(** ** C151: the sensors of all inputs can be configured *)
(** With one set of sensors the parameters decide (C51 says when they are accepted). *)
Theorem C151_one_input_partial : forall defs m g, m <> L2IMP ->
  (compile_sensors defs m g = Ret true <-> exists bands numbers, retrieve_sensor defs (g_sensors g) (g_target g) false = Ret (Some (bands, numbers))).
Proof.
  intros defs m g M. assert (second_images m = false) as E by (destruct m; try reflexivity; congruence). unfold compile_sensors. rewrite E. unfold retrieve, sen1. cbn [s_target s_sensors].
  destruct (retrieve_sensor defs (g_sensors g) (g_target g) false) as [[(b & n)|]| |]; cbn [bind]; split; try discriminate; eauto.
  - intros (bb & nn & H). discriminate.
  - intros (bb & nn & H). discriminate.
  - intros (bb & nn & H). discriminate.
Qed.
(** Level 2 ImproPhe has a second set of sensors whose target and product types no parameter sets: no parameter file is accepted. *)
Theorem C151_second_input_refuted : forall defs g, compile_sensors defs L2IMP g <> Ret true.
Proof.
  intros defs g. unfold compile_sensors. destruct (retrieve defs (sen1 g)) as [[?|]| |]; cbn [bind]; try discriminate. cbn [second_images].
  unfold retrieve, sen2. cbn [s_target s_sensors]. destruct (load_all defs (g_lowres g) 0 (repeat [] (length (g_lowres g))) 0) as [(t & e)| |]; cbn [bind fst snd]; try discriminate.
  destruct (0 <? e); cbn [bind]; try discriminate. destruct (band_intersection t) as [[?|]| |]; cbn [bind]; discriminate.
Qed.
Example C151_example : let defs := fun n => if list_eq_dec Z.eq_dec n (`"LND08") then Some [`"BLUE"; `"NIR"] else if list_eq_dec Z.eq_dec n (`"MOD01") then Some [`"BLUE"; `"NIR"] else None in
  let g := mkGiven [`"LND08"] (`"LND08") (`"BOA") (`"QAI") [`"MOD01"] in
  compile_sensors defs LEVEL3 g = Ret true /\ compile_sensors defs L2IMP g = UB.
Proof. split; vm_compute; reflexivity. Qed.

Print Assumptions C149_read.
Print Assumptions C149_modules.
Print Assumptions C149_no_quality_refuted.
Print Assumptions C150_mask.
Print Assumptions C150_no_mask.
Print Assumptions C150_input.
Print Assumptions C150_wide_mask_refuted.
Print Assumptions C150_features.
Print Assumptions C151_one_input_partial.
Print Assumptions C151_second_input_refuted.
