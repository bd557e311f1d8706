(** C39: the datacube definition survives being written and read. *)
From Verif Require Import Base BaseFacts CStr CStrFacts Loops LoopsFacts StringModel StringProofs Float DecModel DecSpec DecProofs CubeDefModel CubeDefSpec CubeDefProofs.
#[local] Open Scope Z_scope.

(** Projections without blanks and equal signs, numbers with six decimals. *)
Theorem C39_roundtrip_partial : forall atof c, atof_ok atof ->
  one_word (cd_proj c) -> zlen (cd_proj c) < 1024 -> numbers_ok c ->
  read_datacube_def atof (Some (write_datacube_def None c)) = Ret (Some c).
Proof.
  intros atof c A W L (N1 & N2 & N3 & N4 & N5 & N6). unfold write_datacube_def.
  rewrite (read_written atof c (cd_proj c)); [|apply W|auto|apply first_word_self; auto].
  rewrite !(atof_print atof) by auto. destruct c; reflexivity.
Qed.

(** In general only the first word of the projection comes back. *)
Theorem C39_first_word : forall atof c v, atof_ok atof ->
  one_line (cd_proj c) -> zlen (cd_proj c) < 1024 -> first_word (cd_proj c) v -> numbers_ok c ->
  read_datacube_def atof (Some (write_datacube_def None c)) =
    Ret (Some (mkCdef v (cd_geo_x c) (cd_geo_y c) (cd_map_x c) (cd_map_y c) (cd_size_x c) (cd_size_y c))).
Proof.
  intros atof c v A O L W (N1 & N2 & N3 & N4 & N5 & N6). unfold write_datacube_def.
  rewrite (read_written atof c v) by auto. rewrite !(atof_print atof) by auto. reflexivity.
Qed.

(** The projection of a common coordinate system is cut. *)
Definition wkt : list Z := ` "PROJCS[WGS 84 / UTM zone 33N]".
Definition n30000 : f64 := nearest false 30000000000.
Definition ex_cdef : cdef := mkCdef wkt (nearest true 25000000) (nearest false 60000000) (nearest false 2456026250000)
  (nearest false 4574919500000) n30000 n30000.
Lemma ex_numbers : numbers_ok ex_cdef.
Proof.
  repeat split; [exists true, 25000000|exists false, 60000000|exists false, 2456026250000|exists false, 4574919500000
                |exists false, 30000000000|exists false, 30000000000]; split; try reflexivity; lia.
Qed.
Theorem C39_projection_refuted : forall atof, atof_ok atof ->
  exists c', read_datacube_def atof (Some (write_datacube_def None ex_cdef)) = Ret (Some c') /\
    cd_proj c' = ` "PROJCS[WGS" /\ cd_proj c' <> cd_proj ex_cdef.
Proof.
  intros atof A. eexists. split.
  - apply (C39_first_word atof ex_cdef (` "PROJCS[WGS") A); [|reflexivity| |apply ex_numbers].
    + split; intros Q; repeat (destruct Q as [Q|Q]; [discriminate Q|]); destruct Q.
    + split; [word_lit|]. exists (` " 84 / UTM zone 33N]"). split; [reflexivity|]. right.
      exists 32, (` "84 / UTM zone 33N]"). auto.
  - split; [reflexivity|]. discriminate.
Qed.

(** Numbers with more decimals change. *)
Theorem C39_decimals_refuted : forall atof, atof_ok atof ->
  let x := f64_div (f64_of_Z 1) (f64_of_Z 3) in
  let c := mkCdef (` "EPSG:3035") x x x x x x in
  exists c', read_datacube_def atof (Some (write_datacube_def None c)) = Ret (Some c') /\ cd_geo_x c' <> cd_geo_x c.
Proof.
  intros atof A x c. eexists. split.
  - unfold write_datacube_def. apply (read_written atof c (` "EPSG:3035")).
    + split; intros Q; repeat (destruct Q as [Q|Q]; [discriminate Q|]); destruct Q.
    + reflexivity.
    + apply first_word_self. word_lit.
  - cbn [cd_geo_x]. replace (print_f (cd_geo_x c)) with (dec_text false 333333) by (vm_compute; reflexivity).
    rewrite A by lia. intros E. apply (f_equal (fun y => feq y x)) in E. vm_compute in E. discriminate.
Qed.

(** An existing file is not overwritten. *)
Theorem C39_existing : forall f c, write_datacube_def (Some f) c = f.
Proof. reflexivity. Qed.

(** Files in the old format (six bare lines) keep projections with blanks. *)
Definition old_text (proj t1 t2 t3 t4 t5 : list Z) : list Z :=
  proj ++ [10] ++ t1 ++ [10] ++ t2 ++ [10] ++ t3 ++ [10] ++ t4 ++ [10] ++ t5 ++ [10].

Lemma take_line_text n l rest : one_line l -> zlen l + 1 < n ->
  fgets n (l ++ [10] ++ rest) = Some (l ++ [10], rest).
Proof.
  intros [O _] L. apply fgets_newline; auto. apply Forall_forall. intros x Hx ->. auto.
Qed.

Lemma cut_line set l : Forall (fun c => memz c set = false) l -> memz 10 set = true -> take_until set (l ++ [10]) = l.
Proof. intros F M. apply (take_until_app set l 10 []); auto. Qed.

Lemma line_clean l : one_line l -> Forall (fun c => memz c [13; 10] = false) l.
Proof. intros [A B]. apply Forall_forall. intros x Hx. apply memz_false. intros [<-|[<-|[]]]; contradiction. Qed.
Lemma line_clean3 l : one_line l -> ~ In 35 l -> Forall (fun c => memz c [13; 10; 35] = false) l.
Proof. intros [A B] C. apply Forall_forall. intros x Hx. apply memz_false. intros [<-|[<-|[<-|[]]]]; contradiction. Qed.

Lemma old_not_tagvalue proj t1 rest : one_line proj -> zlen proj < 1000 -> one_word t1 -> zlen t1 < 1000 ->
  forall fuel, (2 <= fuel)%nat -> tagvalue_loop fuel (proj ++ [10] ++ t1 ++ [10] ++ rest) [] = Ret None.
Proof.
  intros O L W1 L1 fuel Hf. destruct fuel as [|[|fuel]]; try lia.
  cbn [tagvalue_loop]. rewrite take_line_text by (auto; lia).
  rewrite cut_line; [|apply line_clean; auto|reflexivity].
  destruct (strtok (` " =") proj) as [[tag save]|] eqn:E1; [|reflexivity].
  assert (TL: forall s l t r, strtok s l = Some (t, r) -> (length t <= length l)%nat).
  { clear. intros s l t r. unfold strtok. destruct (skip_while s l) as [|c l'] eqn:E; [discriminate|]. intros H. assert (Et: t = take_until s (c :: l')) by congruence. rewrite Et. clear H Et.
    destruct (skip_while_suffix s l) as (p & El & _). rewrite E in El. pose proof (take_drop_until s (c :: l')) as Q.
    apply (f_equal (@length Z)) in Q. apply (f_equal (@length Z)) in El. rewrite app_length in Q, El. lia. }
  pose proof (TL _ _ _ _ E1) as T1. destruct (strtok_token _ _ _ _ E1) as (_ & _ & S1).
  unfold copy_string at 1. destruct (Z.geb_spec (zlen tag) 1024); [unfold zlen in *; lia|]. cbn [bind].
  destruct (strtok (` " =") save) as [[val s2]|] eqn:E2; [|reflexivity].
  pose proof (TL _ _ _ _ E2) as T2. unfold copy_string at 1. destruct (Z.geb_spec (zlen val) 1024); [unfold zlen in *; lia|]. cbn [bind].
  rewrite take_line_text by (try apply W1; auto; lia).
  rewrite cut_line; [|apply line_clean, W1|reflexivity].
  assert (strtok (` " =") t1 = Some (t1, [])) as -> by (rewrite <- (app_nil_r t1) at 1; apply (strtok_clean (` " =") t1 []); [apply W1|apply clean_word; auto|auto]).
  unfold copy_string at 1. destruct (Z.geb_spec (zlen t1) 1024); [lia|]. reflexivity.
Qed.

Lemma old_step tag tags l rest : one_line l -> ~ In 35 l -> zlen l < 1000 ->
  old_loop (tag :: tags) (l ++ [10] ++ rest) = (more <- old_loop tags rest ;; Ret ((tag, l) :: more)).
Proof.
  intros O N L. cbn [old_loop]. rewrite take_line_text by (auto; lia).
  rewrite cut_line; [|apply line_clean3; auto|reflexivity].
  unfold copy_string. destruct (Z.geb_spec (zlen l) 1024); [lia|]. reflexivity.
Qed.

Definition number_text (t : list Z) : Prop := one_word t /\ ~ In 35 t /\ zlen t < 1000.

Theorem C39_old_format : forall atof proj t1 t2 t3 t4 t5,
  one_line proj -> ~ In 35 proj -> zlen proj < 1000 ->
  Forall number_text [t1; t2; t3; t4; t5] ->
  read_datacube_def atof (Some (old_text proj t1 t2 t3 t4 t5)) =
    Ret (Some (mkCdef proj (atof t1) (atof t2) (atof t3) (atof t4) (atof t5) (atof t5))).
Proof.
  intros atof proj t1 t2 t3 t4 t5 O N L F.
  inversion F as [|? ? (W1 & N1 & L1) F1]; subst. inversion F1 as [|? ? (W2 & N2 & L2) F2]; subst.
  inversion F2 as [|? ? (W3 & N3 & L3) F3]; subst. inversion F3 as [|? ? (W4 & N4 & L4) F4]; subst.
  inversion F4 as [|? ? (W5 & N5 & L5) F5]; subst.
  unfold read_datacube_def, read_tagvalue, old_text.
  rewrite old_not_tagvalue by (auto; repeat rewrite app_length; cbn [length]; lia). cbn [bind].
  unfold read_deprecated, old_tags.
  rewrite !old_step by (auto; try apply W1; try apply W2; try apply W3; try apply W4).
  replace (t5 ++ [10]) with (t5 ++ [10] ++ []) by (rewrite app_nil_r; reflexivity).
  rewrite old_step by (auto; apply W5). cbn [old_loop bind].
  match goal with |- context [get_at ?l 5] => change (get_at l 5) with (Some (` "TILE_SIZE_Y", t5)) end. cbn [of_option bind snd app].
  cbn [parse_rows]. unfold with_row. eval_streq.
  unfold copy_string. destruct (Z.geb_spec (zlen proj) 1024); [lia|]. cbn [bind]. reflexivity.
Qed.

(** Copying such a definition to a new directory loses the projection. *)
Theorem C39_copy_refuted : forall atof, atof_ok atof ->
  let old := old_text wkt (` "-25.0") (` "60.0") (` "0.0") (` "0.0") (` "30000.0") in
  exists c f c', copy_datacube_def atof (Some old) None = Ret (Some (c, f)) /\ cd_proj c = wkt /\
    read_datacube_def atof (Some f) = Ret (Some c') /\ cd_proj c' = ` "PROJCS[WGS".
Proof.
  intros atof A old. unfold copy_datacube_def, old. rewrite C39_old_format.
  - cbn [bind]. do 3 eexists. split; [reflexivity|]. split; [reflexivity|]. split.
    + unfold write_datacube_def. apply (read_written atof _ (` "PROJCS[WGS")); cbn [cd_proj].
      * split; intros Q; repeat (destruct Q as [Q|Q]; [discriminate Q|]); destruct Q.
      * reflexivity.
      * split; [word_lit|]. exists (` " 84 / UTM zone 33N]"). split; [reflexivity|]. right.
        exists 32, (` "84 / UTM zone 33N]"). auto.
    + reflexivity.
  - split; intros Q; repeat (destruct Q as [Q|Q]; [discriminate Q|]); destruct Q.
  - intros Q; repeat (destruct Q as [Q|Q]; [discriminate Q|]); destruct Q.
  - reflexivity.
  - repeat (apply Forall_cons; [split; [word_lit|split; [intros Q; repeat (destruct Q as [Q|Q]; [discriminate Q|]); destruct Q|reflexivity]]|]). apply Forall_nil.
Qed.

(** An incomplete file is accepted if another tag is given twice. *)
Theorem C39_incomplete_refuted : forall atof,
  let f := ` "PROJECTION = P" ++ [10] ++ ` "ORIGIN_GEO_X = 1" ++ [10] ++ ` "ORIGIN_GEO_Y = 1" ++ [10] ++
           ` "ORIGIN_MAP_X = 1" ++ [10] ++ ` "ORIGIN_MAP_Y = 1" ++ [10] ++ ` "TILE_SIZE_X = 1" ++ [10] ++ ` "TILE_SIZE_X = 1" ++ [10] in
  exists c, read_datacube_def atof (Some f) = Ret (Some c) /\ cd_size_y c = zero64.
Proof.
  intros atof f. eexists. split; [vm_compute; reflexivity|reflexivity].
Qed.

(** A definition is accepted only from exactly seven rows, all with known tags. *)
Lemma parse_rows_seven atof : forall rows c n c', parse_rows atof rows c n = Ret (Some c') ->
  n + zlen rows = 7 /\ Forall (fun r => In (fst r) (` "TILE_SIZE_X" :: old_tags)) rows.
Proof.
  induction rows as [|(tag, val) rows IH]; intros c n c'; cbn [parse_rows].
  - destruct (n =? 7) eqn:E; [|discriminate]. intros _. split; [unfold zlen; cbn [length]; lia | constructor].
  - destruct (with_row atof c tag val) as [[c1|]| |] eqn:W; cbn [bind]; try discriminate.
    intro H. destruct (IH _ _ _ H) as [A B]. split; [unfold zlen in *; cbn [length] in *; lia|]. constructor; [|exact B].
    unfold with_row in W. cbn [fst].
    repeat match type of W with (if streq tag ?x then _ else _) = _ => let E := fresh in destruct (streq tag x) eqn:E;
      [apply streq_spec in E; subst tag; unfold old_tags; cbn [In]; repeat ((left; reflexivity) || right)|] end. discriminate W.
Qed.

Theorem C39_incomplete_rejected : forall atof f c, read_datacube_def atof (Some f) = Ret (Some c) ->
  exists rows, (read_tagvalue (Some f) = Ret (Some rows) \/ read_tagvalue (Some f) = Ret None /\ read_deprecated (Some f) = Ret rows) /\
    zlen rows = 7 /\ Forall (fun r => In (fst r) [` "PROJECTION"; ` "ORIGIN_GEO_X"; ` "ORIGIN_GEO_Y"; ` "ORIGIN_MAP_X"; ` "ORIGIN_MAP_Y"; ` "TILE_SIZE_X"; ` "TILE_SIZE_Y"]) rows.
Proof.
  intros atof f c. unfold read_datacube_def. destruct (read_tagvalue (Some f)) as [[rows|]| |] eqn:E; cbn [bind]; try discriminate.
  - intro H. apply parse_rows_seven in H. exists rows. destruct H as [A B]. split; [auto|]. split; [lia|].
    eapply Forall_impl; [|exact B]. intros r R. cbn in R |- *. tauto.
  - destruct (read_deprecated (Some f)) as [rows| |] eqn:D; cbn [bind]; try discriminate.
    intro H. apply parse_rows_seven in H. exists rows. destruct H as [A B]. split; [auto|]. split; [lia|].
    eapply Forall_impl; [|exact B]. intros r R. cbn in R |- *. tauto.
Qed.

(** The round trip is not vacuous: an atof as assumed exists, and a definition. *)
Example C39_example :
  let c := mkCdef (` "EPSG:3035") (nearest true 25000000) (nearest false 60000000) (nearest false 2456026250000)
             (nearest false 4574919500000) n30000 n30000 in
  atof_ok atof6 /\ one_word (cd_proj c) /\ numbers_ok c /\
  print_f (cd_geo_x c) = ` "-25.000000" /\ print_f (cd_map_y c) = ` "4574919.500000".
Proof.
  split; [exact atof6_ok|]. split; [word_lit|]. split; [apply ex_numbers|]. split; vm_compute; reflexivity.
Qed.

Print Assumptions C39_roundtrip_partial.
Print Assumptions C39_first_word.
Print Assumptions C39_projection_refuted.
Print Assumptions C39_decimals_refuted.
Print Assumptions C39_existing.
Print Assumptions C39_old_format.
Print Assumptions C39_copy_refuted.
Print Assumptions C39_incomplete_refuted.
Print Assumptions C39_incomplete_rejected.
