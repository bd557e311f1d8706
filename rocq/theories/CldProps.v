(** Cloud detection, final mask, shadows and cloud distance (C108-C113). *)
From Coq Require Import Reals Lra.
From Flocq Require Import Core.
From Verif Require Import Base BaseFacts Loops LoopsFacts RoundModel RoundFacts ImgSpec ImgFacts ChunkProofs BapCor
  QaiModel QaiSpec QaiProofs DistModel DistSpec DistProps BufferModel QueueModel RecoModel RecoSpec RecoProps CldModel CldSpec CldProofs CldTests CldGrow.
#[local] Open Scope Z_scope.

(** ** C108: flags of the final cloud mask *)
Lemma surely_mono (P Q : Z -> Z -> Prop) nx ny r y x : (forall i j, P i j -> Q i j) -> surely P nx ny r y x -> surely Q nx ny r y x.
Proof. intros H (i & j & A & B & C). exists i, j. auto. Qed.
Lemma possibly_mono (P Q : Z -> Z -> Prop) r y x : (forall i j, P i j -> Q i j) -> possibly P r y x -> possibly Q r y x.
Proof. intros H (i & j & A & B). exists i, j. auto. Qed.

Lemma cirrus_pixel_true w v z : in_short w -> (Rabs z <= 9)%R -> cirrus_pixel w v z = true ->
  valid w /\ flag_value Snow w = 0 /\ 100 < v /\ (70 + 70 * (z * z) + - / 100 < IZR v)%R.
Proof.
  intros W Hz H. unfold cirrus_pixel in H. rewrite is_off_spec, on_flag in H by auto. apply andb_prop in H. destruct H as (H & H4). apply andb_prop in H. destruct H as (H & H3).
  apply andb_prop in H. destruct H as (H1 & H2). split; [unfold valid; lia|]. split; [lia|]. split; [lia|].
  destruct (cirrus_thr_err z Hz) as (T1 & T2 & T3 & T4). destruct (Rlt_bool_spec (cirrus_thr z) (IZR v)) as [L|L]; [|discriminate].
  destruct (Rle_lt_or_eq_dec _ _ T1) as [G|E]; [specialize (T3 G); apply Rabs_le_inv in T3; lra|]. symmetry in E. specialize (T4 E). lra.
Qed.
Lemma cirrus_pixel_above w v z : in_short w -> (Rabs z <= 9)%R -> valid w -> flag_value Snow w = 0 -> 100 < v -> (70 + 70 * (z * z) + / 100 < IZR v)%R -> cirrus_pixel w v z = true.
Proof.
  intros W Hz V S V1 V2. unfold cirrus_pixel. rewrite is_off_spec, on_flag by auto. rewrite V, S. cbn [Z.eqb negb andb].
  assert (v >? 100 = true) as -> by lia. cbn [andb]. apply Rlt_bool_true. destruct (cirrus_thr_err z Hz) as (T1 & T2 & T3 & T4).
  apply IZR_lt in V1. destruct (Rle_lt_or_eq_dec _ _ T1) as [G|E]; [specialize (T3 G); apply Rabs_le_inv in T3; lra|]. lra.
Qed.

(** For every image, every mask of detected clouds and shadows and every buffer distance: the
    final quality words of a valid pixel (y, x).  [rc], [ri], [rs] are the whole pixels that
    fit into CLOUD_BUFFER, CIRRUS_BUFFER and SHADOW_BUFFER.
    Partial: clouds, cirrus and shadows nearer than the buffer to the image border are not
    buffered (and see the refutations). *)
Theorem C108_flags_partial : forall par qai cld shd cirrus nx ny res rc ri rs,
  image qai nx ny -> Forall in_short qai -> image cld nx ny -> image shd nx ny ->
  (forall c, cirrus = Some c -> image c nx ny /\ Forall (fun vz => (Rabs (snd vz) <= 9)%R) c) ->
  Forall (fun w => flag_value Cloud w = 0) qai -> (0 < res)%R ->
  (0 <= cldbuf par)%R -> (0 <= cirbuf par)%R -> (0 <= shdbuf par)%R ->
  pixels (cldbuf par) res rc -> pixels (cirbuf par) res ri -> pixels (shdbuf par) res rs ->
  let detected := is_true cld nx ny in let shadow := is_true shd nx ny in
  let cir m y x := exists c, cirrus = Some c /\ cirrus_above qai c nx ny m y x in
  exists out k, finalize_cloud par qai cld shd cirrus nx ny res = Ret (out, k) /\ zlen out = nx * ny /\ k = zlen (filter cloudy out) /\
  forall y x w, inside nx ny y x -> pix qai nx y x = Some w -> exists w', pix out nx y x = Some w' /\ in_short w' /\
    (~ valid w -> w' = w) /\ (forall g, g <> Cloud -> g <> Shadow -> flag_value g w' = flag_value g w) /\
    (valid w ->
      (detected y x -> flag_value Cloud w' = 2 \/ flag_value Cloud w' = 3) /\
      (detected y x -> surely detected nx ny rc y x \/ ~ possibly (cir (- / 100)%R) ri y x -> flag_value Cloud w' = 2) /\
      (flag_value Cloud w' = 2 -> detected y x) /\
      (~ detected y x -> surely detected nx ny rc y x -> flag_value Cloud w' = 1) /\
      (flag_value Cloud w' = 1 -> ~ detected y x /\ possibly detected rc y x) /\
      (surely (cir (/ 100)%R) nx ny ri y x -> flag_value Cloud w' <> 0) /\
      (surely (cir (/ 100)%R) nx ny ri y x -> ~ possibly detected rc y x -> flag_value Cloud w' = 3) /\
      (flag_value Cloud w' = 3 -> possibly (cir (- / 100)%R) ri y x /\ ~ surely detected nx ny rc y x) /\
      (surely shadow nx ny rs y x -> flag_value Shadow w' = 1) /\
      (flag_value Shadow w' = 1 -> flag_value Shadow w = 1 \/ possibly shadow rs y x)).
Proof.
  intros par qai cld shd cirrus nx ny res rc ri rs IQ SH IC IS IR C0 RES B1 B2 B3 P1 P2 P3. cbv zeta.
  destruct (buffer_of_ok _ _ _ B1 RES P1) as (oc & Eoc & Roc). destruct (buffer_of_ok _ _ _ B2 RES P2) as (oi & Eoi & Roi). destruct (buffer_of_ok _ _ _ B3 RES P3) as (os & Eos & Ros).
  destruct (final_mask_ok qai cld shd cirrus nx ny oc oi os IQ SH IC IS (fun c E => proj1 (IR c E))) as (q & C & I & S & Q & k & Eq & Lq & EC & EI & ES & IM & EF & LQ & Ek & H1 & H2).
  exists Q, k. split; [|split; [exact LQ|split; [exact Ek|]]].
  { unfold finalize_cloud. rewrite Eoc. cbn [bind]. rewrite Eoi. cbn [bind]. rewrite Eos. cbn [bind]. exact EF. }
  intros y x w IN Gw. destruct (H2 _ _ Gw) as (w' & d & c & i & s & G' & Gd & Gc & Gi & Gs & W' & A1 & A2 & A3).
  exists w'. split; [exact G'|]. split; [exact W'|]. split; [exact A1|]. split; [exact A2|]. intros V. destruct (A3 V) as (CL & SD). clear A3.
  destruct (grow_ok cld nx ny oc IC) as (C' & EC' & _ & GC1 & GC2). rewrite EC in EC'. injection EC' as <-. rewrite Roc in *.
  destruct (grow_ok shd nx ny os IS) as (S' & ES' & _ & GS1 & GS2). rewrite ES in ES'. injection ES' as <-. rewrite Ros in *.
  assert (GI : (surely (fun y x => exists c, cirrus = Some c /\ cirrus_above qai c nx ny (/ 100)%R y x) nx ny ri y x -> i = true) /\
               (i = true -> possibly (fun y x => exists c, cirrus = Some c /\ cirrus_above qai c nx ny (- / 100)%R y x) ri y x)).
  { destruct cirrus as [ci|].
    - destruct (IR ci eq_refl) as ((_ & _ & Lci & _) & Z9). destruct (grow_ok _ nx ny oi IM) as (I' & EI' & _ & GI1 & GI2). rewrite EI in EI'. injection EI' as <-. rewrite Roi in *.
      assert (T : forall a b, is_true (cirrus_mask q (Some ci)) nx ny a b -> cirrus_above qai ci nx ny (- / 100)%R a b).
      { intros a b (Iab & T). split; [exact Iab|]. unfold pix, cirrus_mask in T. rewrite get_map, get_combine in T.
        destruct (get_at q (nx * a + b)) as [w1|] eqn:G1; [|discriminate]. destruct (get_at ci (nx * a + b)) as [(v, z)|] eqn:G2; [|discriminate]. cbn [option_map fst snd] in T. injection T as T.
        destruct IQ as (_ & _ & LQ' & _). destruct (get_at_some qai (nx * a + b)) as (w0 & G0); [apply get_at_inv in G1; lia|].
        destruct (H1 _ _ G0) as (w1' & G1' & W1 & O1). rewrite G1 in G1'. injection G1' as <-.
        apply cirrus_pixel_true in T; [|exact W1|exact (Forall_get_at _ _ _ _ Z9 G2)]. unfold valid in T. rewrite (O1 Off), (O1 Snow) in T by discriminate. exists w0, v, z. unfold pix, valid. tauto. }
      assert (T' : forall a b, cirrus_above qai ci nx ny (/ 100)%R a b -> is_true (cirrus_mask q (Some ci)) nx ny a b).
      { intros a b (Iab & w0 & v & z & G0 & G2 & V0 & S0 & V1 & V2). split; [exact Iab|]. unfold pix in *. unfold cirrus_mask. rewrite get_map, get_combine.
        destruct (H1 _ _ G0) as (w1 & G1 & W1 & O1). rewrite G1, G2. cbn [option_map fst snd]. f_equal. apply cirrus_pixel_above; auto; [exact (Forall_get_at _ _ _ _ Z9 G2)|unfold valid; rewrite (O1 Off) by discriminate; exact V0|rewrite (O1 Snow) by discriminate; exact S0]. }
      split.
      + intros SU. assert (pix I nx y x = Some true) as K. { apply GI1; [exact IN|]. revert SU. apply surely_mono. intros a b (c' & E & K). injection E as <-. auto. } unfold pix in K. congruence.
      + intros ->. apply GI2 in Gi; [|exact IN]. revert Gi. apply possibly_mono. intros a b K. exists ci. auto.
    - split; [intros (a & b & _ & (c' & E & _) & _); discriminate|]. intros ->. exfalso.
      destruct (grow_ok _ nx ny None IM) as (I' & EI' & _ & _ & GI2). rewrite EI in EI'. injection EI' as <-. apply GI2 in Gi; [|exact IN].
      destruct Gi as (a & b & (_ & T) & _). unfold pix, cirrus_mask in T. rewrite get_map in T. destruct (get_at q (nx * a + b)); discriminate. }
  destruct GI as (GI1 & GI2).
  assert (D : d = true <-> is_true cld nx ny y x). { unfold is_true, pix. rewrite Gd. split; [intros ->; auto|]. intros (_ & K). congruence. }
  assert (Cs : surely (is_true cld nx ny) nx ny rc y x -> c = true). { intros K. apply GC1 in K; [|exact IN]. unfold pix in K. congruence. }
  assert (Cp : c = true -> possibly (is_true cld nx ny) rc y x). { intros ->. apply GC2; auto. }
  assert (Ss : surely (is_true shd nx ny) nx ny rs y x -> s = true). { intros K. apply GS1 in K; [|exact IN]. unfold pix in K. congruence. }
  assert (Sp : s = true -> possibly (is_true shd nx ny) rs y x). { intros ->. apply GS2; auto. }
  rewrite (Forall_get_at _ _ _ _ C0 Gw) in CL. cbn in CL. unfold cloud_after in CL. cbn [Z.eqb] in CL. rewrite CL.
  split; [intros K; apply D in K; subst d; destruct c, i; auto|].
  split; [intros K; apply D in K; subst d; intros [U|U]; [rewrite (Cs U); reflexivity|destruct c; [reflexivity|]; destruct i; [exfalso; auto|reflexivity]]|].
  split; [intros K; apply D; destruct c, i, d; auto; discriminate|].
  split; [intros N U; rewrite (Cs U); destruct d; [exfalso; apply N, D; reflexivity|reflexivity]|].
  split; [intros K; destruct c; [destruct d; [discriminate|]; split; [rewrite <- D; discriminate|auto]|destruct i, d; discriminate]|].
  split; [intros U; rewrite (GI1 U); destruct c, d; discriminate|].
  split; [intros U N; rewrite (GI1 U); destruct c; [exfalso; auto|reflexivity]|].
  split; [intros K; destruct c; [destruct d; discriminate|]; destruct i; [|destruct d; discriminate]; split; [auto|intros U; apply Cs in U; discriminate]|].
  split; [intros U; rewrite SD, (Ss U); reflexivity|].
  intros K. rewrite SD in K. destruct s; auto.
Qed.
Print Assumptions C108_flags_partial.

(** Snow: valid pixels near detected snow get the snow flag, no others. *)
Lemma snow_pixel_ok w s : in_short w -> exists w', snow_pixel (w, s) = Ret w' /\ in_short w' /\
  (forall g, g <> Snow -> flag_value g w' = flag_value g w) /\
  flag_value Snow w' = (if (flag_value Off w =? 0) && s then 1 else flag_value Snow w) /\ (flag_value Off w <> 0 -> w' = w).
Proof.
  intros W. unfold snow_pixel. cbn [fst snd]. rewrite is_off_spec by auto. destruct (Z.eqb_spec (flag_value Off w) 0) as [V|V]; cbn [negb andb].
  - destruct s.
    + destruct (set_value Snow w 1 W ltac:(cbn; lia)) as (w' & E & W' & F & O). exists w'. split; [exact E|]. split; [exact W'|]. split; [exact O|]. split; [exact F|lia].
    + exists w. split; [reflexivity|]. auto.
  - exists w. split; [reflexivity|]. auto.
Qed.
Theorem C108_snow_partial : forall qai snow nx ny buf res r o, image qai nx ny -> Forall in_short qai -> image snow nx ny ->
  (0 <= buf)%R -> (0 < res)%R -> pixels buf res r -> buffer_of buf res = Ret o ->
  exists out, flag_snow qai snow nx ny o = Ret out /\ zlen out = nx * ny /\
  forall y x w, inside nx ny y x -> pix qai nx y x = Some w -> exists w', pix out nx y x = Some w' /\ in_short w' /\
    (~ valid w -> w' = w) /\ (forall g, g <> Snow -> flag_value g w' = flag_value g w) /\
    (valid w -> surely (is_true snow nx ny) nx ny r y x -> flag_value Snow w' = 1) /\
    (flag_value Snow w' = 1 -> flag_value Snow w = 1 \/ possibly (is_true snow nx ny) r y x).
Proof.
  intros qai snow nx ny buf res r o IQ SH IS B RES P EO. destruct (buffer_of_ok _ _ _ B RES P) as (o' & E' & RO). rewrite EO in E'. injection E' as <-.
  destruct (grow_ok snow nx ny o IS) as (S & ES & LS & G1 & G2). rewrite RO in *. pose proof IQ as (_ & _ & LQ & _).
  assert (K : exists out, omap snow_pixel (combine qai S) = Ret out /\ zlen out = zlen (combine qai S) /\ forall p ws, get_at (combine qai S) p = Some ws -> exists w', get_at out p = Some w' /\ snow_pixel ws = Ret w').
  { assert (F : Forall (fun ws => in_short (fst ws)) (combine qai S)). { apply Forall_forall. intros (w, s) I. apply in_combine_l in I. rewrite Forall_forall in SH. now apply SH. }
    apply BapComposite.omap_get. intros p (w, s) G. destruct (snow_pixel_ok w s (Forall_get_at _ _ _ _ F G)) as (w' & Ew & _). eauto. }
  destruct K as (out & E & L & H). exists out. split; [unfold flag_snow; rewrite ES; exact E|]. split; [rewrite L, zlen_combine; lia|].
  intros y x w IN G. destruct (pix_some S nx ny y x LS IN) as (s & Gs). destruct (H (nx * y + x) (w, s)) as (w' & G' & Ew); [unfold pix in *; now rewrite get_combine, G, Gs|].
  destruct (snow_pixel_ok w s (Forall_get_at _ _ _ _ SH G)) as (w2 & E2 & W2 & O2 & S2 & U2). rewrite Ew in E2. injection E2 as <-.
  exists w'. split; [exact G'|]. split; [exact W2|]. split; [exact U2|]. split; [exact O2|]. split.
  - intros V K. apply G1 in K; [|exact IN]. rewrite Gs in K. injection K as ->. rewrite S2, V. reflexivity.
  - rewrite S2. destruct s; [|rewrite andb_false_r; auto]. intros _. right. now apply G2.
Qed.
Print Assumptions C108_snow_partial.

(** C108: what a user relies on near the border is false.  A detected shadow in the outermost
    pixels is not flagged, and a detected cloud there becomes cirrus, with a buffer of one pixel. *)
Definition clear5 : list Z := repeat 0 25.
Definition corner : list bool := repeat false 24 ++ [true].
Definition par1 : cldpar := mkPar 100 30 30 30.
Lemma pixels_1 : pixels 30 30 1.
Proof. unfold pixels. split; [lia|]. unfold Rdiv. rewrite Rinv_r by lra. lra. Qed.
Lemma finalize_1 : forall qai cld shd cirrus nx ny, finalize_cloud par1 qai cld shd cirrus nx ny 30 = final_mask qai cld shd cirrus nx ny (Some 1) (Some 1) (Some 1).
Proof.
  intros. unfold finalize_cloud. cbn [cldbuf cirbuf shdbuf par1].
  assert (buffer_of 30 30 = Ret (Some 1)) as ->. { unfold buffer_of. rewrite (radius_ok _ _ _ pixels_1). cbn [bind chk_int in_intb Z.leb Z.compare Pos.compare Pos.compare_cont andb]. rewrite Rlt_bool_true by lra. reflexivity. }
  reflexivity.
Qed.
Theorem C108_border_shadow_refuted : exists par qai cld shd cirrus nx ny res out k w, image qai nx ny /\ is_true shd nx ny 4 4 /\
  pixels (shdbuf par) res 1 /\ finalize_cloud par qai cld shd cirrus nx ny res = Ret (out, k) /\
  pix out nx 4 4 = Some w /\ valid w /\ flag_value Shadow w = 0.
Proof.
  exists par1, clear5, (repeat false 25), corner, None, 5, 5, 30%R, clear5, 0, 0.
  split; [repeat split; cbn; lia|]. split; [split; [unfold inside; lia|reflexivity]|]. split; [exact pixels_1|]. rewrite finalize_1. split; [vm_compute; reflexivity|].
  split; [reflexivity|]. split; reflexivity.
Qed.
Print Assumptions C108_border_shadow_refuted.

Lemma cirrus_sea v : 100 < v -> cirrus_pixel 4 v 0 = true.
Proof.
  intros V. apply cirrus_pixel_above; try (unfold in_short; lia); try reflexivity; [rewrite Rabs_R0; lra|]. apply IZR_lt in V. lra.
Qed.
Theorem C108_border_cloud_refuted : exists par qai cld shd cirrus nx ny res out k w, image qai nx ny /\ is_true cld nx ny 2 4 /\
  pixels (cldbuf par) res 1 /\ finalize_cloud par qai cld shd cirrus nx ny res = Ret (out, k) /\
  pix out nx 2 4 = Some w /\ valid w /\ flag_value Cloud w = 3.
Proof.
  (* the cloud is at the right border, cirrus is tested positive one pixel to the left *)
  exists par1, clear5, (repeat false 14 ++ [true] ++ repeat false 10), (repeat false 25),
    (Some (repeat (0, 0%R) 13 ++ [(200, 0%R)] ++ repeat (0, 0%R) 11)), 5, 5, 30%R.
  rewrite finalize_1. unfold final_mask.
  assert (E1 : omap cloud_pixel (combine clear5 (repeat false 14 ++ [true] ++ repeat false 10)) = Ret (repeat 0 14 ++ [4] ++ repeat 0 10)) by (vm_compute; reflexivity). rewrite E1. cbn [bind].
  assert (E2 : cirrus_mask (repeat 0 14 ++ [4] ++ repeat 0 10) (Some (repeat (0, 0%R) 13 ++ [(200, 0%R)] ++ repeat (0, 0%R) 11)) = repeat false 13 ++ [true] ++ repeat false 11).
  { assert (K0 : forall w, cirrus_pixel w 0 0 = false) by (intros w; unfold cirrus_pixel; change (0 >? 100) with false; now rewrite andb_false_r).
    assert (K2 : cirrus_pixel 0 200 0 = true) by (apply cirrus_pixel_above; try (unfold in_short; lia); try reflexivity; [rewrite Rabs_R0; lra|lra]).
    cbn [repeat app combine cirrus_mask map fst snd]. rewrite !K0, K2. reflexivity. }
  rewrite E2. eexists. eexists. eexists. split; [repeat split; cbn; lia|]. split; [split; [unfold inside; lia|reflexivity]|]. split; [exact pixels_1|]. split; [vm_compute; reflexivity|].
  split; [reflexivity|]. split; reflexivity.
Qed.
Print Assumptions C108_border_cloud_refuted.

(** The hypotheses of C108 are met by a cloud in the middle of a 5 x 5 image. *)
Example C108_example : image clear5 5 5 /\ Forall in_short clear5 /\ Forall (fun w => flag_value Cloud w = 0) clear5 /\ pixels (cldbuf par1) 30 1 /\
  surely (is_true (repeat false 12 ++ [true] ++ repeat false 12) 5 5) 5 5 1 2 3 /\
  finalize_cloud par1 clear5 (repeat false 12 ++ [true] ++ repeat false 12) (repeat false 25) None 5 5 30 =
  Ret ([0; 0; 0; 0; 0;  0; 0; 2; 0; 0;  0; 2; 4; 2; 0;  0; 0; 2; 0; 0;  0; 0; 0; 0; 0], 5).
Proof.
  split; [repeat split; cbn; lia|]. split; [unfold clear5; apply Forall_forall; intros w I; apply repeat_spec in I; subst; unfold in_short; lia|].
  split; [unfold clear5; apply Forall_forall; intros w I; apply repeat_spec in I; subst; reflexivity|]. split; [exact pixels_1|].
  split; [|rewrite finalize_1; vm_compute; reflexivity].
  exists 2, 2. split; [unfold inner; lia|]. split; [split; [unfold inside; lia|reflexivity]|]. cbv; congruence.
Qed.

(** ** C109: shadow probability *)
Lemma filled_ok band qai far bck nx ny : image band nx ny -> image qai nx ny -> image far nx ny -> Forall in_short qai ->
  filled band qai far bck nx ny (shadow_input band qai far bck nx ny).
Proof.
  intros (NX & NY & LB & NB) (_ & _ & LQ & _) (_ & _ & LF & _) SH.
  assert (L : zlen (combine (zupto (nx * ny)) (combine band (combine qai far))) = nx * ny).
  { assert (zlen (zupto (nx * ny)) = nx * ny) by (unfold zlen; rewrite zupto_length; nia).
    assert (zlen (combine qai far) = nx * ny) by (rewrite zlen_combine; lia). assert (zlen (combine band (combine qai far)) = nx * ny) by (rewrite zlen_combine; lia). rewrite zlen_combine; lia. }
  split; [split; [auto|split; [auto|split; [unfold shadow_input; rewrite zlen_map; exact L|auto]]]|].
  intros y x v w f I Gv Gw Gf. unfold pix in *. unfold shadow_input. rewrite get_map, !get_combine, Gv, Gw, Gf, get_zupto by (now apply index_range). cbn [option_map fst snd].
  destruct I as (Iy & Ix). replace ((nx * y + x) / nx) with y by (rewrite Z.mul_comm, Z.div_add_l by lia; rewrite Z.div_small; lia).
  replace ((nx * y + x) mod nx) with x by (rewrite Z.mul_comm, Z.add_comm, Z.mod_add by lia; rewrite Z.mod_small; lia).
  rewrite is_off_spec by (exact (Forall_get_at _ _ _ _ SH Gw)). unfold on_border, inside, valid. split.
  - intros H. match goal with |- context [if ?c then _ else _] => assert (c = true) as -> end; [|reflexivity]. destruct H as [(_ & H)|[H| ->]]; [lia|lia|apply orb_true_r].
  - intros H V ->. match goal with |- context [if ?c then _ else _] => assert (c = false) as -> end; [lia|reflexivity].
Qed.

Lemma shadow_band_ok band qai far bck nx ny marker : image band nx ny -> image qai nx ny -> image far nx ny -> Forall in_short qai ->
  Forall (fun v => 0 <= v <= 32767) band -> 0 <= bck <= 32767 -> zlen marker = nx * ny -> nx <= 32768 -> ny <= 32768 ->
  exists n0 mask, filled band qai far bck nx ny mask /\ forall fuel, (n0 <= fuel)%nat -> exists r m, shadow_band fuel band qai far bck nx ny marker = Ret (r, m) /\ zlen m = nx * ny /\
    (r = SUCCESS \/ r = FAILURE) /\
    (r = SUCCESS -> forall y x, inside nx ny y x -> exists k w, pix mask nx y x = Some k /\ flood_level mask nx ny y x w /\ 0 <= w - k <= 32767 /\ pix m nx y x = Some (w - k)).
Proof.
  intros IB IQ IF SH VB BB LM SX SY. pose proof (filled_ok band qai far bck nx ny IB IQ IF SH) as FO. set (mask := shadow_input band qai far bck nx ny) in *.
  pose proof FO as (IM & HM). destruct (C33_flooding mask marker nx ny IM LM SX SY) as (n0 & H). exists n0, mask. split; [exact FO|]. intros fuel Hf.
  destruct (H fuel Hf) as (r & M & E & LMk & FL & RC). exists r, (map (fun x => to_short (fst x - snd x)) (combine M mask)).
  assert (Lm : zlen mask = nx * ny) by (destruct IM as (_ & _ & L & _); exact L).
  split; [unfold shadow_band; fold mask; rewrite E; reflexivity|]. split; [rewrite zlen_map, zlen_combine; lia|]. split; [exact RC|].
  intros RS y x I. destruct (FL RS y x I) as (w & Gw & Fw). destruct (pix_some mask nx ny y x Lm I) as (k & Gk). exists k, w. split; [exact Gk|]. split; [exact Fw|].
  assert (RNG : forall a b u, inside nx ny a b -> pix mask nx a b = Some u -> 0 <= u <= 32767).
  { intros a b u Iab Gu. destruct IB as (_ & _ & LB & _). destruct IQ as (_ & _ & LQ & _). destruct IF as (_ & _ & LF & _).
    destruct (pix_some band nx ny a b LB Iab) as (v & Gv). destruct (pix_some qai nx ny a b LQ Iab) as (wq & Gq). destruct (pix_some far nx ny a b LF Iab) as (f & Gf).
    destruct (HM a b v wq f Iab Gv Gq Gf) as (H1 & H2).
    assert (D : (on_border nx ny a b \/ ~ valid wq \/ f = true) \/ (~ on_border nx ny a b /\ valid wq /\ f = false)).
    { unfold on_border, valid. destruct f; [left; auto|]. destruct (Z.eq_dec (flag_value Off wq) 0); [|left; auto]. destruct (Z.eq_dec a 0); [left; left; auto|]. destruct (Z.eq_dec b 0); [left; left; auto|].
      destruct (Z.eq_dec a (ny - 1)); [left; left; auto|]. destruct (Z.eq_dec b (nx - 1)); [left; left; auto|]. right. split; [|auto]. intros (_ & K). lia. }
    destruct D as [D|(D1 & D2 & D3)]; [rewrite (H1 D) in Gu|rewrite (H2 D1 D2 D3) in Gu]; injection Gu as <-; [exact BB|]. exact (Forall_get_at _ _ _ _ VB Gv). }
  pose proof (RNG y x k I Gk) as Rk.
  assert (Rw : k <= w <= 32767).
  { assert (RW : reach mask nx ny w y x) by (apply Fw; lia). split.
    - destruct RW as [i j k' _ G L|i j i' j' k' _ _ _ G L]; rewrite G in Gk; injection Gk as <-; exact L.
    - apply Fw. clear - RW RNG Rk. assert (G : forall v a b, reach mask nx ny v a b -> reach mask nx ny 32767 a b).
      { intros v a b K. induction K as [i j k' B G L|i j i' j' k' K IH A J G L].
        - apply (reach_border _ _ _ _ i j k'); auto. apply (RNG i j k'); [exact (proj1 B)|exact G].
        - apply (reach_step _ _ _ _ i j i' j' k'); auto. apply (RNG i j k'); auto. }
      exact (G w y x RW). }
  split; [lia|]. unfold pix in *. rewrite get_map, get_combine, Gw, Gk. cbn [option_map fst snd]. rewrite to_short_id by (unfold in_short; lia). reflexivity.
Qed.

(** For every scene and more than one thread: the shadow probability of a pixel is the
    smaller of the two depths (level at which the pixel is flooded from the image border, minus
    its value) in the near and the shortwave infrared, provided both floodings succeed. *)
Theorem C109_two_bands_partial : forall nthread nir sw1 qai far bn bs nx ny, nthread <> 1 ->
  image nir nx ny -> image sw1 nx ny -> image qai nx ny -> image far nx ny -> Forall in_short qai ->
  Forall (fun v => 0 <= v <= 32767) nir -> Forall (fun v => 0 <= v <= 32767) sw1 -> 0 <= bn <= 32767 -> 0 <= bs <= 32767 -> nx <= 32768 -> ny <= 32768 ->
  exists n0 mn ms, filled nir qai far bn nx ny mn /\ filled sw1 qai far bs nx ny ms /\
  forall fuel, (n0 <= fuel)%nat -> exists r1 r2 spr, shadow_probability fuel nthread nir sw1 qai far bn bs nx ny = Ret ([r1; r2], spr) /\
    (r1 = SUCCESS -> r2 = SUCCESS -> forall y x, inside nx ny y x -> exists k1 w1 k2 w2,
       pix mn nx y x = Some k1 /\ flood_level mn nx ny y x w1 /\ pix ms nx y x = Some k2 /\ flood_level ms nx ny y x w2 /\
       pix spr nx y x = Some (Z.min (w1 - k1) (w2 - k2)) /\ 0 <= Z.min (w1 - k1) (w2 - k2)).
Proof.
  intros nthread nir sw1 qai far bn bs nx ny NT I1 I2 IQ IF SH V1 V2 B1 B2 SX SY.
  assert (LZ : zlen (zeros (nx * ny)) = nx * ny) by (destruct I1 as (? & ? & _); apply zlen_repeat; nia).
  destruct (shadow_band_ok nir qai far bn nx ny (zeros (nx * ny)) I1 IQ IF SH V1 B1 LZ SX SY) as (n1 & mn & F1 & H1).
  destruct (shadow_band_ok sw1 qai far bs nx ny (zeros (nx * ny)) I2 IQ IF SH V2 B2 LZ SX SY) as (n2 & ms & F2 & H2).
  exists (Nat.max n1 n2), mn, ms. split; [exact F1|]. split; [exact F2|]. intros fuel Hf.
  destruct (H1 fuel ltac:(lia)) as (r1 & m1 & E1 & L1 & _ & S1). destruct (H2 fuel ltac:(lia)) as (r2 & m2 & E2 & L2 & _ & S2).
  exists r1, r2, (keep_min (keep_min (repeat 32767 (Z.to_nat (nx * ny))) m1) m2). split.
  { unfold shadow_probability. rewrite E1. cbn [bind snd fst]. destruct (Z.eqb_spec nthread 1); [contradiction|]. rewrite E2. reflexivity. }
  intros R1 R2 y x I. destruct (S1 R1 y x I) as (k1 & w1 & G1 & FL1 & B3 & P1). destruct (S2 R2 y x I) as (k2 & w2 & G2 & FL2 & B4 & P2).
  exists k1, w1, k2, w2. split; [exact G1|]. split; [exact FL1|]. split; [exact G2|]. split; [exact FL2|]. split; [|lia].
  unfold pix in *. unfold keep_min. rewrite get_map, get_combine, get_map, get_combine, get_repeat by (now apply index_range). rewrite P1, P2. cbn [option_map fst snd]. f_equal.
  destruct (Z.ltb_spec (w1 - k1) 32767), (Z.ltb_spec (w2 - k2) (w1 - k1)), (Z.ltb_spec (w2 - k2) 32767); lia.
Qed.
Print Assumptions C109_two_bands_partial.

(** A dark pixel in the shortwave infrared only. *)
Definition flat5 : list Z := repeat 1000 25.
Definition pit5 : list Z := repeat 1000 12 ++ [200] ++ repeat 1000 12.
Example C109_example : image flat5 5 5 /\ image pit5 5 5 /\ Forall (fun v => 0 <= v <= 32767) pit5 /\
  shadow_probability 30 2 pit5 pit5 clear5 (repeat false 25) 1000 1000 5 5 = Ret ([SUCCESS; SUCCESS], repeat 0 12 ++ [800] ++ repeat 0 12).
Proof.
  split; [repeat split; cbn; lia|]. split; [repeat split; cbn; lia|]. split; [apply Forall_forall; intros v I; cbn in I; lia|]. vm_compute. reflexivity.
Qed.
(** C109 is refuted: with one thread only the shortwave infrared counts.  The same scene gives
    a potential shadow of depth 800 with NTHREAD = 1 and none with NTHREAD = 2. *)
Theorem C109_threads_refuted : exists nir sw1 qai far bn bs nx ny s1 s2, image nir nx ny /\ image sw1 nx ny /\
  shadow_probability 30 1 nir sw1 qai far bn bs nx ny = Ret ([SUCCESS; SUCCESS], s1) /\
  shadow_probability 30 2 nir sw1 qai far bn bs nx ny = Ret ([SUCCESS; SUCCESS], s2) /\
  pix s1 nx 2 2 = Some 800 /\ pix s2 nx 2 2 = Some 0.
Proof.
  exists flat5, pit5, clear5, (repeat false 25), 1000, 1000, 5, 5, (repeat 0 12 ++ [800] ++ repeat 0 12), (repeat 0 25).
  split; [repeat split; cbn; lia|]. split; [repeat split; cbn; lia|]. split; [vm_compute; reflexivity|]. split; [vm_compute; reflexivity|]. split; reflexivity.
Qed.
Print Assumptions C109_threads_refuted.

(** ** C111: distance to clouds *)
Lemma to_dist_spec w : in_short w -> to_dist w = true <-> affected w.
Proof.
  intros W. unfold to_dist, affected. rewrite !on_flag, get_flag_value by auto.
  pose proof (L2tProofs.flag_range Shadow w) as S1. pose proof (L2tProofs.flag_range Snow w) as S2. cbn in S1, S2. rewrite !orb_true_iff. lia.
Qed.
Lemma marked_true qai nx ny : Forall in_short qai -> forall y x, is_true (map to_dist qai) nx ny y x <-> marked qai nx ny y x.
Proof.
  intros SH y x. unfold is_true, marked, pix. rewrite get_map. destruct (get_at qai (nx * y + x)) as [w|] eqn:G; cbn [option_map].
  - pose proof (to_dist_spec w (Forall_get_at _ _ _ _ SH G)) as T. split.
    + intros (I & K). injection K as K. split; [exact I|]. exists w. tauto.
    + intros (I & w' & E & A). injection E as <-. split; [exact I|]. f_equal. tauto.
  - split; [intros (_ & K); discriminate|intros (_ & w & K & _); discriminate].
Qed.
Lemma count_pos (l : list bool) : count_true l >? 0 = true <-> In true l.
Proof.
  unfold count_true, zlen. induction l as [|[|] l IH]; cbn [filter length In]; [split; [discriminate|tauto]| |].
  - split; intros _; [now left|lia].
  - rewrite IH. split; [auto|]. intros [K|K]; [discriminate|auto].
Qed.
Lemma metres d m : 0 <= d <= 65535 -> 1 <= m <= 1000000 ->
  (let t := rnd64 (IZR d * IZR m) in if Rlt_bool t 32767 then Ztrunc t else 32767) = Z.min 32767 (d * m).
Proof.
  intros D M. cbv zeta. rewrite <- mult_IZR, rnd64_int by nia. destruct (Rlt_bool_spec (IZR (d * m)) 32767) as [L|L].
  - apply lt_IZR in L. rewrite Ztrunc_IZR. lia.
  - apply le_IZR in L. lia.
Qed.
(** For every quality image and every resolution of m metres: the distance of a valid pixel is
    that to the nearest cloud, shadow or snow pixel, in whole pixels rounded down, times the
    resolution, at most 32767; other pixels get the nodata value. *)
Theorem C111_distance : forall qai nodata nx ny m, image qai nx ny -> small_enough nx ny -> Forall in_short qai -> in_short nodata -> 1 <= m <= 1000000 ->
  (exists i j, marked qai nx ny i j) ->
  exists out, cloud_distance qai nodata nx ny (IZR m) = Ret out /\ zlen out = nx * ny /\
  forall y x w, inside nx ny y x -> pix qai nx y x = Some w ->
    (~ valid w -> pix out nx y x = Some nodata) /\
    (valid w -> exists d, nearest_marked qai nx ny y x d /\ pix out nx y x = Some (Z.min 32767 (Z.sqrt d * m))).
Proof.
  intros qai nodata nx ny m (NX & NY & LQ & NB) SE SH ND M (i0 & j0 & M0).
  assert (IM : image (map to_dist qai) nx ny) by (split; [auto|split; [auto|split; [now rewrite zlen_map|auto]]]).
  pose proof (marked_true qai nx ny SH) as MT.
  destruct (C34_exact (map to_dist qai) nx ny IM SE) as (D & ED & LD & HD); [exists i0, j0; now apply MT|].
  assert (CT : count_true (map to_dist qai) >? 0 = true). { apply count_pos. apply MT in M0. destruct M0 as (_ & G). exact (get_at_In _ _ _ G). }
  exists (map (dist_pixel nodata (IZR m)) (combine qai D)). split; [unfold cloud_distance; rewrite CT, ED; reflexivity|]. split; [rewrite zlen_map, zlen_combine; lia|].
  intros y x w I G. destruct (HD y x I) as (d & (Nd1 & Nd2) & Pd). unfold pix in *. rewrite get_map, get_combine, G, Pd. cbn [option_map]. unfold dist_pixel. cbn [fst snd].
  rewrite is_off_spec by (exact (Forall_get_at _ _ _ _ SH G)). split.
  - intros NV. unfold valid in NV. destruct (Z.eqb_spec (flag_value Off w) 0); [contradiction|]. cbn [negb]. rewrite to_short_id by auto. reflexivity.
  - intros V. rewrite V. cbn [Z.eqb negb]. exists d. split.
    + split; [destruct Nd1 as (i & j & T & E); exists i, j; split; [now apply MT|exact E]|]. intros i j K. apply Nd2. now apply MT.
    + f_equal. apply metres; [|exact M]. destruct Nd1 as (i & j & ((Ti & Tj) & _) & ->). split; [apply Z.sqrt_nonneg|]. unfold small_enough in SE. destruct I as (Iy & Ix).
      assert (B : dist2 y x i j <= 2147483647). { unfold dist2. assert ((y - i) * (y - i) <= ny * ny) by nia. assert ((x - j) * (x - j) <= nx * nx) by nia. nia. }
      apply Z.sqrt_le_mono in B. change (Z.sqrt 2147483647) with 46340 in B. lia.
Qed.
Print Assumptions C111_distance.
(** Without any cloud, shadow or snow the distance of a valid pixel is the number of rows and
    columns times the resolution, further than any distance in the image (at most 32767). *)
Theorem C111_clear : forall qai nodata nx ny m, image qai nx ny -> Forall in_short qai -> in_short nodata -> 1 <= m <= 1000000 -> nx + ny <= 65535 ->
  (forall i j, ~ marked qai nx ny i j) ->
  exists out, cloud_distance qai nodata nx ny (IZR m) = Ret out /\
  forall y x w, inside nx ny y x -> pix qai nx y x = Some w ->
    (~ valid w -> pix out nx y x = Some nodata) /\ (valid w -> pix out nx y x = Some (Z.min 32767 ((nx + ny) * m))).
Proof.
  intros qai nodata nx ny m (NX & NY & LQ & NB) SH ND M S NM. pose proof (marked_true qai nx ny SH) as MT.
  assert (CT : count_true (map to_dist qai) >? 0 = false).
  { destruct (count_true (map to_dist qai) >? 0) eqn:E; [|reflexivity]. exfalso. apply count_pos in E. apply In_get_at in E. destruct E as (p & B & G). rewrite zlen_map, LQ in B.
    destruct (index_split nx ny p NX B) as (I & E). apply (NM (p / nx) (p mod nx)). apply MT. split; [exact I|]. unfold pix. now rewrite E. }
  eexists. split; [unfold cloud_distance; rewrite CT; reflexivity|]. intros y x w I G. unfold pix in *. rewrite get_map, get_combine, get_map, G. cbn [option_map]. unfold dist_pixel. cbn [fst snd].
  rewrite is_off_spec by (exact (Forall_get_at _ _ _ _ SH G)). split.
  - intros NV. unfold valid in NV. destruct (Z.eqb_spec (flag_value Off w) 0); [contradiction|]. cbn [negb]. rewrite to_short_id by auto. reflexivity.
  - intros V. rewrite V. cbn [Z.eqb negb]. f_equal. unfold to_ushort. rewrite Z.mod_small by lia. rewrite (Z.add_comm ny nx). apply metres; lia.
Qed.
Print Assumptions C111_clear.
(** A cloud (word 4), a nodata pixel (word 1) and clear pixels. *)
Example C111_example : image [4; 0; 0; 1; 0; 0] 3 2 /\ small_enough 3 2 /\ Forall in_short [4; 0; 0; 1; 0; 0] /\ marked [4; 0; 0; 1; 0; 0] 3 2 0 0 /\
  exists out, cloud_distance [4; 0; 0; 1; 0; 0] (-9999) 3 2 (IZR 30) = Ret out /\ pix out 3 0 2 = Some 60 /\ pix out 3 1 0 = Some (-9999).
Proof.
  assert (I : image [4; 0; 0; 1; 0; 0] 3 2) by (repeat split; cbv; congruence). assert (S : Forall in_short [4; 0; 0; 1; 0; 0]) by (repeat constructor; unfold in_short; lia).
  assert (M : marked [4; 0; 0; 1; 0; 0] 3 2 0 0) by (split; [unfold inside; lia|exists 4; split; [reflexivity|left; reflexivity]]).
  split; [exact I|]. split; [cbv; congruence|]. split; [exact S|]. split; [exact M|].
  assert (E : dist_transform (map to_dist [4; 0; 0; 1; 0; 0]) 3 2 = Ret [0; 1; 2; 1; 1; 2]) by (vm_compute; reflexivity).
  eexists. split; [unfold cloud_distance; change (count_true (map to_dist [4; 0; 0; 1; 0; 0]) >? 0) with true; rewrite E; reflexivity|].
  split; unfold pix; cbn [combine map get_at Z.mul Z.add Z.ltb]; [|reflexivity].
  change (Some (dist_pixel (-9999) (IZR 30) (0, 2)) = Some 60). f_equal. exact (metres 2 30 ltac:(lia) ltac:(lia)).
Qed.
