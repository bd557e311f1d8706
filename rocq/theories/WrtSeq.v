(** Proofs about sequences of images written into the same files. *)
From Coq Require Import Permutation.
From Verif Require Import Base BaseFacts CStr Loops LoopsFacts StringModel StringProofs ChunkProofs
  QaiModel QaiSpec QaiProofs ParamProofs WrtModel WrtSpec WrtProofs WrtFiles.

Lemma same_target_refl b : same_target b b.
Proof. unfold same_target. tauto. Qed.
Lemma same_target_sym b c : same_target b c -> same_target c b.
Proof.
  unfold same_target. intros (A & B & C & D & E & F & G & H & I).
  repeat (split; [symmetry; assumption|]). symmetry; assumption.
Qed.
Lemma same_target_trans a b c : same_target a b -> same_target b c -> same_target a c.
Proof.
  unfold same_target. intros (A & B & C & D & E & F & G & H & I) (A' & B' & C' & D' & E' & F' & G' & H' & I').
  repeat (split; [congruence|]). congruence.
Qed.

Lemma same_target_file b b' path ds : same_target b b' -> is_file b path ds ->
  exists ds', is_file b' path ds' /\ zlen ds' = zlen ds.
Proof.
  intros (_ & _ & _ & _ & X & D & F & E & N) I. unfold is_file in *. rewrite X.
  assert (forall s, file_name b' s = file_name b s) as FN by (intros; unfold file_name; congruence).
  destruct (w_explode b).
  - destruct I as (d & J & -> & ->).
    assert (In (wd_name d) (map wd_name (saved b'))) as M by (rewrite N; apply in_map; auto).
    apply in_map_iff in M. destruct M as (d' & M & J').
    exists [d']. split; auto. exists d'. split; [exact J'|]. split; [reflexivity|]. rewrite FN. congruence.
  - destruct I as (-> & ->). exists (saved b'). split; [rewrite FN; auto|].
    apply (f_equal (@length _)) in N. rewrite !map_length in N. unfold zlen. lia.
Qed.

Lemma unlocked_same b b' pn w w' : same_target b b' -> locks w' = locks w -> unlocked b pn w -> unlocked b' pn w'.
Proof.
  intros S L (A & B & C). pose proof S as S0. destruct S0 as (_ & _ & _ & _ & _ & D & _).
  unfold unlocked. rewrite L, D. split; auto. split; auto.
  intros path ds I. destruct (same_target_file b' b path ds) as (ds' & I' & _); auto.
  { apply same_target_sym; auto. }
  eapply C; eauto.
Qed.

(** One image: the value at a pixel before and after. *)
Lemma fits_value b ds r i p : fits b ds r -> 0 <= i < zlen ds -> 0 <= p < w_nx b * w_ny b ->
  exists f v, get_at (r_bands r) i = Some f /\ get_at (fb_cells f) p = Some (Some v).
Proof.
  intros (_ & _ & N & C) I P. destruct (get_at_some (r_bands r) i) as (f & F); [lia|].
  destruct (C f) as (L & V); [eapply get_at_In; eauto|].
  destruct (get_at_some (fb_cells f) p) as (c & K); [lia|].
  destruct (V c) as (v & -> & _); [eapply get_at_In; eauto|]. eauto.
Qed.

Lemma one_image b pn w : whole b -> w_open b <> OPEN_CREATE -> short_names b -> distinct_names b ->
  unlocked b pn w -> acceptable b w ->
  exists w', write_brick b pn w = Ret (SUCCESS, w') /\ locks w' = locks w /\
    (forall b', same_target b b' -> whole b' -> acceptable b' w') /\
    forall path i p nd x, offers b path i p nd x ->
      match value_at w path i p with
      | None => value_at w' path i p = Some x
      | Some old => exists v, value_at w' path i p = Some v /\ combined (w_open b) nd x old v
      end.
Proof.
  intros W NC S D U A.
  destruct (write_brick_ok b pn w W S D U A) as (w' & lines & E & L & R & F & O & _).
  exists w'. split; [exact E|]. split; [exact L|]. split.
  - intros b' T W' path ds' I'. right. right.
    destruct (same_target_file b' b path ds') as (ds & I & LE); [apply same_target_sym; auto|exact I'|].
    destruct (F path ds I) as (r & ER & FT). exists r. split; [exact ER|].
    destruct T as (X & Y & TY & _). unfold fits in *. rewrite X, Y, TY, <- LE. exact FT.
  - intros path i p nd x (ds & d & I & GD & ND & GX).
    assert (0 <= p < w_nx b * w_ny b) as P.
    { destruct W as (_ & _ & _ & _ & DD & _). destruct (DD d) as (LD & _).
      { apply (saved_incl b path ds I). eapply get_at_In; eauto. }
      rewrite <- LD. eapply get_at_inv; eauto. }
    assert (0 <= i < zlen ds) as IR by (eapply get_at_inv; eauto).
    specialize (R path ds I). unfold result in R. unfold value_at at 1.
    assert (disk w path = None -> value_at w' path i p = Some x) as FR.
    { intros N. rewrite N in R.
      assert (disk w' path = Some (Raster (fresh b ds))) as E' by (destruct (w_open b); exact R).
      unfold value_at. rewrite E'. cbn [fresh r_bands]. rewrite get_map, GD. cbn [option_map plain fb_cells].
      rewrite get_map, GX. reflexivity. }
    destruct (A path ds I) as [Q | [Q | (r0 & Q & FT)]]; [contradiction| |].
    + rewrite Q. auto.
    + rewrite Q in R |- *. destruct (fits_value b ds r0 i p FT IR P) as (f0 & old & F0 & C0).
      rewrite F0, C0.
      assert (exists r, disk w' path = Some (Raster r) /\ mosaicked b ds r0 r) as (r & ER & M).
      { destruct (w_open b); try contradiction; exact R. }
      destruct M as (_ & _ & _ & M). destruct (M i d GD) as (g0 & f & G0 & GF & _ & _ & _ & V).
      destruct (V p P) as (now & old' & v & N1 & O1 & V1 & C1).
      exists v. unfold value_at. rewrite ER, GF, V1. split; [reflexivity|].
      rewrite F0 in G0. inversion G0; subst g0. rewrite C0 in O1. inversion O1; subst old'.
      rewrite GX in N1. inversion N1; subst now. rewrite <- ND. exact C1.
Qed.

Lemma images b0 pn : w_open b0 <> OPEN_CREATE ->
  forall bs w, (forall b, In b bs -> whole b /\ same_target b0 b /\ short_names b /\ distinct_names b) ->
  unlocked b0 pn w -> (forall b, In b bs -> acceptable b w) ->
  exists w', written pn bs w w' /\ locks w' = locks w /\
    forall path i p nd xs, Forall2 (fun b x => offers b path i p nd x) bs xs ->
      chain (w_open b0) nd xs (value_at w path i p) (value_at w' path i p).
Proof.
  intros NC. induction bs as [|b bs IH]; intros w H U A.
  - exists w. split; [constructor|]. split; auto. intros path i p nd xs F. inversion F; subst. constructor.
  - destruct (H b (or_introl eq_refl)) as (W & T & S & D).
    assert (w_open b = w_open b0) as OB by (destruct T as (_ & _ & _ & O & _); exact O).
    destruct (one_image b pn w W) as (w1 & E & L & A1 & V); auto.
    { rewrite OB. exact NC. }
    { apply (unlocked_same b0 b pn w w T eq_refl U). }
    { apply A. left; auto. }
    destruct (IH w1) as (w' & WR & L' & C).
    { intros b' I. apply H. right; auto. }
    { apply (unlocked_same b0 b0 pn w w1 (same_target_refl b0) L U). }
    { intros b' I. destruct (H b' (or_intror I)) as (W' & T' & _). apply A1; auto.
      eapply same_target_trans; [apply same_target_sym; exact T|exact T']. }
    exists w'. split; [econstructor; eauto|]. split; [congruence|].
    intros path i p nd xs F. inversion F as [|? x ? xs' OX F']; subst.
    specialize (V path i p nd x OX). specialize (C path i p nd xs' F').
    destruct (value_at w path i p) as [old|].
    + destruct V as (v & V & K). rewrite V in C. rewrite OB in K. econstructor; eauto.
    + rewrite V in C. constructor. exact C.
Qed.

(** The rule is a function. *)
Lemma combined_fun m nd now old v v' : in_short now -> in_short old ->
  combined m nd now old v -> combined m nd now old v' -> v = v'.
Proof.
  intros SN SO (A & B & C) (A' & B' & C').
  destruct (Z.eq_dec old nd) as [E | N]; [rewrite A, A' by auto; auto|].
  destruct (Z.eq_dec now nd) as [E | N']; [rewrite B, B' by auto; auto|].
  specialize (C N N'). specialize (C' N N'). destruct m; try congruence.
  - destruct C as (C1 & C2), C' as (C1' & C2'). nia.
  - destruct C as (S & P & F), C' as (S' & P' & F').
    apply set_flags_det; auto.
    + intros f. rewrite F, F'. reflexivity.
    + pose proof (nonneg_bit v S). pose proof (nonneg_bit v' S').
      destruct (Z.testbit v 15), (Z.testbit v' 15); auto.
      * assert (0 <= v') by tauto. assert (0 <= v) by tauto. assert (true = false) by tauto. discriminate.
      * assert (0 <= v) by tauto. assert (0 <= v') by tauto. assert (true = false) by tauto. discriminate.
Qed.

Lemma combined_swap m nd a b v : (m = OPEN_QAI_MERGE -> 0 <= a /\ 0 <= b) -> (m = OPEN_MERGE \/ m = OPEN_QAI_MERGE) ->
  combined m nd a b v -> combined m nd b a v.
Proof.
  intros Q M (A & B & C). unfold combined. split; [|split].
  - intros ->. destruct (Z.eq_dec b nd) as [-> | N]; auto.
  - intros N ->. auto.
  - intros N N'. specialize (C N' N). destruct M as [-> | ->].
    + rewrite (Z.add_comm b a). exact C.
    + destruct C as (S & P & F), Q as (PA & PB); auto. split; [exact S|]. split; [tauto|].
      intros f. rewrite F. destruct f; unfold worst; lia.
Qed.

Lemma chain_two m nd x y v : chain m nd [x; y] None v -> exists u, v = Some u /\ combined m nd y x u.
Proof.
  intros C. inversion C as [|? ? ? C1|]; subst. inversion C1 as [| |? ? ? u ? K C2]; subst.
  inversion C2; subst. eauto.
Qed.

(** Quality words in any order. *)
Definition qv (x : Z) : Prop := 0 <= x <= 32767.
Lemma qv_short x : qv x -> in_short x.
Proof. unfold qv, in_short. lia. Qed.

Definition qmerge (x old : Z) : Z :=
  match merge_pixel OPEN_QAI_MERGE DT_SHORT 1 x old with Ret v => v | _ => 0 end.

Lemma qmerge_combined x old : qv x -> qv old -> combined OPEN_QAI_MERGE 1 x old (qmerge x old) /\ qv (qmerge x old).
Proof.
  intros X O. unfold qmerge.
  destruct (merge_pixel_ok OPEN_QAI_MERGE DT_SHORT 1 x old) as (v & -> & T & C); auto.
  { cbn. apply in_shortb_spec, qv_short; auto. }
  { cbn. apply in_shortb_spec, qv_short; auto. }
  split; [exact C|]. cbn in T. apply in_shortb_spec in T. destruct C as (A & B & C).
  destruct (Z.eq_dec old 1); [rewrite A; auto|]. destruct (Z.eq_dec x 1); [rewrite B; auto|].
  destruct C as (S & P & _); auto. unfold qv, in_short in *. lia.
Qed.

Lemma flag_one f : flag_value f 1 = match f with Off => 1 | _ => 0 end.
Proof. destruct f; reflexivity. Qed.

Lemma qv_det x y : qv x -> qv y -> (forall f, flag_value f x = flag_value f y) -> x = y.
Proof.
  intros X Y F. apply set_flags_det; auto using qv_short.
  pose proof (proj1 (nonneg_bit x (qv_short x X))) as A. pose proof (proj1 (nonneg_bit y (qv_short y Y))) as B.
  rewrite A, B by (unfold qv in *; lia). reflexivity.
Qed.

Lemma qmerge_flags x y f : qv x -> qv y -> x <> 1 -> y <> 1 ->
  flag_value f (qmerge x y) = merged f (flag_value f x) (flag_value f y).
Proof.
  intros X Y NX NY. destruct (qmerge_combined x y X Y) as ((_ & _ & C) & _).
  destruct C as (_ & _ & F); auto. rewrite F. destruct f; reflexivity.
Qed.
Lemma qmerge_nd_l x : qmerge 1 x = x \/ ~ qv x.
Proof.
  destruct (Z_le_dec 0 x), (Z_le_dec x 32767); try (right; unfold qv; lia). left.
  destruct (qmerge_combined 1 x) as ((A & B & _) & _); [unfold qv; lia|unfold qv; lia|].
  destruct (Z.eq_dec x 1); [rewrite A; auto|apply B; auto].
Qed.
Lemma qmerge_1 x : qv x -> qmerge 1 x = x.
Proof. intros X. destruct (qmerge_nd_l x); tauto. Qed.
Lemma qmerge_2 x : qv x -> qmerge x 1 = x.
Proof.
  intros X. destruct (qmerge_combined x 1) as ((A & _) & _); auto. unfold qv; lia.
Qed.
Lemma qmerge_valid x y : qv x -> qv y -> x <> 1 -> y <> 1 -> qmerge x y <> 1.
Proof.
  intros X Y NX NY E.
  assert (forall f, merged f (flag_value f x) (flag_value f y) = flag_value f 1) as F.
  { intros f. rewrite <- (qmerge_flags x y f) by auto. rewrite E. reflexivity. }
  assert (flag_value Illumination x = 0 \/ flag_value Illumination y = 0) as [I | I].
  { pose proof (F Illumination) as G. rewrite flag_one in G. cbn [merged] in G. lia. }
  - apply NX. apply qv_det; auto; [unfold qv; lia|]. intros f. rewrite flag_one.
    pose proof (F f) as G. rewrite flag_one in G. pose proof (flag_range f x). pose proof (flag_range f y).
    change (flag_max Off) with 1 in *.
    assert (flag_max Off = 1) by reflexivity. destruct f; cbn [merged] in *; lia.
  - apply NY. apply qv_det; auto; [unfold qv; lia|]. intros f. rewrite flag_one.
    pose proof (F f) as G. rewrite flag_one in G. pose proof (flag_range f x). pose proof (flag_range f y).
    change (flag_max Off) with 1 in *.
    assert (flag_max Off = 1) by reflexivity. destruct f; cbn [merged] in *; lia.
Qed.

Lemma qmerge_swap x y o : qv x -> qv y -> qv o -> qmerge y (qmerge x o) = qmerge x (qmerge y o).
Proof.
  intros X Y O.
  destruct (qmerge_combined x o X O) as (_ & XO). destruct (qmerge_combined y o Y O) as (_ & YO).
  destruct (Z.eq_dec x 1) as [-> | NX]; [rewrite !qmerge_1; auto|].
  destruct (Z.eq_dec y 1) as [-> | NY]; [rewrite !qmerge_1; auto|].
  destruct (qmerge_combined y (qmerge x o) Y XO) as (_ & A). destruct (qmerge_combined x (qmerge y o) X YO) as (_ & B).
  apply qv_det; auto. intros f.
  destruct (Z.eq_dec o 1) as [-> | NO].
  - rewrite !qmerge_2 by auto. rewrite !qmerge_flags by auto. destruct f; unfold merged; lia.
  - rewrite !(qmerge_flags _ _ f); auto using qmerge_valid.
    destruct f; unfold merged; lia.
Qed.
Lemma qmerge_comm x y : qv x -> qv y -> qmerge x y = qmerge y x.
Proof.
  intros X Y.
  destruct (Z.eq_dec x 1) as [-> | NX]; [rewrite qmerge_1, qmerge_2; auto|].
  destruct (Z.eq_dec y 1) as [-> | NY]; [rewrite qmerge_1, qmerge_2; auto|].
  apply qv_det; try apply qmerge_combined; auto. intros f. rewrite !qmerge_flags by auto.
  destruct f; unfold merged; lia.
Qed.

Definition qstep (o : option Z) (x : Z) : option Z :=
  match o with None => Some x | Some old => Some (qmerge x old) end.
Definition qo (o : option Z) : Prop := match o with None => True | Some x => qv x end.

Lemma chain_fold l : forall o v, Forall qv l -> qo o -> chain OPEN_QAI_MERGE 1 l o v -> v = fold_left qstep l o.
Proof.
  induction l as [|x l IH]; intros o v F Q C; inversion C; subst; cbn [fold_left]; auto.
  - inversion F; subst. apply IH; auto.
  - inversion F; subst. cbn in Q. destruct (qmerge_combined x old) as (K & KV); auto.
    assert (u = qmerge x old) as ->.
    { apply (combined_fun OPEN_QAI_MERGE 1 x old); auto using qv_short. }
    apply IH; auto.
Qed.

Lemma fold_swap l l' : Permutation l l' -> Forall qv l -> forall o, qo o -> fold_left qstep l o = fold_left qstep l' o.
Proof.
  assert (forall o x, qo o -> qv x -> qo (qstep o x)) as QS.
  { intros [old|] x Q X; cbn in *; auto. apply qmerge_combined; auto. }
  induction 1 as [|x l l' P IH|x y l|l l' l'' P1 IH1 P2 IH2]; intros F o Q.
  - reflexivity.
  - inversion F; subst. cbn [fold_left]. apply IH; auto.
  - inversion F as [|? ? Y F']; subst. inversion F' as [|? ? X F'']; subst. cbn [fold_left]. f_equal.
    destruct o as [old|]; cbn [qstep qo] in *.
    + f_equal. apply qmerge_swap; auto.
    + f_equal. apply qmerge_comm; auto.
  - rewrite IH1 by auto. apply IH2; auto. eapply Permutation_Forall; eauto.
Qed.

(** Concurrent writers: the pixels after serving them. *)
Lemma chain_snoc m nd l o u x v : chain m nd l o (Some u) -> combined m nd x u v -> chain m nd (l ++ [x]) o (Some v).
Proof.
  intros C K. remember (Some u) as u' eqn:E. induction C; subst; cbn [app].
  - econstructor; [exact K|constructor].
  - constructor. auto.
  - econstructor; eauto.
Qed.

Lemma serial_values b0 ws e l f : w_open b0 <> OPEN_CREATE -> common_file b0 ws ->
  (e = None \/ exists r, e = Some (Raster r) /\ fits b0 (saved b0) r) -> serial ws e l f ->
  (f = None -> l = []) /\ (forall r, f = Some (Raster r) -> fits b0 (saved b0) r) /\ f <> Some Junk /\
  forall i p nd xs, Forall2 (brings ws i p nd) l xs -> chain (w_open b0) nd xs (entry_value e i p) (entry_value f i p).
Proof.
  intros NC (EX & H) E0 S. induction S as [|l f k b ds r upd S (FN & FF & FJ & IH) WK C].
  - split; [auto|]. split; [|split].
    + intros r ->. destruct E0 as [E0 | (r' & E0 & F)]; [discriminate|]. inversion E0; subst; auto.
    + destruct E0 as [-> | (r' & -> & F)]; discriminate.
    + intros i p nd xs F. inversion F; subst. constructor.
  - destruct (H b ds) as (W & T & ->); [eapply nth_error_In; eauto|].
    pose proof T as (TX & TY & TT & TO & TE & TD & TN & TEX & TNM).
    assert (zlen (saved b) = zlen (saved b0)) as LE.
    { unfold zlen. rewrite <- (map_length wd_name (saved b)), TNM, map_length. reflexivity. }
    assert (is_file b (file_name b []) (saved b)) as I by (unfold is_file; rewrite TE, EX; auto).
    assert (forall r, fits b0 (saved b0) r <-> fits b (saved b) r) as FB.
    { intros r'. unfold fits. rewrite TX, TY, TT, LE. tauto. }
    set (w := mkWorld (fun _ => f) [] []).
    assert (acceptable b w) as A.
    { intros path ds J. assert (ds = saved b) as -> by (unfold is_file in J; rewrite TE, EX in J; apply J).
      right. subst w. cbn [disk]. destruct f as [[r' |]|]; [right|contradiction|left; auto].
      exists r'. split; auto. apply FB. auto. }
    destruct (content_result b w (file_name b []) (saved b) W I A) as (r' & u & C' & FT & R & _).
    subst w. cbn [disk] in C', R. rewrite C in C'. inversion C'; subst r' u.
    split; [discriminate|]. split; [|split; [discriminate|]].
    + intros r' K. inversion K; subst. apply FB. exact FT.
    + intros i p nd xs F. apply Forall2_app_inv_l in F. destruct F as (xs1 & xs2 & F1 & F2 & ->).
      inversion F2 as [|? x ? xs' (b' & ds' & WK' & (ds & d & J & GD & ND & GX)) F3]; subst. inversion F3; subst.
      rewrite WK in WK'. inversion WK'; subst b' ds'.
      assert (ds = saved b) as -> by (unfold is_file in J; rewrite TE, EX in J; apply J).
      specialize (IH i p (wd_nodata d) xs1 F1).
      assert (0 <= p < w_nx b * w_ny b) as P.
      { destruct W as (_ & _ & _ & _ & DD & _). destruct (DD d) as (LD & _).
        { apply (saved_incl b _ _ I). eapply get_at_In; eauto. }
        rewrite <- LD. eapply get_at_inv; eauto. }
      assert (0 <= i < zlen (saved b)) as IR by (eapply get_at_inv; eauto).
      unfold result in R. destruct f as [[r0|]|]; [|contradiction|].
      * destruct (fits_value b (saved b) r0 i p (proj1 (FB r0) (FF r0 eq_refl)) IR P) as (f0 & old & F0 & C0).
        assert (exists r', Some (Raster r) = Some (Raster r') /\ mosaicked b (saved b) r0 r') as (r' & ER & M).
        { destruct (w_open b); try exact R. congruence. }
        inversion ER; subst r'. destruct M as (_ & _ & _ & M).
        destruct (M i d GD) as (g0 & g & G0 & GF & _ & _ & _ & V).
        destruct (V p P) as (now & old' & v & N1 & O1 & V1 & C1).
        unfold entry_value, value_at in IH |- *. cbn [disk] in IH |- *. rewrite F0, C0 in IH. rewrite GF, V1.
        rewrite F0 in G0. inversion G0; subst g0. rewrite C0 in O1. inversion O1; subst old'.
        rewrite GX in N1. inversion N1; subst now. rewrite TO in C1. eapply chain_snoc; eauto.
      * rewrite (FN eq_refl) in F1. inversion F1; subst.
        assert (Some (Raster r) = Some (Raster (fresh b (saved b)))) as ER by (destruct (w_open b); exact R).
        inversion ER; subst r. cbn [app].
        assert (entry_value e i p = None) as ->.
        { rewrite (FN eq_refl) in S. inversion S; subst. reflexivity. }
        unfold entry_value, value_at. cbn [disk fresh r_bands]. rewrite get_map, GD. cbn [option_map plain fb_cells].
        rewrite get_map, GX. cbn [option_map]. constructor. constructor.
Qed.
