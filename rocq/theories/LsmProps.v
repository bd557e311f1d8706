(** C73-C75: landscape metrics. *)
From Coq Require Import Reals Lra Lia.
From Flocq Require Import Core.
From Verif Require Import Base Loops BaseFacts LoopsFacts ImgSpec StatsModel StatsSpec StatsProofs AggModel ChunkProofs CsoProofs CclModel CclSpec CclProps LsmModel LsmSpec LsmProofs LsmState LsmValues.
#[local] Open Scope Z_scope.

Lemma segmented_ok pa ft fuel fg0 fg nobj lab sz : legal pa ft -> binary pa ft = Ret fg0 -> binary_to_objects fuel fg0 (f_nx ft) (f_ny ft) (l_minpatch pa) = Ret (fg, nobj, Some (lab, sz)) ->
  segmented pa ft fg lab nobj.
Proof.
  intros LG B E. destruct (binary_ok pa ft LG) as (fg' & B' & L0 & C). rewrite B in B'. injection B' as <-.
  assert (image fg0 (f_nx ft) (f_ny ft)) as IM by (destruct LG; repeat split; auto).
  pose proof (C42_objects_partial fg0 (f_nx ft) (f_ny ft) (l_minpatch pa) fuel IM) as Y. rewrite E in Y. cbn [yields] in Y. destruct Y as (LF & _ & SUB & N & LL & _ & _ & BG & FG).
  assert (forall q, on fg q = true -> get_at fg q = Some true) as OG. { intros q O. unfold on in O. destruct (get_at fg q) as [[]|]; congruence. }
  constructor; auto.
  - intros q O. apply OG in O. apply C; [rewrite <- LF; exact (get_at_inv _ _ _ O)|]. unfold on. now rewrite (SUB q O).
  - intros q O. apply OG in O. destruct (FG q O) as (id & G & I). unfold val. now rewrite G.
  - intros q O. unfold on in O. destruct (get_at fg q) as [[]|] eqn:G; [discriminate| |].
    + unfold val. now rewrite (BG q G).
    + unfold val. apply get_at_none in G. destruct (get_at lab q) eqn:G'; auto. apply get_at_inv in G'. lia.
Qed.

Section Run.
Variables (pa : params) (ft : feature) (fg : list bool) (lab : list Z) (nobj : Z).
Hypothesis LG : legal pa ft.
Hypothesis SG : segmented pa ft fg lab nobj.
Let r := l_radius pa.
Let ms p := members r (l_circle pa) (f_nx ft) fg p.

Lemma ms_lab p q : In q (ms p) -> 1 <= val lab q <= nobj.
Proof. intros I. apply filter_In in I. destruct I as (_ & I). apply andb_true_iff in I. apply (sg_patch _ _ _ _ _ SG). tauto. Qed.
Lemma pixel_run t p : 0 <= p < f_nx ft * f_ny ft -> reset t = Ret (priv0 r nobj) ->
  (wanted pa ft fg p /\ pixel pa ft fg lab t p = (vs <- omap (metric_value r lab p (priv_of pa ft fg lab nobj p (ms p)) (sums_of pa ft fg p (ms p))) (l_metrics pa) ;; Ret (Some vs, priv_of pa ft fg lab nobj p (ms p)))) \/
  (~ wanted pa ft fg p /\ pixel pa ft fg lab t p = Ret (None, t)).
Proof.
  intros P R. destruct SG as [N LF LL C PT BG]. unfold pixel, wanted. destruct (skipped_ok pa ft LG p P) as (b & -> & B). cbn [bind]. destruct b; [right; split; [intros (S & _); apply B in S; discriminate|reflexivity]|].
  rewrite (on_get fg p) by (rewrite LF; exact P). cbn [of_option bind]. destruct (on fg p) eqn:O; cbn [negb andb].
  2: destruct (l_allpx pa) eqn:AP; cbn [negb]; [|right; split; [intros (_ & [H|H]); discriminate|reflexivity]].
  all: left; split; [split; [now apply B|auto]|]; rewrite R; cbn [bind]; rewrite (window_ok pa ft LG fg lab LF LL (fun q H => proj1 (C q H)) p _ P).
  all: rewrite (state_ok pa ft fg lab nobj p); [reflexivity|exact (members_len pa ft LG fg LF p P)|exact (ms_lab p)].
Qed.
Lemma reset_pixel p : 0 <= p < f_nx ft * f_ny ft -> reset (priv_of pa ft fg lab nobj p (ms p)) = Ret (priv0 r nobj).
Proof. intros P. apply reset_ok; [exact (members_len pa ft LG fg (sg_fg _ _ _ _ _ SG) p P)|exact (ms_lab p)]. Qed.
Lemma reset_first : reset (priv0 r nobj) = Ret (priv0 r nobj).
Proof. reflexivity. Qed.

(** A thread leaves nothing behind for its next pixel. *)
Lemma thread_run : forall ps t, Forall (fun p => 0 <= p < f_nx ft * f_ny ft) ps -> reset t = Ret (priv0 r nobj) ->
  (forall out p o, thread pa ft fg lab t ps = Ret out -> In (p, o) out -> exists t', pixel pa ft fg lab (priv0 r nobj) p = Ret (o, t')) /\
  (forall out, thread pa ft fg lab t ps = Ret out -> map fst out = ps) /\
  ((forall p, In p ps -> exists o t', pixel pa ft fg lab (priv0 r nobj) p = Ret (o, t')) -> exists out, thread pa ft fg lab t ps = Ret out).
Proof.
  induction ps as [|p ps IH]; intros t F R; cbn [thread].
  - split; [intros out p o [= <-] []|]. split; [intros out [= <-]; reflexivity|eauto].
  - inversion F as [|? ? P F']; subst. pose proof (pixel_run t p P R) as S. pose proof (pixel_run (priv0 r nobj) p P reset_first) as S0.
    assert (forall x, pixel pa ft fg lab t p = Ret x -> reset (snd x) = Ret (priv0 r nobj) /\ exists t', pixel pa ft fg lab (priv0 r nobj) p = Ret (fst x, t')) as K.
    { intros x EX. destruct S as [(W & S)|(W & S)], S0 as [(W0 & S0)|(W0 & S0)]; try contradiction; rewrite S in EX; rewrite S0.
      - destruct (omap _ (l_metrics pa)) as [vs| |]; cbn [bind] in *; try discriminate. injection EX as <-. cbn [fst snd]. split; [now apply reset_pixel|eauto].
      - injection EX as <-. cbn [fst snd]. split; eauto. }
    split; [|split].
    + intros out p' o E I. destruct (pixel pa ft fg lab t p) as [x| |] eqn:EX; cbn [bind] in E; try discriminate. destruct (K x eq_refl) as (R' & t' & E0).
      destruct (thread pa ft fg lab (snd x) ps) as [rest| |] eqn:ER; cbn [bind] in E; try discriminate. injection E as <-. destruct I as [[= <- <-]|I]; [eauto|]. eapply IH; eauto.
    + intros out E. destruct (pixel pa ft fg lab t p) as [x| |] eqn:EX; cbn [bind] in E; try discriminate. destruct (K x eq_refl) as (R' & t' & E0).
      destruct (thread pa ft fg lab (snd x) ps) as [rest| |] eqn:ER; cbn [bind] in E; try discriminate. injection E as <-. cbn [map fst]. f_equal. eapply IH; eauto.
    + intros A. assert (exists x, pixel pa ft fg lab t p = Ret x) as (x & EX).
      { destruct (A p (or_introl eq_refl)) as (o & t' & E0). destruct S as [(W & S)|(W & S)], S0 as [(W0 & S0)|(W0 & S0)]; try contradiction; [|eauto]. rewrite S. rewrite S0 in E0. destruct (omap _ (l_metrics pa)); cbn [bind] in *; try discriminate. eauto. }
      rewrite EX. cbn [bind]. destruct (K x EX) as (R' & _). destruct (IH (snd x) F' R') as (_ & _ & D). destruct D as (rest & ->); [intros; apply A; now right|]. cbn [bind]. eauto.
Qed.
Lemma threads_run sched : Forall (fun p => 0 <= p < f_nx ft * f_ny ft) (concat sched) ->
  (forall rs p o, omap (thread pa ft fg lab (priv0 r nobj)) sched = Ret rs -> In (p, o) (concat rs) -> exists t', pixel pa ft fg lab (priv0 r nobj) p = Ret (o, t')) /\
  (forall rs, omap (thread pa ft fg lab (priv0 r nobj)) sched = Ret rs -> map fst (concat rs) = concat sched) /\
  ((forall p, In p (concat sched) -> exists o t', pixel pa ft fg lab (priv0 r nobj) p = Ret (o, t')) -> exists rs, omap (thread pa ft fg lab (priv0 r nobj)) sched = Ret rs).
Proof.
  induction sched as [|ps sched IH]; intros F; cbn [omap concat] in *.
  - split; [intros rs p o [= <-] []|]. split; [intros rs [= <-]; reflexivity|eauto].
  - apply Forall_app in F. destruct F as (F1 & F2). destruct (thread_run ps _ F1 reset_first) as (A & B & D). destruct (IH F2) as (A' & B' & D').
    split; [|split].
    + intros rs p o E I. destruct (thread _ _ _ _ _ ps) as [a| |] eqn:EA; cbn [bind] in E; try discriminate. destruct (omap _ sched) as [b| |] eqn:EB; cbn [bind] in E; try discriminate. injection E as <-.
      cbn [concat] in I. apply in_app_iff in I. destruct I; [eapply A|eapply A']; eauto.
    + intros rs E. destruct (thread _ _ _ _ _ ps) as [a| |] eqn:EA; cbn [bind] in E; try discriminate. destruct (omap _ sched) as [b| |] eqn:EB; cbn [bind] in E; try discriminate. injection E as <-.
      cbn [concat]. rewrite map_app, (B a eq_refl), (B' b eq_refl). reflexivity.
    + intros H. destruct D as (a & ->); [intros p I; apply H, in_or_app; auto|]. cbn [bind]. destruct D' as (b & ->); [intros p I; apply H, in_or_app; auto|]. cbn [bind]. eauto.
Qed.
Lemma lab_nonneg p : 0 <= val lab p.
Proof. destruct (on fg p) eqn:O; [pose proof (sg_patch _ _ _ _ _ SG p O); lia|]. rewrite (sg_rest _ _ _ _ _ SG p O). lia. Qed.
Lemma one_pixel p : 0 <= p < f_nx ft * f_ny ft -> (wanted pa ft fg p -> forall m, In m (l_metrics pa) -> has_metric pa ft fg lab p m) ->
  exists o t', pixel pa ft fg lab (priv0 r nobj) p = Ret (o, t') /\
    (wanted pa ft fg p -> exists vs, o = Some vs /\ Forall2 (describes pa ft fg lab p) (l_metrics pa) vs) /\ (~ wanted pa ft fg p -> o = None).
Proof.
  intros P H. destruct (pixel_run (priv0 r nobj) p P reset_first) as [(W & E)|(W & E)].
  - destruct (omap_all (metric_value r lab p (priv_of pa ft fg lab nobj p (ms p)) (sums_of pa ft fg p (ms p))) (describes pa ft fg lab p) (l_metrics pa)) as (vs & EV & F).
    { intros m I. apply metric_ok; auto using lab_nonneg; [exact (sg_fg _ _ _ _ _ SG)|exact (sg_lab _ _ _ _ _ SG)|exact (ms_lab p)]. }
    rewrite E, EV. cbn [bind]. eexists _, _. split; [reflexivity|]. split; [eauto|contradiction].
  - rewrite E. eexists _, _. split; [reflexivity|]. split; [contradiction|auto].
Qed.
End Run.

(** ** C73 *)
(** Whatever the number of threads and the order of their pixels, every metric
    is that of the foreground pixels in the kernel around its pixel. *)
Theorem C73_metrics_of_the_window pa ft fuel sched fg0 fg nobj lab sz : legal pa ft -> Forall (fun p => 0 <= p < f_nx ft * f_ny ft) (concat sched) ->
  binary pa ft = Ret fg0 -> binary_to_objects fuel fg0 (f_nx ft) (f_ny ft) (l_minpatch pa) = Ret (fg, nobj, Some (lab, sz)) ->
  (forall p m, In p (concat sched) -> wanted pa ft fg p -> In m (l_metrics pa) -> has_metric pa ft fg lab p m) ->
  segmented pa ft fg lab nobj /\
  exists out, landscape fuel pa ft sched = Ret out /\ map fst out = concat sched /\
    forall p o, In (p, o) out -> (wanted pa ft fg p -> exists vs, o = Some vs /\ Forall2 (describes pa ft fg lab p) (l_metrics pa) vs) /\ (~ wanted pa ft fg p -> o = None).
Proof.
  intros LG F B O H. pose proof (segmented_ok _ _ _ _ _ _ _ _ LG B O) as SG. split; auto. unfold landscape. rewrite B. cbn [bind]. rewrite O. cbn [bind].
  destruct (threads_run pa ft fg lab nobj LG SG sched F) as (A & M & D). pose proof F as F'. rewrite Forall_forall in F'.
  destruct D as (rs & E). { intros p I. destruct (one_pixel pa ft fg lab nobj LG SG p (F' p I)) as (o & t' & E & _); eauto. }
  rewrite E. cbn [bind]. exists (concat rs). split; auto. split; [now apply M|]. intros p o I. assert (In p (concat sched)) as IP by (rewrite <- (M rs E); now apply (in_map fst) in I).
  destruct (A rs p o E I) as (t' & EP). destruct (one_pixel pa ft fg lab nobj LG SG p (F' p IP)) as (o' & t'' & E' & W); eauto. rewrite EP in E'. injection E' as <- <-. exact W.
Qed.

(** The value of a pixel does not depend on the pixels its thread treated before. *)
Theorem C73_no_memory_of_other_pixels pa ft fuel sched out p o : legal pa ft -> Forall (fun p => 0 <= p < f_nx ft * f_ny ft) (concat sched) ->
  landscape fuel pa ft sched = Ret out -> In (p, o) out -> landscape fuel pa ft [[p]] = Ret [(p, o)].
Proof.
  intros LG F E I. unfold landscape in *. destruct (binary pa ft) as [fg0| |] eqn:B; cbn [bind] in *; try discriminate.
  destruct (binary_to_objects fuel fg0 (f_nx ft) (f_ny ft) (l_minpatch pa)) as [((fg, nobj), [(lab, sz)|])| |] eqn:O; cbn [bind] in *; try discriminate.
  - pose proof (segmented_ok _ _ _ _ _ _ _ _ LG B O) as SG. destruct (omap (thread pa ft fg lab (priv0 (l_radius pa) nobj)) sched) as [rs| |] eqn:EO; cbn [bind] in *; try discriminate. injection E as <-.
    destruct (threads_run pa ft fg lab nobj LG SG sched F) as (A & _). destruct (A rs p o EO I) as (t' & EP). cbn [omap thread]. rewrite EP. reflexivity.
  - injection E as <-. apply in_map_iff in I. destruct I as (p' & [= <- <-] & I). reflexivity.
Qed.

(** The binary foreground without small patches never leaves the class. *)
Theorem C73_segmentation pa ft fuel fg0 fg nobj lab sz : legal pa ft -> binary pa ft = Ret fg0 -> binary_to_objects fuel fg0 (f_nx ft) (f_ny ft) (l_minpatch pa) = Ret (fg, nobj, Some (lab, sz)) ->
  segmented pa ft fg lab nobj.
Proof. exact (segmented_ok pa ft fuel fg0 fg nobj lab sz). Qed.

(** 5 x 3 pixels, class: at least 10; two patches, one excluded pixel. *)
Definition scene : feature := mkFeature 5 3 (-9999)
  [1; 20; 10; 0; 40;
   3; 30; -9999; 5; 60;
   2; 7; 8; 9; -9999] [true; true; true; true; true; true; true; true; true; true; true; true; true; true; false] None.
Definition scene_params ms := mkParams 1 false true true QGE 10 2 ms.
Lemma scene_legal ms : legal (scene_params ms) scene.
Proof. constructor; cbn; try lia; auto; [repeat constructor; unfold in_short; lia|discriminate]. Qed.
Definition scene_fg : list bool := [false; true; true; false; true; false; true; false; false; true; false; false; false; false; false].
Definition scene_lab : list Z := [0; 1; 1; 0; 2; 0; 1; 0; 0; 2; 0; 0; 0; 0; 0].
Lemma scene_objects ms : exists fg0, binary (scene_params ms) scene = Ret fg0 /\ binary_to_objects 40 fg0 5 3 2 = Ret (scene_fg, 2, Some (scene_lab, [3; 2])).
Proof. eexists. split; [vm_compute; reflexivity|]. vm_compute. reflexivity. Qed.
Definition sure_metrics := [UCI; ARE; LMAX; LAVG; MPA; EDD; NBR; EMS].
Example C73_example : exists out, landscape 40 (scene_params sure_metrics) scene [[7; 0; 14]; [8; 6]] = Ret out /\ map fst out = [7; 0; 14; 8; 6] /\
  forall p o, In (p, o) out -> wanted (scene_params sure_metrics) scene scene_fg p -> exists vs, o = Some vs /\ Forall2 (describes (scene_params sure_metrics) scene scene_fg scene_lab p) sure_metrics vs.
Proof.
  destruct (scene_objects sure_metrics) as (fg0 & B & O). destruct (C73_metrics_of_the_window (scene_params sure_metrics) scene 40 [[7; 0; 14]; [8; 6]] fg0 scene_fg 2 scene_lab [3; 2] (scene_legal _)) as (_ & out & E & M & H); auto.
  - repeat constructor; cbn; lia.
  - intros p m I W J. cbn [In l_metrics scene_params sure_metrics] in J. destruct J as [<- |J]; [|repeat destruct J as [<- |J]; cbn; auto; lia].
    cbn [has_metric concat app In] in *. destruct I as [<- |[<- |[<- |[<- |[<- |[]]]]]]; vm_compute; congruence.
  - exists out. split; auto. split; auto. intros p o I. apply H. exact I.
Qed.

(** ** C74: ranges and definitions *)
Theorem C74_ranges pa ft fuel sched out p vs m v : legal pa ft -> Forall (fun p => 0 <= p < f_nx ft * f_ny ft) (concat sched) ->
  landscape fuel pa ft sched = Ret out -> In (p, Some vs) out -> In (m, v) (combine (l_metrics pa) vs) -> ksize (l_radius pa) <= 32767 -> in_range m v.
Proof.
  intros LG F E I J KS. unfold landscape in *. destruct (binary pa ft) as [fg0| |] eqn:B; cbn [bind] in *; try discriminate.
  destruct (binary_to_objects fuel fg0 (f_nx ft) (f_ny ft) (l_minpatch pa)) as [((fg, nobj), [(lab, sz)|])| |] eqn:O; cbn [bind] in *; try discriminate.
  - pose proof (segmented_ok _ _ _ _ _ _ _ _ LG B O) as SG. destruct (omap (thread pa ft fg lab (priv0 (l_radius pa) nobj)) sched) as [rs| |] eqn:EO; cbn [bind] in *; try discriminate. injection E as <-.
    destruct (threads_run pa ft fg lab nobj LG SG sched F) as (A & M & _). destruct (A rs p _ EO I) as (t' & EP).
    assert (0 <= p < f_nx ft * f_ny ft) as P. { rewrite Forall_forall in F. apply F. rewrite <- (M rs EO). now apply (in_map fst) in I. }
    destruct (pixel_run pa ft fg lab nobj LG SG _ p P (reset_first pa nobj)) as [(W & E)|(W & E)]; rewrite E in EP; [|discriminate].
    destruct (omap _ (l_metrics pa)) as [vs'| |] eqn:EV; cbn [bind] in EP; try discriminate. injection EP as <- <-. apply omap_ret in EV.
    assert (metric_value (l_radius pa) lab p (priv_of pa ft fg lab nobj p (members (l_radius pa) (l_circle pa) (f_nx ft) fg p)) (sums_of pa ft fg p (members (l_radius pa) (l_circle pa) (f_nx ft) fg p)) m = Ret v) as EM.
    { revert J. clear - EV. induction EV as [|x y l l' H F IH]; cbn [combine]; intros J; [destruct J|]. destruct J as [[= <- <-]|J]; auto. }
    assert (forall m', In m' [MPA; EDD; EMS; LMAX; ARE; NBR] -> m = m' -> describes pa ft fg lab p m v) as D.
    { intros m' Im <-. destruct (metric_ok pa ft fg lab nobj p LG (sg_fg _ _ _ _ _ SG) (sg_lab _ _ _ _ _ SG) P (ms_lab pa ft fg lab nobj SG p) m) as (v' & E' & D').
      - cbn [In] in Im. repeat destruct Im as [<- |Im]; cbn; auto. destruct Im.
      - exact (lab_nonneg pa ft fg lab nobj SG p).
      - rewrite EM in E'. injection E' as <-. exact D'. }
    set (ms := members (l_radius pa) (l_circle pa) (f_nx ft) fg p) in *. pose proof (K1 pa ft fg lab nobj p LG (ms_lab pa ft fg lab nobj SG p)) as K.
    pose proof (ms_share pa ft fg lab nobj p LG (sg_fg _ _ _ _ _ SG) P (ms_lab pa ft fg lab nobj SG p)) as SH. fold ms in SH. pose proof (edge_total pa ft fg lab nobj p LG (sg_fg _ _ _ _ _ SG) P (ms_lab pa ft fg lab nobj SG p)) as ET. fold ms in ET.
    assert (forall x hi, (0 <= x <= IZR hi)%R -> whole x v -> 0 <= v <= hi) as RG.
    { intros x hi BX (W1 & _). specialize (W1 (proj1 BX)). split; [|apply le_IZR; lra]. assert (-1 < v); [|lia]. apply lt_IZR. lra. }
    destruct m; cbn [in_range]; auto.
    + specialize (D MPA ltac:(cbn; auto 10) eq_refl). cbn [describes] in D. fold ms in D. destruct D as (D0 & D1). destruct (list_eq_dec Z.eq_dec ms []) as [EM0|NE]; [rewrite D0 by auto; lia|]. eapply RG; [|apply D1; auto].
      assert (0 <= mean (map (fun q => patch_area lab ms (val lab q) / IZR (ksize (l_radius pa)))%R ms) <= 1)%R; [|lra].
      apply mean_bounds; [now apply map_nonnil|]. intros y Iy. apply in_map_iff in Iy. destruct Iy as (q & <- & Iy). apply ratio_bounds; [lra|]. unfold patch_area. pose proof (size_nonneg (same lab ms (val lab q))).
      assert (size (same lab ms (val lab q)) <= size ms)%R; [|pose proof (ms_size pa ft fg p LG (sg_fg _ _ _ _ _ SG) P) as MS; fold ms in MS; lra]. unfold size. apply le_INR. unfold same. clear. induction ms as [|a l IH]; cbn [filter length]; [lia|]. destruct (_ =? _); cbn [length]; lia.
    + specialize (D EDD ltac:(cbn; auto 10) eq_refl). cbn [describes] in D. fold ms in D. eapply RG; [|exact D]. set (e := sum _ ms) in *. assert (0 <= e / IZR (ksize (l_radius pa)) <= 2)%R; [|lra]. apply ratio_bounds; lra.
    + specialize (D NBR ltac:(cbn; auto 10) eq_refl). cbn [describes] in D. fold ms in D. destruct D as (ls & (ND & IN) & ->). split; [apply zlen_nonneg|]. etransitivity; [|exact KS]. etransitivity; [|exact (ms_len pa ft fg p LG (sg_fg _ _ _ _ _ SG) P)]. fold ms.
      rewrite <- (zlen_map (val lab) ms). unfold zlen. apply inj_le. apply NoDup_incl_length; auto. intros c Ic. apply IN in Ic. destruct Ic as (q & Iq & <-). now apply in_map.
    + specialize (D EMS ltac:(cbn; auto 10) eq_refl). cbn [describes] in D. fold ms in D. eapply RG; [|exact D]. nra.
    + specialize (D LMAX ltac:(cbn; auto 10) eq_refl). cbn [describes] in D. fold ms in D. destruct D as (D0 & _ & [->|D]); [lia|]. split; auto. apply (vs_short pa ft fg lab nobj p LG (ms_lab pa ft fg lab nobj SG p)) in D. unfold in_short in D. lia.
    + specialize (D ARE ltac:(cbn; auto 10) eq_refl). cbn [describes] in D. fold ms in D. rewrite D. pose proof (zlen_nonneg (values (f_nodata ft) (f_dat ft) ms)). lia.
  - injection E as <-. apply in_map_iff in I. destruct I as (p' & [=] & _).
Qed.

Lemma whole_unique x v w : whole x v -> whole x w -> v = w.
Proof.
  intros (A & B) (C & D). destruct (Rle_lt_dec 0 x) as [P|N].
  - specialize (A P). specialize (C P). assert (v < w + 1) by (apply lt_IZR; rewrite plus_IZR; lra). assert (w < v + 1) by (apply lt_IZR; rewrite plus_IZR; lra). lia.
  - specialize (B N). specialize (D N). assert (v - 1 < w) by (apply lt_IZR; rewrite minus_IZR; lra). assert (w - 1 < v) by (apply lt_IZR; rewrite minus_IZR; lra). lia.
Qed.

(** Two single pixels in a window of nine: the mesh size is that of one patch of
    both. *)
Definition two_feature : feature := mkFeature 3 3 (-9999) [1; 1; 5; 1; 1; 1; 5; 1; 1] (repeat true 9) None.
Definition two_params ms := mkParams 1 false true true QEQ 5 1 ms.
Lemma two_legal ms : legal (two_params ms) two_feature.
Proof. constructor; cbn; try lia; auto; [repeat constructor; unfold in_short; lia|discriminate]. Qed.
Definition two_fg := [false; false; true; false; false; false; true; false; false].
Definition two_lab := [0; 0; 1; 0; 0; 0; 2; 0; 0].
Lemma two_objects ms : exists fg0, binary (two_params ms) two_feature = Ret fg0 /\ binary_to_objects 40 fg0 3 3 1 = Ret (two_fg, 2, Some (two_lab, [1; 1])).
Proof. eexists. split; [vm_compute; reflexivity|]. vm_compute. reflexivity. Qed.
Theorem C74_effective_mesh_size_refuted : exists pa ft fg lab v, legal pa ft /\ l_metrics pa = [EMS] /\ segmented pa ft fg lab 2 /\ landscape 40 pa ft [[4]] = Ret [(4, Some [v])] /\
  let ms := members (l_radius pa) (l_circle pa) (f_nx ft) fg 4 in
  exists ls, patches lab ms ls /\ ~ whole (10000 * mesh (l_radius pa) lab ms ls) v.
Proof.
  destruct (two_objects [EMS]) as (fg0 & B & O).
  destruct (C73_metrics_of_the_window (two_params [EMS]) two_feature 40 [[4]] fg0 two_fg 2 two_lab [1; 1] (two_legal _)) as (SG & out & E & M & H); auto.
  { repeat constructor; cbn; lia. }
  { intros p m _ _ [<- |[]]. exact I. }
  destruct out as [|(p, o) [|]]; cbn [map fst concat app] in M; try discriminate. injection M as ->. destruct (H 4 o (or_introl eq_refl)) as (W & _). destruct W as (vs & -> & F). { split; [vm_compute; intuition congruence|now right]. }
  inversion F as [|? v ? l D F']; subst. inversion F'; subst.
  exists (two_params [EMS]), two_feature, two_fg, two_lab, v. split; [apply two_legal|]. split; auto. split; auto. split; auto.
  change (members (l_radius (two_params [EMS])) (l_circle (two_params [EMS])) (f_nx two_feature) two_fg 4) with [2; 6]. cbv zeta. exists [1; 2]. split.
  - split; [repeat constructor; cbn; intuition congruence|]. intros c. split.
    + intros [<- |[<- |[]]]; [exists 2|exists 6]; split; auto; cbn; auto.
    + intros (q & [<- |[<- |[]]] & <-); cbn; auto.
  - cbn [describes] in D. change (members (l_radius (two_params [EMS])) (l_circle (two_params [EMS])) (f_nx two_feature) two_fg 4) with [2; 6] in D. cbv zeta in D. intros D'.
    assert (whole (10000 * ((size [2; 6] / IZR (ksize 1)) * (size [2; 6] / IZR (ksize 1)))) 493) as X.
    { change (ksize 1) with 9. unfold size, whole. cbn [length INR]. split; intros; lra. }
    assert (whole (10000 * mesh 1 two_lab [2; 6] [1; 2]) 246) as Y.
    { unfold mesh, patch_area, sum. change (ksize 1) with 9. change (same two_lab [2; 6] 1) with [2]. change (same two_lab [2; 6] 2) with [6]. unfold size, whole. cbn [length INR map fold_right same pow]. split; intros; lra. }
    pose proof (whole_unique _ _ _ D X). pose proof (whole_unique _ _ _ D' Y). lia.
Qed.

(** All values negative: the reported maximum is 0. *)
Definition negative_feature nx ny : feature := mkFeature nx ny (-9999) (repeat (-5) (Z.to_nat (nx * ny))) (repeat true (Z.to_nat (nx * ny))) None.
Definition negative_params ms := mkParams 1 false true false QLT 0 1 ms.
Lemma negative_legal ms nx ny : 0 < nx -> 0 < ny -> nx * ny <= 1000 -> legal (negative_params ms) (negative_feature nx ny).
Proof.
  intros. constructor; cbn [negative_params negative_feature f_nx f_ny f_nodata f_dat f_msk f_mask l_radius]; try lia; auto; try (rewrite zlen_repeat; nia); try discriminate.
  apply Forall_forall. intros v I. apply repeat_spec in I. subst v. unfold in_short. lia.
Qed.
Theorem C74_maximum_refuted : exists pa ft v, legal pa ft /\ l_metrics pa = [LMAX] /\ landscape 40 pa ft [[4]] = Ret [(4, Some [v])] /\ ~ In v (f_dat ft) /\ Forall (fun x => x < v) (f_dat ft).
Proof.
  exists (negative_params [LMAX]), (negative_feature 3 3), 0. split; [apply negative_legal; lia|]. split; [reflexivity|]. split; [vm_compute; reflexivity|]. split; [intros I; apply repeat_spec in I; discriminate|].
  cbn. repeat constructor.
Qed.

(** ** C75: does the metric exist for every pixel? *)
Definition always_defined (m : lsm_metric) : bool := match m with UCI | FDI | NBR | LSTD | GEO => false | _ => true end.
Theorem C75_defined_partial pa ft fuel sched fg0 fg nobj res : legal pa ft -> Forall (fun p => 0 <= p < f_nx ft * f_ny ft) (concat sched) ->
  binary pa ft = Ret fg0 -> binary_to_objects fuel fg0 (f_nx ft) (f_ny ft) (l_minpatch pa) = Ret (fg, nobj, res) ->
  (forall m, In m (l_metrics pa) -> always_defined m = true) ->
  exists out, landscape fuel pa ft sched = Ret out /\ map fst out = concat sched /\ (res <> None -> forall p o, In (p, o) out -> (o <> None <-> wanted pa ft fg p)).
Proof.
  intros LG F B O A. destruct res as [(lab, sz)|].
  - destruct (C73_metrics_of_the_window pa ft fuel sched fg0 fg nobj lab sz LG F B O) as (SG & out & E & M & H).
    { intros p m _ _ I. specialize (A m I). destruct m; cbn in *; auto; discriminate. }
    exists out. split; auto. split; auto. intros _ p o I. destruct (H p o I) as (H1 & H2). split.
    + intros N. unfold wanted. destruct (on fg p) eqn:ON; [split; [apply (sg_class _ _ _ _ _ SG); auto|auto]|]. assert (0 <= p < f_nx ft * f_ny ft) as P. { rewrite Forall_forall in F. apply F. rewrite <- M. now apply (in_map fst) in I. }
      destruct (pixel_run pa ft fg lab nobj LG SG _ p P (reset_first pa nobj)) as [((W1 & [W2|W2]) & _)|(W & _)]; [congruence|auto|]. exfalso. apply N. auto.
    + intros W. destruct (H1 W) as (vs & -> & _). discriminate.
  - exists (map (fun p => (p, None)) (concat sched)). unfold landscape. rewrite B. cbn [bind]. rewrite O. cbn [bind]. split; auto. split; [|congruence]. rewrite map_map. apply map_id.
Qed.

Definition lone_feature : feature := mkFeature 3 3 (-9999) [1; 1; 1; 1; -5; 1; 1; 1; 1] (repeat true 9) None.
Lemma lone_legal ms : legal (negative_params ms) lone_feature.
Proof. constructor; cbn; try lia; auto; [repeat constructor; unfold in_short; lia|discriminate]. Qed.
(** One pixel has no standard deviation; the division 0/0 is converted to an integer. *)
Theorem C75_standard_deviation_refuted : exists pa ft, legal pa ft /\ l_metrics pa = [LSTD] /\ landscape 40 pa ft [[4]] = UB.
Proof. exists (negative_params [LSTD]), lone_feature. split; [apply lone_legal|]. split; [reflexivity|vm_compute; reflexivity]. Qed.
(** No positive value, no geometric mean. *)
Theorem C75_geometric_mean_refuted : exists pa ft, legal pa ft /\ l_metrics pa = [GEO] /\ landscape 40 pa ft [[4]] = UB.
Proof. exists (negative_params [GEO]), lone_feature. split; [apply lone_legal|]. split; [reflexivity|vm_compute; reflexivity]. Qed.
(** Only patches of one pixel, or one patch that fills the window: no fractal
    dimension. *)
Theorem C75_fractal_dimension_refuted :
  (exists pa ft, legal pa ft /\ l_metrics pa = [FDI] /\ landscape 40 pa ft [[4]] = UB) /\
  (exists pa ft, legal pa ft /\ l_metrics pa = [FDI] /\ (forall q, In q [6; 7; 8; 11; 12; 13; 16; 17; 18] -> in_class pa (val (f_dat ft) q)) /\ landscape 200 pa ft [[12]] = UB).
Proof.
  split.
  - exists (negative_params [FDI]), lone_feature. split; [apply lone_legal|]. split; [reflexivity|vm_compute; reflexivity].
  - exists (negative_params [FDI]), (negative_feature 5 5). split; [apply negative_legal; lia|]. split; auto. split.
    + intros q I. cbn [In] in I. repeat destruct I as [<- |I]; try destruct I; vm_compute; reflexivity.
    + vm_compute. reflexivity.
Qed.
(** Two pixels at the border of the image: their fractal dimension is -4, which is
    not representable after scaling. *)
Definition border_feature : feature := mkFeature 3 1 (-9999) [1; -5; -5] (repeat true 3) None.
Lemma border_legal ms : legal (negative_params ms) border_feature.
Proof. constructor; cbn; try lia; auto; [repeat constructor; unfold in_short; lia|discriminate]. Qed.
Definition border_fg := [false; true; true].
Definition border_lab := [0; 1; 1].
Lemma fdi_border : fdi 9 [(2, 1)] = UB.
Proof.
  unfold fdi. change (filter _ [(2, 1)]) with [(2, 1)]. change (forallb _ _ && _) with true. cbn iota. unfold rsum. cbn [map fold_left fst snd].
  assert (0 < ln 2)%R as L by (rewrite <- ln_1; apply ln_increasing; lra).
  replace (ln (1 / 4)) with (- (2 * ln 2))%R. 2: { replace (1 / 4)%R with (/ (2 * 2))%R by lra. rewrite ln_Rinv by lra. rewrite ln_mult by lra. ring. }
  replace ((0 + 2 / 9 * (2 * - (2 * ln 2)) / ln 2) / (0 + 2 / 9) * 10000)%R with (IZR (-40000)) by (field; lra).
  unfold short_of_real. rewrite Ztrunc_IZR. reflexivity.
Qed.
Theorem C75_fractal_range_refuted : exists pa ft, legal pa ft /\ l_metrics pa = [FDI] /\ landscape 40 pa ft [[1]] = UB.
Proof.
  exists (negative_params [FDI]), border_feature. split; [apply border_legal|]. split; auto. unfold landscape.
  assert (exists fg0, binary (negative_params [FDI]) border_feature = Ret fg0 /\ binary_to_objects 40 fg0 3 1 1 = Ret (border_fg, 1, Some (border_lab, [2]))) as (fg0 & B & O).
  { eexists. split; [vm_compute; reflexivity|]. vm_compute. reflexivity. }
  rewrite B. cbn [bind]. change (f_nx border_feature) with 3. change (f_ny border_feature) with 1. change (l_minpatch (negative_params [FDI])) with 1. rewrite O. cbn [bind omap thread].
  pose proof (segmented_ok _ _ _ _ _ _ _ _ (border_legal [FDI]) B O) as SG.
  destruct (pixel_run (negative_params [FDI]) border_feature border_fg border_lab 1 (border_legal _) SG (priv0 1 1) 1 ltac:(cbn; lia) eq_refl) as [(W & E)|(W & E)].
  2: { exfalso. apply W. split; [vm_compute; intuition congruence|now left]. }
  change (l_radius (negative_params [FDI])) with 1. rewrite E. cbn [omap l_metrics negative_params metric_value].
  change (patch_areas _) with (Ret [(2, 1)]). cbn [bind]. change (ksize _) with 9. rewrite fdi_border. reflexivity.
Qed.
(** Without any patch in the tile, no pixel has a value, although all pixels were
    requested and the area would be 0. *)
Theorem C75_all_pixels_refuted : exists pa ft, legal pa ft /\ l_metrics pa = [ARE] /\ l_allpx pa = true /\ (forall p, 0 <= p < f_nx ft * f_ny ft -> selected pa ft p) /\
  landscape 40 pa ft [[0; 1; 2]] = Ret [(0, None); (1, None); (2, None)].
Proof.
  exists (mkParams 1 false true true QGT 100 1 [ARE]), border_feature. split; [constructor; cbn; try lia; auto; [repeat constructor; unfold in_short; lia|discriminate]|]. split; auto. split; auto. split; [|vm_compute; reflexivity].
  intros p P. cbn in P. assert (p = 0 \/ p = 1 \/ p = 2) as [-> |[-> | ->]] by lia; vm_compute; intuition congruence.
Qed.
(** Bit-exact: whether a patch of one pixel is recognised as such depends on the
    radius (line 478 compares a rounded product with 1). *)
Theorem C75_single_pixels_refuted : single_pixel 5 = false /\ single_pixel 1 = true.
Proof. split; vm_compute; reflexivity. Qed.

Example C75_example : exists out, landscape 40 (scene_params [MPA; EMS; ARE]) scene [[7; 0; 14]] = Ret out /\ map fst out = [7; 0; 14].
Proof.
  destruct (scene_objects [MPA; EMS; ARE]) as (fg0 & B & O). destruct (C75_defined_partial (scene_params [MPA; EMS; ARE]) scene 40 [[7; 0; 14]] fg0 scene_fg 2 (Some (scene_lab, [3; 2])) (scene_legal _)) as (out & E & M & _); auto.
  - repeat constructor; cbn; lia.
  - intros m I. cbn in I. repeat destruct I as [<- |I]; auto.
  - eauto.
Qed.
Example C74_example : landscape 200 (negative_params [ARE; NBR; UCI; LMAX]) (negative_feature 5 4) [[7; 6]; [0; 19]] =
  Ret [(7, Some [9; 1; 1; 0]); (6, Some [8; 1; 1; 0]); (0, Some [3; 1; 0; 0]); (19, Some [4; 1; 1; 0])] /\
  (in_range ARE 9 /\ in_range NBR 1 /\ in_range LMAX 0).
Proof. split; [vm_compute; reflexivity|cbn; lia]. Qed.

Print Assumptions C73_metrics_of_the_window.
Print Assumptions C73_no_memory_of_other_pixels.
Print Assumptions C73_segmentation.
Print Assumptions C74_ranges.
Print Assumptions C74_effective_mesh_size_refuted.
Print Assumptions C74_maximum_refuted.
Print Assumptions C75_defined_partial.
Print Assumptions C75_standard_deviation_refuted.
Print Assumptions C75_geometric_mean_refuted.
Print Assumptions C75_fractal_dimension_refuted.
Print Assumptions C75_fractal_range_refuted.
Print Assumptions C75_all_pixels_refuted.
Print Assumptions C75_single_pixels_refuted.
