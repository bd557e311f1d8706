(** Properties of the reading of Level 1 images and of the coarse grid. *)
From Coq Require Import Reals Lra Lia.
From Flocq Require Import Core.
From Verif Require Import Base BaseFacts Loops RoundModel RoundFacts QaiModel QaiSpec StatsModel StatsSpec
  ImgSpec BufferModel BufferProps ChunkProofs L1Model L1Spec L1Proofs L1Cal.
#[local] Open Scope Z_scope.

(** ** C122: nodata and saturation *)
(** Without buffer and noise screening: every pixel gets a word; nodata are the pixels with
    a zero that no saturated band precedes, in particular all void pixels that are not
    saturated.  Valid pixels are flagged as saturated exactly where a band (not the thermal
    one) is.  No other flag is set.
    Missing: the zeros behind a saturated band, see C122_hidden_zero_refuted. *)
Theorem C122_masks_partial l bands nx ny : level1 bands nx ny -> p_buffer l = false -> (m_dtype l <> 8 \/ p_impulse l = false) ->
  exists r q, bounds_level1 l bands nx ny = Ret (r, q) /\ zlen q = nx * ny /\ forall p, 0 <= p < nx * ny -> exists w, get_at q p = Some w /\
    (nodata_word w <-> exists b, void_in bands (b_cirrus l) b p /\ forall b', b' < b -> ~ sat_in bands (b_temp l) (m_sat l) b' p) /\
    (~ saturated bands (b_temp l) (m_sat l) p -> (nodata_word w <-> void bands (b_cirrus l) p)) /\
    (~ nodata_word w -> (flag_value Saturation w = 1 <-> saturated bands (b_temp l) (m_sat l) p)) /\
    (forall f, f <> Off -> f <> Saturation -> flag_value f w = 0).
Proof.
  intros L NB NN. destruct (bounds_ok l bands nx ny L) as (s & off & q & M & OM & LO & E & LQ & FQ & K).
  assert (impulse_noise l bands nx ny q = Ret (SUCCESS, q)) as IN.
  { unfold impulse_noise. destruct (m_dtype l =? 8) eqn:D; cbn [negb]; auto. destruct NN as [N | N]; [lia|]. rewrite N. auto. }
  rewrite IN in E. exists (if (0 <=? b_temp l) && negb (existsb snd s) then FAILURE else SUCCESS), q.
  split; [rewrite E; destruct ((0 <=? b_temp l) && negb (existsb snd s)); auto|]. split; auto. intros p P.
  pose proof (proj1 M) as LS. destruct (get_at_some s p) as (x & GX); [lia|]. destruct (get_at_some off p) as (o & GO); [lia|].
  destruct (get_at_some q p) as (w & GW); [lia|]. exists w. split; auto.
  destruct (K p x o w GX GO GW) as (A & B & C). destruct (marks_off l bands nx ny s p x L M GX) as (MO & MS).
  unfold off_marks in OM. rewrite NB in OM. subst off. rewrite get_map, GX in GO. cbn [option_map] in GO. inversion GO as [EO].
  assert (nodata_word w <-> fst (fst x) = true) as NO. { unfold nodata_word. rewrite A, <- EO. destruct (fst (fst x)); cbn [b2z]; split; intros; auto; discriminate. }
  split; [rewrite NO; exact MO|]. split; [|split; [|exact C]].
  - intros NS. rewrite NO, MO. split.
    + intros (b & V & _). exists b. auto.
    + intros (b & V). exists b. split; auto. intros b' _ SV. apply NS. exists b'. auto.
  - intros N. rewrite NO in N. rewrite <- MS by (destruct (fst (fst x)); congruence). rewrite B. destruct (snd (fst x)); cbn [b2z]; split; intros; auto; discriminate.
Qed.

(** With a buffer of one pixel: void pixels that are not saturated and not at the border
    of the image, and their four neighbours, are nodata; each nodata pixel has a void
    pixel in its 3 x 3 window.  Missing: void pixels at the border (next but one). *)
Theorem C122_buffer_partial l bands nx ny : level1 bands nx ny -> p_buffer l = true -> (m_dtype l <> 8 \/ p_impulse l = false) ->
  exists r q, bounds_level1 l bands nx ny = Ret (r, q) /\ zlen q = nx * ny /\
    (forall i j i' j', 1 <= i < ny - 1 -> 1 <= j < nx - 1 -> void bands (b_cirrus l) (nx * i + j) -> ~ saturated bands (b_temp l) (m_sat l) (nx * i + j) ->
       Z.abs (i - i') + Z.abs (j - j') <= 1 -> exists w, get_at q (nx * i' + j') = Some w /\ nodata_word w) /\
    (forall i j w, 0 <= i < ny -> 0 <= j < nx -> get_at q (nx * i + j) = Some w -> nodata_word w ->
       exists i' j', 0 <= i' < ny /\ 0 <= j' < nx /\ Z.abs (i - i') <= 1 /\ Z.abs (j - j') <= 1 /\ void bands (b_cirrus l) (nx * i' + j')).
Proof.
  intros L NB NN. destruct (bounds_ok l bands nx ny L) as (s & off & q & M & OM & LO & E & LQ & FQ & K).
  assert (impulse_noise l bands nx ny q = Ret (SUCCESS, q)) as IN.
  { unfold impulse_noise. destruct (m_dtype l =? 8) eqn:D; cbn [negb]; auto. destruct NN as [N | N]; [lia|]. rewrite N. auto. }
  rewrite IN in E. exists (if (0 <=? b_temp l) && negb (existsb snd s) then FAILURE else SUCCESS), q.
  split; [rewrite E; destruct ((0 <=? b_temp l) && negb (existsb snd s)); auto|]. split; auto.
  pose proof (proj1 M) as LS. unfold off_marks in OM. rewrite NB in OM.
  assert (image (map (fun x => fst (fst x)) s) nx ny) as IM.
  { destruct L as (A & B & C & _). split; auto. split; auto. split; auto. rewrite zlen_map. auto. }
  split.
  - intros i j i' j' I J (b & V) NS D. assert (0 <= nx * i + j < nx * ny) as P by nia.
    destruct (get_at_some s (nx * i + j)) as (x & GX); [lia|]. destruct (marks_off l bands nx ny s _ x L M GX) as (MO & _).
    assert (fst (fst x) = true) as T. { apply MO. exists b. split; auto. intros b' _ SV. apply NS. exists b'. auto. }
    assert (is_true off nx ny i' j') as (_ & G).
    { apply (C35_covers_partial _ nx ny 1 off i j i' j' IM OM); try lia.
      - split; [unfold inside; lia|]. unfold pix. rewrite get_map, GX. cbn [option_map]. congruence.
      - assert (i = i' \/ j = j') as [-> | ->] by lia; rewrite Z.sub_diag; [assert (Z.abs (j - j') <= 1) by lia|assert (Z.abs (i - i') <= 1) by lia]; nia. }
    unfold pix in G. pose proof (get_at_inv _ _ _ G) as R. destruct (get_at_some q (nx * i' + j')) as (w & GW); [lia|]. exists w. split; auto.
    destruct (get_at_some s (nx * i' + j')) as (x' & GX'); [lia|]. destruct (K _ _ _ _ GX' G GW) as (A & _). exact A.
  - intros i j w I J GW ND. assert (0 <= nx * i + j < nx * ny) as P by nia.
    destruct (get_at_some s (nx * i + j)) as (x & GX); [lia|]. destruct (get_at_some off (nx * i + j)) as (o & GO); [lia|].
    destruct (K _ _ _ _ GX GO GW) as (A & _). assert (o = true) as -> by (unfold nodata_word in ND; rewrite A in ND; destruct o; auto; discriminate).
    destruct (C35_reach_partial _ nx ny 1 off i j IM OM ltac:(lia)) as (i' & j' & ((I' & J') & T) & D); [split; [split; auto|exact GO]|].
    assert (-1 <= i - i' <= 1) as D1 by (pose proof (Z.square_nonneg (j - j')); clear - D H; split; nia). assert (-1 <= j - j' <= 1) as D2 by (pose proof (Z.square_nonneg (i - i')); clear - D H; split; nia).
    exists i', j'. split; auto. split; auto. split; [lia|]. split; [lia|].
    unfold pix in T. rewrite get_map in T. destruct (get_at s (nx * i' + j')) as [y|] eqn:GY; [|discriminate]. cbn [option_map] in T. inversion T as [T'].
    apply (marks_off l bands nx ny s _ y L M GY) in T'. destruct T' as (b & V & _). exists b. auto.
Qed.

(** The image is refused if the thermal band holds no data, and not if one pixel is neither
    void nor saturated. *)
Theorem C122_thermal_partial l bands nx ny : level1 bands nx ny -> 0 <= b_temp l < zlen bands -> b_temp l <> b_cirrus l -> (m_dtype l <> 8 \/ p_impulse l = false) ->
  exists r q, bounds_level1 l bands nx ny = Ret (r, q) /\
    ((forall p v, dn_at bands (b_temp l) p v -> v = 0) -> r = FAILURE) /\
    ((exists p, 0 <= p < nx * ny /\ ~ void bands (b_cirrus l) p /\ ~ saturated bands (b_temp l) (m_sat l) p) -> r = SUCCESS).
Proof.
  intros L TB TC NN. destruct (bounds_ok l bands nx ny L) as (s & off & q & M & OM & LO & E & LQ & FQ & K).
  assert (impulse_noise l bands nx ny q = Ret (SUCCESS, q)) as IN.
  { unfold impulse_noise. destruct (m_dtype l =? 8) eqn:D; cbn [negb]; auto. destruct NN as [N | N]; [lia|]. rewrite N. auto. }
  rewrite IN in E. exists (if (0 <=? b_temp l) && negb (existsb snd s) then FAILURE else SUCCESS), q.
  split; [rewrite E; destruct ((0 <=? b_temp l) && negb (existsb snd s)); auto|]. destruct (marks_temp l bands nx ny s L M) as (A & B).
  replace (0 <=? b_temp l) with true by lia. cbn [andb]. split.
  - intros Z. destruct (existsb snd s) eqn:X; auto. destruct (A eq_refl) as (p & v & D & Q). exfalso. apply TC, Q. eapply Z; eauto.
  - intros V. rewrite (B TB V). auto.
Qed.
Example C122_example : level1 [[7; 0; 255; 9]; [1; 1; 1; 0]] 2 2 /\
  bounds_level1 (mkL1 8 255 false false (-1) 1 0 0 0) [[7; 0; 255; 9]; [1; 1; 1; 0]] 2 2 = Ret (SUCCESS, [0; 1; 512; 0]).
Proof.
  split; [|vm_compute; reflexivity]. split; [lia|]. split; [lia|]. split; [lia|]. intros d [<- | [<- | []]]; (split; [reflexivity|]); intros v I; cbn in I; lia.
Qed.

(** C122 is refuted: a saturated band hides a zero in a later band, the pixel is valid. *)
Theorem C122_hidden_zero_refuted : exists l bands nx ny q, level1 bands nx ny /\ p_buffer l = false /\ p_impulse l = false /\
  bounds_level1 l bands nx ny = Ret (SUCCESS, q) /\ void bands (b_cirrus l) 0 /\ exists w, get_at q 0 = Some w /\ ~ nodata_word w.
Proof.
  exists (mkL1 8 255 false false (-1) (-1) 0 1 2), [[255]; [0]], 1, 1, [512]. split.
  { split; [lia|]. split; [lia|]. split; [lia|]. intros d [<- | [<- | []]]; (split; [reflexivity|]); intros v I; cbn in I; lia. }
  split; [reflexivity|]. split; [reflexivity|]. split; [vm_compute; reflexivity|]. split.
  - exists 1. split; [cbn; lia|]. exists [0]. split; reflexivity.
  - exists 512. split; [reflexivity|]. intros H. discriminate H.
Qed.
(** C122 is refuted: with the buffer, a void pixel at the border of the image is valid,
    which it is not without the buffer. *)
Theorem C122_buffered_border_refuted : exists l l' bands nx ny q q', level1 bands nx ny /\ p_buffer l = true /\ l' = mkL1 (m_dtype l) (m_sat l) (p_impulse l) false (b_temp l) (b_cirrus l) (b_blue l) (b_green l) (b_red l) /\
  bounds_level1 l bands nx ny = Ret (SUCCESS, q) /\ bounds_level1 l' bands nx ny = Ret (SUCCESS, q') /\ void bands (b_cirrus l) 3 /\
  (exists w, get_at q 3 = Some w /\ ~ nodata_word w) /\ exists w, get_at q' 3 = Some w /\ nodata_word w.
Proof.
  exists (mkL1 16 65535 false true (-1) (-1) 0 1 2), (mkL1 16 65535 false false (-1) (-1) 0 1 2), [[5; 5; 5; 0; 5; 5; 5; 5; 5]], 3, 3, [0; 0; 0; 0; 0; 0; 0; 0; 0], [0; 0; 0; 1; 0; 0; 0; 0; 0].
  split. { split; [lia|]. split; [lia|]. split; [lia|]. intros d [<- | []]; (split; [reflexivity|]); intros v I; cbn in I; lia. }
  split; [reflexivity|]. split; [reflexivity|]. split; [vm_compute; reflexivity|]. split; [vm_compute; reflexivity|]. split.
  - exists 0. split; [cbn; lia|]. eexists. split; reflexivity.
  - split; [exists 0; split; [reflexivity|]; intros H; discriminate H|exists 1; split; reflexivity].
Qed.

(** ** C123: impulse noise *)
(** Not for images of more than 8 bit, not if not requested. *)
Theorem C123_only_on_request l bands nx ny q : (m_dtype l <> 8 \/ p_impulse l = false) -> impulse_noise l bands nx ny q = Ret (SUCCESS, q).
Proof.
  intros NN. unfold impulse_noise. destruct (m_dtype l =? 8) eqn:D; cbn [negb]; auto. destruct NN as [N | N]; [lia|]. rewrite N. auto.
Qed.
(** The screening never fails on an image with visible bands.  It leaves the border and
    nodata pixels alone and sets no flag but nodata.  A pixel is judged by the standard
    deviations of the blue, green and red band among the valid pixels of its 3 x 3 window,
    where earlier pixels (in reading order) that have been screened out do not count.
    It is removed if green or red exceeds both others by more than 15, only if green or red
    exceeds blue by more than 15, and exactly if one band stands out, unless blue is the
    largest or red is between blue and green.  Missing: these two cases (refuted below). *)
Theorem C123_screening_partial l bands nx ny q blue green red : level1 bands nx ny -> zlen q = nx * ny -> Forall in_short q ->
  m_dtype l = 8 -> p_impulse l = true -> get_at bands (b_blue l) = Some blue -> get_at bands (b_green l) = Some green -> get_at bands (b_red l) = Some red ->
  exists out, impulse_noise l bands nx ny q = Ret (SUCCESS, out) /\ zlen out = nx * ny /\
    (forall i j, 0 <= i < ny -> 0 <= j < nx -> i = 0 \/ i = ny - 1 \/ j = 0 \/ j = nx - 1 -> get_at out (i * nx + j) = get_at q (i * nx + j)) /\
    (forall i j, 1 <= i <= ny - 2 -> 1 <= j <= nx - 2 -> exists w w', get_at q (i * nx + j) = Some w /\ get_at out (i * nx + j) = Some w' /\
       (nodata_word w -> w' = w) /\ (forall f, f <> Off -> flag_value f w' = flag_value f w) /\
       (~ nodata_word w -> exists lb lg lr,
          window_values (seen q out (i * nx + j)) nx i j blue lb /\ window_values (seen q out (i * nx + j)) nx i j green lg /\ window_values (seen q out (i * nx + j)) nx i j red lr /\
          let b := spread lb in let g := spread lg in let r := spread lr in
          ((g > b + 15 /\ g > r + 15 \/ r > b + 15 /\ r > g + 15)%R -> nodata_word w') /\
          (nodata_word w' -> (g > b + 15 \/ r > b + 15)%R) /\
          (~ (g <= b /\ r <= b)%R -> ~ (b < r <= g)%R -> (nodata_word w' <-> stands_out 15 b g r)))).
Proof.
  intros L LQ FQ D P GB GG GR. destruct (noise_ok l bands nx ny q blue green red L LQ FQ D P GB GG GR) as (out & E & LO & FO & B & V).
  exists out. split; auto. split; auto. split; auto. intros i j I J. destruct (V i j I J) as (w & w' & G & G' & S1 & S2).
  pose proof (Forall_get_at _ _ _ _ FQ G) as W.
  assert (nodata_word w \/ ~ nodata_word w) as DN. { rewrite <- off_iff by auto. destruct (off_word w); auto. }
  exists w, w'. split; auto. split; auto. split; auto. split.
  { intros f N. destruct DN as [DN | DN]; [rewrite (S1 DN); auto|]. destruct (S2 DN) as (K & _). auto. }
  intros N. destruct (S2 N) as (_ & lb & lg & lr & W1 & W2 & W3 & IFF). cbn [fst snd] in *. exists lb, lg, lr.
  split; auto. split; auto. split; auto. cbv zeta. destruct (noisy_rule (spread lb) (spread lg) (spread lr)) as (R1 & R2 & R3). rewrite IFF. auto.
Qed.

Definition flat9 (c : Z) : list Z := [c; c; c; c; c; c; c; c; c].
Definition spike9 (c m : Z) : list Z := [c; c; c; c; m; c; c; c; c].
Definition nine : list Z := [0; 1; 2; 3; 4; 5; 6; 7; 8].
Lemma spread_flat c : spread (map IZR (flat9 c)) = 0%R.
Proof. unfold spread, dev, mean, sum, size, flat9. cbn [map length INR]. replace (_ / _)%R with 0%R by field. apply sqrt_0. Qed.
Lemma spread_spike : spread (map IZR (spike9 10 100)) = 30%R.
Proof.
  unfold spread, dev, mean, sum, size, spike9. cbn [map length INR]. replace (_ / _)%R with (30 * 30)%R by field. apply sqrt_square. lra.
Qed.
Lemma sd_band band : zlen band = 9 -> sd_of band nine = Ret (spread (map IZR band)).
Proof.
  intros L. destruct (sd_ok band nine) as (l & E & F); [discriminate|intros q I; cbn in I; lia|]. rewrite E. do 2 f_equal.
  clear E. do 9 (destruct band as [|? band]; [discriminate L|]). destruct band; [|unfold zlen in L; cbn in L; lia].
  unfold nine in F. repeat match goal with H : Forall2 _ (_ :: _) _ |- _ => inversion H; clear H; subst end.
  match goal with H : Forall2 _ [] _ |- _ => inversion H; clear H; subst end.
  repeat match goal with H : exists v, get_at _ _ = Some v /\ _ |- _ => destruct H as (? & H & ->); vm_compute in H; inversion H; clear H; subst end. reflexivity.
Qed.
Lemma nine_window band : zlen band = 9 -> window_values (get_at (flat9 0)) 3 1 1 band (map IZR band).
Proof.
  intros L. exists nine. split; [|split].
  - unfold nine. repeat (constructor; [cbn [In]; lia|]). constructor.
  - intros q. split.
    + intros I. cbn in I. split.
      * exists (q / 3 - 1), (q mod 3 - 1). pose proof (Z.div_mod q 3 ltac:(lia)). pose proof (Z.mod_pos_bound q 3 ltac:(lia)). lia.
      * exists 0. split; [|intros H; discriminate H]. repeat (destruct I as [<- | I]; [reflexivity|]). destruct I.
    + intros ((a & b & A & B & ->) & _). unfold nine. cbn [In]. lia.
  - do 9 (destruct band as [|? band]; [discriminate L|]). destruct band; [|unfold zlen in L; cbn in L; lia].
    unfold nine. cbn [map]. repeat (constructor; [eexists; split; reflexivity|]). constructor.
Qed.
Definition vis : l1par := mkL1 8 255 true false (-1) (-1) 0 1 2.
Lemma vis_level1 b g r : zlen b = 9 -> zlen g = 9 -> zlen r = 9 -> (forall v, In v (b ++ g ++ r) -> 0 <= v <= 65535) -> level1 [b; g; r] 3 3.
Proof.
  intros B G R V. split; [lia|]. split; [lia|]. split; [lia|]. intros d [<- | [<- | [<- | []]]]; (split; [auto|]); intros v I; apply V, in_or_app; auto; right; apply in_or_app; auto.
Qed.
Lemma vis_run b g r : zlen b = 9 -> zlen g = 9 -> zlen r = 9 ->
  impulse_noise vis [b; g; r] 3 3 (flat9 0) = Ret (SUCCESS, if Rlt_bool 15 (excess (spread (map IZR b)) (spread (map IZR g)) (spread (map IZR r))) then [0; 0; 0; 0; 1; 0; 0; 0; 0] else flat9 0).
Proof.
  intros B G R. unfold impulse_noise. cbn [m_dtype p_impulse vis negb Z.eqb Pos.eqb b_blue b_green b_red].
  change (get_at [b; g; r] 0) with (Some b). change (get_at [b; g; r] 1) with (Some g). change (get_at [b; g; r] 2) with (Some r).
  replace ((0 <? 0) || (1 <? 0) || (2 <? 0)) with false by reflexivity. cbn [of_option bind].
  change (inner 3 3) with [(1, 1)]. cbn [ofold]. unfold noise_step. cbn [fst snd].
  change (get_at (flat9 0) (1 * 3 + 1)) with (Some 0). cbn [of_option bind]. change (off_word 0) with false. cbn [bind].
  assert (keep_valid (flat9 0) (near 3 1 1) = Ret nine) as -> by (vm_compute; reflexivity). cbn [bind].
  change (zlen nine >? 0) with true. rewrite !sd_band by auto. cbn [bind].
  destruct (Rlt_bool 15 _); [|reflexivity]. assert (set_flag_at Off (flat9 0) (1 * 3 + 1) 1 = Ret [0; 0; 0; 0; 1; 0; 0; 0; 0]) as -> by (vm_compute; reflexivity). reflexivity.
Qed.
Example C123_example : level1 [flat9 10; flat9 10; spike9 10 100] 3 3 /\ impulse_noise vis [flat9 10; flat9 10; spike9 10 100] 3 3 (flat9 0) = Ret (SUCCESS, [0; 0; 0; 0; 1; 0; 0; 0; 0]).
Proof.
  split; [apply vis_level1; try reflexivity; intros v I; cbn in I; lia|]. rewrite vis_run by reflexivity. rewrite spread_flat. rewrite spread_spike.
  replace (Rlt_bool 15 (excess 0 0 30)) with true; auto. symmetry. apply excess_noisy. unfold noisy. lra.
Qed.
(** C123 is refuted: noise in the blue band alone is not found. *)
Theorem C123_blue_refuted : exists l bands q blue green red lb lg lr out, level1 bands 3 3 /\ m_dtype l = 8 /\ p_impulse l = true /\
  get_at bands (b_blue l) = Some blue /\ get_at bands (b_green l) = Some green /\ get_at bands (b_red l) = Some red /\
  window_values (get_at q) 3 1 1 blue lb /\ window_values (get_at q) 3 1 1 green lg /\ window_values (get_at q) 3 1 1 red lr /\
  stands_out 15 (spread lb) (spread lg) (spread lr) /\ impulse_noise l bands 3 3 q = Ret (SUCCESS, out) /\ get_at out 4 = Some 0 /\ ~ nodata_word 0.
Proof.
  exists vis, [spike9 10 100; flat9 10; flat9 10], (flat9 0), (spike9 10 100), (flat9 10), (flat9 10), (map IZR (spike9 10 100)), (map IZR (flat9 10)), (map IZR (flat9 10)), (flat9 0).
  split; [apply vis_level1; try reflexivity; intros v I; cbn in I; lia|]. do 5 (split; [reflexivity|]).
  do 3 (split; [apply nine_window; reflexivity|]). rewrite vis_run by reflexivity. rewrite spread_flat, spread_spike.
  split; [left; lra|]. split; [|split; [reflexivity|intros H; discriminate H]].
  destruct (Rlt_bool 15 (excess 30 0 0)) eqn:X; auto. apply excess_noisy in X. unfold noisy in X. lra.
Qed.
(** C123 is refuted: a pixel is removed although two bands vary alike (a real structure). *)
Theorem C123_two_bands_refuted : exists l bands q blue green red lb lg lr out, level1 bands 3 3 /\ m_dtype l = 8 /\ p_impulse l = true /\
  get_at bands (b_blue l) = Some blue /\ get_at bands (b_green l) = Some green /\ get_at bands (b_red l) = Some red /\
  window_values (get_at q) 3 1 1 blue lb /\ window_values (get_at q) 3 1 1 green lg /\ window_values (get_at q) 3 1 1 red lr /\
  ~ stands_out 15 (spread lb) (spread lg) (spread lr) /\ impulse_noise l bands 3 3 q = Ret (SUCCESS, out) /\ get_at out 4 = Some 1 /\ nodata_word 1.
Proof.
  exists vis, [flat9 10; spike9 10 100; spike9 10 100], (flat9 0), (flat9 10), (spike9 10 100), (spike9 10 100), (map IZR (flat9 10)), (map IZR (spike9 10 100)), (map IZR (spike9 10 100)), [0; 0; 0; 0; 1; 0; 0; 0; 0].
  split; [apply vis_level1; try reflexivity; intros v I; cbn in I; lia|]. do 5 (split; [reflexivity|]).
  do 3 (split; [apply nine_window; reflexivity|]). rewrite vis_run by reflexivity. rewrite spread_flat, spread_spike.
  split; [unfold stands_out; lra|]. split; [|split; reflexivity].
  replace (Rlt_bool 15 (excess 0 30 30)) with true; auto. symmetry. apply excess_noisy. unfold noisy. lra.
Qed.

(** ** C124: Sentinel-2 *)
(** With the scale 10000 of the products the stored value is the digital number plus the
    offset, or one closer to zero; it does not decrease with the digital number.
    Missing: exactly the number, see C124_unchanged_refuted. *)
Theorem C124_stored_partial dn dn' radd : 0 <= dn <= dn' -> dn' <= 65535 -> -10000 <= radd <= 10000 -> dn' + radd <= 32767 ->
  exists v v', toa_sentinel dn (IZR radd) 10000 10000 = Ret v /\ toa_sentinel dn' (IZR radd) 10000 10000 = Ret v' /\ v <= v' /\
    (0 <= dn + radd -> dn + radd - 1 <= v <= dn + radd) /\ (dn + radd <= 0 -> dn + radd <= v <= dn + radd + 1).
Proof.
  intros D D' A S. pose proof (trunc_close _ _ (toa_close dn radd ltac:(lia) ltac:(lia))) as (T1 & T2). pose proof (trunc_close _ _ (toa_close dn' radd ltac:(lia) ltac:(lia))) as (T1' & T2').
  unfold toa_sentinel. rewrite !short_of_ok by lia. eexists. eexists. split; [reflexivity|]. split; [reflexivity|]. split; [|split; [exact T1|exact T2]].
  apply Ztrunc_le. unfold fmul, fdiv, fadd. apply rnd32_le, Rmult_le_compat_r; [lra|]. apply rnd32_le, Rmult_le_compat_r; [lra|]. apply rnd32_le, Rplus_le_compat_r, IZR_le. lia.
Qed.
Lemma seven : fmul (fdiv (fadd 7 0) 10000) 10000 = (14680063 * bpow radix2 (-21))%R.
Proof.
  unfold fadd. rewrite Rplus_0_r, (rnd32_int 7) by reflexivity. unfold fdiv. rewrite (rnd32_near 12025908 (-34)); [|lia|lia|].
  - unfold fmul. apply (rnd32_near 14680063 (-21)); [lia|lia|]. change (bpow radix2 (-34)) with (/ 17179869184)%R. change (bpow radix2 (-21)) with (/ 2097152)%R. apply Rabs_def1; lra.
  - change (bpow radix2 (-34)) with (/ 17179869184)%R. apply Rabs_def1; lra.
Qed.
(** C124 is refuted: the digital number 7 (offset 0) is stored as 6. *)
Theorem C124_unchanged_refuted : exists dn v, 0 <= dn <= 65535 /\ toa_sentinel dn 0 10000 10000 = Ret v /\ v <> dn.
Proof.
  exists 7, 6. split; [lia|]. split; [|lia]. unfold toa_sentinel. rewrite seven. change (bpow radix2 (-21)) with (/ 2097152)%R.
  assert (Ztrunc (14680063 * / 2097152) = 6) as E. { rewrite Ztrunc_floor by lra. apply Zfloor_imp. split; cbn; lra. }
  rewrite short_of_ok by lia. congruence.
Qed.
(** C124 is refuted: digital numbers above 32767 leave the range of the type. *)
Theorem C124_defined_refuted dn : 32769 <= dn <= 65535 -> toa_sentinel dn 0 10000 10000 = UB.
Proof.
  intros D. unfold toa_sentinel. pose proof (trunc_close _ _ (toa_close dn 0 ltac:(lia) ltac:(lia))) as (T & _). apply short_of_UB. lia.
Qed.
Example C124_example : toa_sentinel 0 0 10000 10000 = Ret 0 /\ exists v, toa_sentinel 5000 (-1000) 10000 10000 = Ret v /\ 3999 <= v <= 4000.
Proof.
  split.
  - destruct (C124_stored_partial 0 0 0) as (v & _ & E & _ & _ & A & B); try lia. rewrite E. f_equal. lia.
  - destruct (C124_stored_partial 5000 5000 (-1000)) as (v & _ & E & _ & _ & A & B); try lia. exists v. split; auto. lia.
Qed.

(** ** C125: Landsat *)
(** Reflectance of zero or below (more precisely, below the smallest normal float) makes
    the pixel nodata, except in the cirrus band where zero is stored; all later bands of
    the pixel are nodata too.  The pixel is nodata afterwards if and only if it was before
    or such a reflectance occurs before. *)
Theorem C125_nodata btemp bcir pd sun : forall bands b off vs off', convert_pixel btemp bcir pd sun bands b off = Ret (vs, off') ->
  length vs = length bands /\
  (off' = true <-> off = true \/ exists k c dn, get_at bands k = Some (c, dn) /\ b + k <> btemp /\ b + k <> bcir /\ (reflectance c pd sun dn < flt_min)%R) /\
  (off = true -> forall v, In v vs -> v = -9999) /\
  (off' = false -> forall k v, get_at vs k = Some v -> 0 <= v <= 32767 \/ exists c dn, get_at bands k = Some (c, dn) /\ b + k = btemp).
Proof.
  induction bands as [|(c, dn) bs IH]; intros b off vs off'; cbn [convert_pixel].
  - intros E. inversion E; subst. split; auto. split; [|split].
    + split; auto. intros [H | (k & c & dn & G & _)]; auto. apply get_at_inv in G. unfold zlen in G. cbn in G. lia.
    + intros _ v [].
    + intros _ k v G. apply get_at_inv in G. unfold zlen in G. cbn in G. lia.
  - match goal with |- (v <- ?e ;; _) = _ -> _ => destruct e as [(v, o)| |] eqn:EV end; try discriminate. cbn [bind fst snd].
    destruct (convert_pixel btemp bcir pd sun bs (b + 1) o) as [(vs1, o1)| |] eqn:EC; try discriminate. cbn [bind fst snd]. intros E. inversion E; subst. clear E.
    destruct (IH _ _ _ _ EC) as (L & A & B & C).
    assert (o = true <-> off = true \/ (b <> btemp /\ b <> bcir /\ (reflectance c pd sun dn < flt_min)%R)) as HO.
    { destruct off; [inversion EV; subst; tauto|]. destruct (b =? btemp) eqn:BT.
      - destruct (temperature c (radiance c dn)); cbn [bind] in EV; try discriminate. inversion EV; subst. split; [discriminate|]. intros [|(? & _)]; [discriminate|lia].
      - apply store_cases in EV. destruct EV as [(H & EV) | (H & EV & _)].
        + destruct (b =? bcir) eqn:BC; inversion EV; subst.
          * split; [discriminate|]. intros [X | (_ & X & _)]; [discriminate|lia].
          * split; [intros _; right|auto]. split; [lia|]. split; [lia|auto].
        + inversion EV; subst. split; [discriminate|]. intros [X | (_ & _ & X)]; [discriminate|lra]. }
    split; [cbn [length]; congruence|]. split; [|split].
    + rewrite A, HO. split.
      * intros [[H | H] | (k & c0 & dn0 & G & N1 & N2 & R)]; auto.
        -- right. exists 0, c, dn. rewrite get_cons_0, Z.add_0_r. tauto.
        -- right. exists (k + 1), c0, dn0. split; [apply cons_get; eauto using get_nn|]. replace (b + (k + 1)) with (b + 1 + k) by lia. auto.
      * intros [H | (k & c0 & dn0 & G & N1 & N2 & R)]; auto. destruct (cons_cases _ _ _ _ G) as [(-> & X) | (K & G')].
        -- inversion X; subst. rewrite Z.add_0_r in *. left. right. auto.
        -- right. exists (k - 1), c0, dn0. replace (b + 1 + (k - 1)) with (b + k) by lia. auto.
    + intros ->. inversion EV; subst. intros x [<- | I]; auto.
    + intros O k x G. assert (o = false) as OF. { destruct o; auto. exfalso. assert (off' = true) by (apply A; auto). congruence. }
      destruct (cons_cases _ _ _ _ G) as [(-> & ->) | (K & G')].
      * destruct off; [inversion EV; congruence|]. destruct (b =? btemp) eqn:BT; [right; exists c, dn; rewrite get_cons_0; split; [auto|lia]|].
        left. apply store_cases in EV. destruct EV as [(H & EV) | (H & EV & R)]; [destruct (b =? bcir)|]; inversion EV; subst; [lia|discriminate|auto].
      * destruct (C O _ _ G') as [R | (c0 & dn0 & G0 & X)]; auto. right. exists c0, dn0. split; [|lia]. replace k with (k - 1 + 1) by lia. apply cons_get; auto. lia.
Qed.
(** Brighter digital numbers never give smaller values (nodata counts as smallest). *)
Lemma radiance_mono c d d' : (0 <= gain c)%R -> d <= d' -> (radiance c d <= radiance c d')%R.
Proof.
  intros G L. unfold radiance, fadd, fmul, fsub. apply rnd32_le, Rplus_le_compat_r, rnd32_le, Rmult_le_compat_l; auto. apply rnd32_le. apply Rplus_le_compat_r, IZR_le; auto.
Qed.
Theorem C125_reflectance_monotone c pd sun cir d d' v v' : (c_rmul c <> -32768 /\ 0 < c_rmul c /\ 0 < sun \/ c_rmul c = -32768 /\ 0 <= gain c /\ 0 <= pd /\ 0 < fmul (c_e0 c) sun)%R ->
  d <= d' -> store_reflectance cir (reflectance c pd sun d) = Ret v -> store_reflectance cir (reflectance c pd sun d') = Ret v' ->
  fst v <= fst v' /\ (snd v' = true -> snd v = true) /\ -9999 <= fst v /\ fst v' <= 32767.
Proof.
  intros H L E E'. assert (reflectance c pd sun d <= reflectance c pd sun d')%R as M.
  { destruct H as [(N & P & S) | (F & G & P & S)]; [apply reflectance_mono; auto|]. unfold reflectance. rewrite F, !Req_bool_true by auto.
    apply rnd32_le, Rmult_le_compat_r; [apply Rlt_le, Rinv_0_lt_compat; auto|]. apply rnd32_le, Rmult_le_compat_r; auto. apply radiance_mono; auto. }
  apply store_cases in E, E'.
  assert (0 < flt_min)%R as FP by apply bpow_gt_0.
  assert (Ztrunc (fmul (reflectance c pd sun d) 10000) <= Ztrunc (fmul (reflectance c pd sun d') 10000)) as TM.
  { apply Ztrunc_le. apply rnd32_le. apply Rmult_le_compat_r; [lra|auto]. }
  destruct E as [(A & ->) | (A & -> & B)], E' as [(A' & ->) | (A' & -> & B')]; cbn [fst snd].
  - destruct cir; cbn [fst snd]; (split; [lia|]; split; [auto|]; lia).
  - destruct cir; cbn [fst snd]; (split; [lia|]; split; [discriminate|]; lia).
  - exfalso. lra.
  - split; [lia|]. split; [discriminate|]. lia.
Qed.
(** With the usual calibration the stored value is within 1.1 of the reflectance times 10000,
    for reflectances between 0.0002 and 3.2766.
    Missing: reflectances outside, see C125_bright_refuted. *)
Theorem C125_reflectance_partial c pd sun d cir : (c_rmul c <> -32768 -> (0 <= d <= 65535)%Z -> 0 <= c_rmul c * 65535 <= 2 -> Rabs (c_radd c) <= 1 -> / 10 <= sun <= 1 ->
  2 / 10000 <= (c_radd c + c_rmul c * IZR d) / sun <= 32766 / 10000 ->
  exists v, store_reflectance cir (reflectance c pd sun d) = Ret (v, false) /\ Rabs (IZR v - 10000 * ((c_radd c + c_rmul c * IZR d) / sun)) <= 11 / 10)%R.
Proof. apply stored_close. Qed.
(** C125 is refuted: a reflectance above 3.2767 (bright target, low sun) leaves the range of
    the type. *)
Theorem C125_bright_refuted : exists c d sun, (c_rmul c = 2 / 100000 /\ c_radd c = - (1 / 10) /\ 0 <= IZR d <= 65535 /\ / 10 <= sun <= 1)%R /\
  forall pd cir, store_reflectance cir (reflectance c pd sun d) = UB.
Proof.
  exists (mkCal 0 0 0 0 (2 / 100000) (- (1 / 10)) 0 0 0), 40000, (2 / 10)%R. cbn [c_rmul c_radd]. split.
  - split; auto. split; auto. split; lra.
  - intros pd cir. apply stored_overflow; cbn [c_rmul c_radd]; [lra|lia|lra|apply Rabs_le; lra|lra|]. replace ((- (1 / 10) + 2 / 100000 * 40000) / (2 / 10))%R with (35 / 10)%R by field. lra.
Qed.
Definition half_cal (radd : R) : cal := mkCal 0 0 0 0 (/ 32768) radd 0 0 0.
(** C125 is refuted: a nodata pixel is not nodata in all bands; the bands before the one
    that made it nodata keep their values. *)
Theorem C125_all_bands_refuted : exists bands vs, convert_pixel (-1) (-1) 1 1 bands 0 false = Ret (vs, true) /\ In 5000 vs.
Proof.
  exists [(half_cal 0, 16384); (half_cal (-1), 0)], [5000; -9999]. split; [|left; auto].
  assert (reflectance (half_cal 0) 1 1 16384 = / 2)%R as E1.
  { unfold reflectance, half_cal. cbn [c_rmul c_radd]. rewrite Req_bool_false by lra. unfold fdiv, fadd, fmul.
    replace (/ 32768 * 16384)%R with (IZR 1 / 2)%R by (cbn; lra). rewrite (rnd32_half 1) by reflexivity. rewrite Rplus_0_l, (rnd32_half 1) by reflexivity.
    unfold Rdiv. rewrite Rinv_1, Rmult_1_r. change (rnd32 (IZR 1 / 2) = / 2)%R. rewrite (rnd32_half 1) by reflexivity. lra. }
  assert (reflectance (half_cal (-1)) 1 1 0 = -1)%R as E2.
  { unfold reflectance, half_cal. cbn [c_rmul c_radd]. rewrite Req_bool_false by lra. unfold fdiv, fadd, fmul. rewrite Rmult_0_r, rnd32_0, Rplus_0_r, (rnd32_int (-1)) by reflexivity.
    unfold Rdiv. rewrite Rinv_1, Rmult_1_r. apply (rnd32_int (-1)). reflexivity. }
  cbn [convert_pixel]. change (0 =? -1) with false. change (0 + 1 =? -1) with false. cbv iota. rewrite E1. unfold store_reflectance.
  assert (flt_min <= / 2)%R as FM. { unfold flt_min. change (/ 2)%R with (bpow radix2 (-1)). apply bpow_le. lia. }
  rewrite (Rlt_bool_false (/ 2)) by auto. unfold fmul. replace (/ 2 * 10000)%R with (IZR 5000) by (cbn; lra). rewrite (rnd32_int 5000) by reflexivity.
  rewrite short_of_ok by (rewrite Ztrunc_IZR; lia). rewrite Ztrunc_IZR. cbn [bind fst snd]. rewrite E2.
  assert (0 < flt_min)%R by apply bpow_gt_0. rewrite Rlt_bool_true by lra. reflexivity.
Qed.
(** The brightness temperature is defined for positive radiances and grows with them; it is
    at most 32767. *)
Theorem C125_temperature_monotone c rad rad' : (0 < c_k1 c -> 0 < c_k2 c -> 0 < rad -> rad <= rad' ->
  exists v v', temperature c rad = Ret v /\ temperature c rad' = Ret v' /\ (0 <= v <= v' /\ v' <= 32767)%Z)%R.
Proof. apply temperature_mono. Qed.
(** Between about 1/10000 and 1 times k1 the stored value is the Planck temperature in
    hundredths of a Kelvin, within 1.1, up to 327.66 K. *)
Theorem C125_temperature_close c rad : (0 < c_k1 c -> 0 < c_k2 c <= 3000 -> 0 < rad -> 1 <= c_k1 c / rad <= 10000 ->
  100 * c_k2 c / ln (c_k1 c / rad + 1) <= 32766 ->
  exists v, temperature c rad = Ret v /\ Rabs (IZR v - 100 * c_k2 c / ln (c_k1 c / rad + 1)) <= 11 / 10)%R.
Proof. apply temperature_close. Qed.
Example C125_example : exists v, (temperature (mkCal 0 0 0 0 0 0 600 (300 * ln 101) 0) 6 = Ret v /\ Rabs (IZR v - 30000) <= 11 / 10)%R.
Proof.
  assert (0 < ln 101)%R as LP. { rewrite <- ln_1. apply ln_increasing; lra. }
  assert (ln 101 <= 10)%R as LU.
  { rewrite <- (ln_exp 10). apply ln_mono; [lra|]. assert (6 <= exp 5)%R as E5 by (pose proof (exp_ineq1 5 ltac:(lra)); lra).
    assert (2 <= exp 1)%R as E1 by (pose proof (exp_ineq1 1 ltac:(lra)); lra).
    replace 10%R with (1 + (1 + (1 + (1 + (1 + 5)))))%R by lra. rewrite !exp_plus. set (a := exp 1) in *. set (b := exp 5) in *. clearbody a b.
    assert (12 <= a * b)%R as P1 by nra. assert (24 <= a * (a * b))%R as P2 by nra. assert (48 <= a * (a * (a * b)))%R as P3 by nra. assert (96 <= a * (a * (a * (a * b))))%R as P4 by nra. nra. }
  assert (600 / 6 = 100)%R as Q by field.
  destruct (C125_temperature_close (mkCal 0 0 0 0 0 0 600 (300 * ln 101) 0) 6) as (v & E & A); cbn [c_k1 c_k2] in *; try lra.
  - rewrite Q. replace (100 + 1)%R with 101%R by lra. replace (100 * (300 * ln 101) / ln 101)%R with 30000%R by (field; lra). lra.
  - exists v. split; auto. rewrite Q in A. replace (100 + 1)%R with 101%R in A by lra. replace (100 * (300 * ln 101) / ln 101)%R with 30000%R in A by (field; lra). exact A.
Qed.

(** ** C126: coarse grid *)
(** Resolutions in whole units: every pixel of the image has a cell of the coarse grid,
    inside the grid, that contains its upper left corner. *)
Theorem C126_cell_in_grid nx ny res cres p : 0 < nx -> 0 < ny -> 0 < res -> 0 < cres < 1000000000000 -> nx * res < 1000000000000 -> ny * res < 1000000000000 -> 0 <= p < nx * ny ->
  let cnx := coarse_cells nx (IZR res) (IZR cres) in let cny := coarse_cells ny (IZR res) (IZR cres) in
  let c := convert_p2p nx (IZR res) cnx (IZR cres) p in
  0 < cnx /\ 0 < cny /\ 0 <= c < cnx * cny /\ c = cnx * (p / nx * res / cres) + p mod nx * res / cres /\
  (exists ci cj, c = cnx * ci + cj /\ 0 <= ci < cny /\ 0 <= cj < cnx /\ ci * cres <= p / nx * res < (ci + 1) * cres /\ cj * cres <= p mod nx * res < (cj + 1) * cres) /\
  (cnx - 1) * cres < nx * res <= cnx * cres /\ (cny - 1) * cres < ny * res <= cny * cres.
Proof.
  intros NX NY R C BX BY P. cbv zeta.
  pose proof (Z.div_mod p nx ltac:(lia)) as DM. pose proof (Z.mod_pos_bound p nx ltac:(lia)) as MB.
  assert (0 <= p / nx < ny) as DB by (split; [apply Z.div_pos; lia|apply Z.div_lt_upper_bound; lia]).
  assert (forall k, 0 <= k * res < 1000000000000 -> to_coarse k (IZR res) (IZR cres) = k * res / cres) as TC.
  { intros k K. unfold to_coarse. rewrite <- mult_IZR, rnd64_int by lia. apply floor_quotient; lia. }
  assert (forall k, 0 <= k * res < 1000000000000 -> coarse_cells k (IZR res) (IZR cres) = - (- (k * res) / cres)) as CC.
  { intros k K. unfold coarse_cells. rewrite <- mult_IZR, rnd64_int by lia. apply floor_quotient; lia. }
  assert (forall k n, 0 <= k < n -> n * res < 1000000000000 -> 0 <= k * res / cres < - (- (n * res) / cres) /\ k * res / cres * cres <= k * res < (k * res / cres + 1) * cres /\ (- (- (n * res) / cres) - 1) * cres < n * res <= - (- (n * res) / cres) * cres) as CELL.
  { intros k n K N. pose proof (Z.div_mod (k * res) cres ltac:(lia)) as E1. pose proof (Z.mod_pos_bound (k * res) cres ltac:(lia)) as M1.
    pose proof (Z.div_mod (- (n * res)) cres ltac:(lia)) as E2. pose proof (Z.mod_pos_bound (- (n * res)) cres ltac:(lia)) as M2.
    assert (0 <= k * res / cres) by (apply Z.div_pos; nia).
    assert (k * res < n * res) as KN by (apply Z.mul_lt_mono_pos_r; lia).
    set (a := k * res / cres) in *. set (b := - (n * res) / cres) in *. set (x := k * res) in *. set (y := n * res) in *. set (r1 := x mod cres) in *. set (r2 := - y mod cres) in *.
    clearbody a b x y r1 r2. clear - C E1 M1 E2 M2 H KN. assert (cres * a < cres * - b) as AB by lia. apply Z.mul_lt_mono_pos_l in AB; [|lia].
    split; [lia|]. split; split; lia. }
  assert (forall k n, 0 <= k < n -> n * res < 1000000000000 -> 0 <= k * res < 1000000000000) as RG by (intros k n K N; assert (k * res < n * res) by (apply Z.mul_lt_mono_pos_r; lia); assert (0 <= k * res) by (apply Z.mul_nonneg_nonneg; lia); lia).
  unfold convert_p2p. replace (p - p / nx * nx) with (p mod nx) by lia.
  rewrite (TC (p / nx)) by eauto. rewrite (TC (p mod nx)) by eauto. rewrite !CC by (split; [apply Z.mul_nonneg_nonneg; lia|lia]).
  destruct (CELL (p / nx) ny DB BY) as (I1 & I2 & I3). destruct (CELL (p mod nx) nx MB BX) as (J1 & J2 & J3).
  set (ci := p / nx * res / cres) in *. set (cj := p mod nx * res / cres) in *. set (cnx := - (- (nx * res) / cres)) in *. set (cny := - (- (ny * res) / cres)) in *.
  clearbody ci cj cnx cny. clear - I1 I2 I3 J1 J2 J3. split; [clear - J1; lia|]. split; [clear - I1; lia|]. split; [clear - I1 J1; nia|]. split; [ring|]. split; [exists ci, cj; split; [ring|auto]|]. auto.
Qed.
Example C126_example : coarse_cells 10980 10 5000 = 22 /\ convert_p2p 10980 10 22 5000 (10980 * 600 + 501) = 23.
Proof.
  destruct (C126_cell_in_grid 10980 10980 10 5000 (10980 * 600 + 501)) as (_ & _ & _ & E & _ & B & _); try lia. cbv zeta in *.
  assert (coarse_cells 10980 10 5000 = 22) as X by lia. split; auto. rewrite X in E. rewrite E. reflexivity.
Qed.
(** C126, "every cell of the grid contains a pixel", is refuted: 167 pixels of 30 m need
    two cells of 5 km, but all of them begin in the first one. *)
Theorem C126_empty_cell_refuted : exists nx res cres, coarse_cells nx (IZR res) (IZR cres) = 2 /\ forall k, 0 <= k < nx -> to_coarse k (IZR res) (IZR cres) = 0.
Proof.
  exists 167, 30, 5000. split.
  - unfold coarse_cells. rewrite <- mult_IZR, rnd64_int by lia. apply (floor_quotient (167 * 30) 5000); lia.
  - intros k K. unfold to_coarse. rewrite <- mult_IZR, rnd64_int by lia. rewrite (proj1 (floor_quotient (k * 30) 5000 ltac:(lia) ltac:(lia))). apply Z.div_small. lia.
Qed.

Print Assumptions C122_masks_partial.
Print Assumptions C122_buffer_partial.
Print Assumptions C122_thermal_partial.
Print Assumptions C122_hidden_zero_refuted.
Print Assumptions C122_buffered_border_refuted.
Print Assumptions C123_only_on_request.
Print Assumptions C123_screening_partial.
Print Assumptions C123_blue_refuted.
Print Assumptions C123_two_bands_refuted.
Print Assumptions C124_stored_partial.
Print Assumptions C124_unchanged_refuted.
Print Assumptions C124_defined_refuted.
Print Assumptions C125_nodata.
Print Assumptions C125_reflectance_monotone.
Print Assumptions C125_reflectance_partial.
Print Assumptions C125_bright_refuted.
Print Assumptions C125_all_bands_refuted.
Print Assumptions C125_temperature_monotone.
Print Assumptions C125_temperature_close.
Print Assumptions C126_cell_in_grid.
Print Assumptions C126_empty_cell_refuted.
