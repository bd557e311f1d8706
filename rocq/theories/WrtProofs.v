(** Proofs about the image writer. *)
From Verif Require Import Base BaseFacts CStr Loops LoopsFacts StringModel StringProofs ChunkProofs
  QaiModel QaiSpec QaiProofs ParamProofs WrtModel WrtSpec.
From Verif Require BapCor.

Lemma streq_refl a : streq a a = true.
Proof. apply streq_spec; reflexivity. Qed.
Lemma streq_neq a b : a <> b -> streq a b = false.
Proof. intros N. destruct (streq a b) eqn:E; auto. apply streq_spec in E. contradiction. Qed.

Lemma omap_ret {A B} (f : A -> outcome B) (g : A -> B) l :
  (forall x, In x l -> f x = Ret (g x)) -> omap f l = Ret (map g l).
Proof.
  induction l as [|a l IH]; intros H; cbn [omap map]; auto.
  rewrite H by (left; auto). cbn [bind]. rewrite IH by (intros; apply H; right; auto). reflexivity.
Qed.

Lemma omap_zupto {B} (f : Z -> outcome B) n : 0 <= n ->
  (forall p, 0 <= p < n -> exists v, f p = Ret v) ->
  exists l, omap f (zupto n) = Ret l /\ zlen l = n /\
    forall p, 0 <= p < n -> exists v, f p = Ret v /\ get_at l p = Some v.
Proof.
  intros N H.
  assert (forall l, (forall x, In x l -> 0 <= x < n) -> exists r, omap f l = Ret r /\ length r = length l /\
    forall k x, nth_error l k = Some x -> exists v, f x = Ret v /\ nth_error r k = Some v) as G.
  { induction l as [|a l IH]; intros I; cbn [omap].
    - exists []. repeat (split; auto). intros [|k] x E; discriminate.
    - destruct (H a) as (v & E); [apply I; left; auto|]. rewrite E. cbn [bind].
      destruct IH as (r & -> & L & R); [intros; apply I; right; auto|]. cbn [bind].
      exists (v :: r). split; [reflexivity|]. split; [cbn; lia|].
      intros [|k] x K; cbn in K.
      + inversion K; subst x. exists v. auto.
      + destruct (R k x K) as (u & ? & ?). exists u. auto. }
  destruct (G (zupto n)) as (r & E & L & R).
  { intros x I. apply zupto_In in I. exact I. }
  exists r. split; [exact E|]. split; [unfold zlen; rewrite L, zupto_length; lia|].
  intros p P. destruct (R (Z.to_nat p) p) as (v & F & K).
  { pose proof (get_zupto n p P) as Z0. unfold get_at in Z0.
    destruct (p <? 0) eqn:Q; [lia|exact Z0]. }
  exists v. split; [exact F|]. unfold get_at. destruct (p <? 0) eqn:Q; [lia|exact K].
Qed.

(** Writing whole bands. *)
Lemma write_band_full r win d f : 0 < r_nx r -> 0 <= r_ny r -> win = mkWindow 0 0 (r_nx r) (r_ny r) ->
  zlen (wd_data d) = r_nx r * r_ny r ->
  write_band r win d f = Ret (Some (plain d)).
Proof.
  intros X Y -> L. unfold write_band, plain. cbn [win_x win_y win_nx win_ny].
  assert ((0 <? 0) || (0 <? 0) || (0 + r_nx r >? r_nx r) || (0 + r_ny r >? r_ny r) = false) as -> by lia.
  set (f0 := fun q => _).
  assert (0 <= r_nx r * r_ny r) as N by nia.
  destruct (omap_zupto f0 (r_nx r * r_ny r) N) as (l & E & LL & G).
  { intros p P. unfold f0. cbv zeta.
    assert (0 <= p / r_nx r < r_ny r) as PY.
    { split; [apply Z.div_pos; lia|]. apply Z.div_lt_upper_bound; lia. }
    assert (0 <= p mod r_nx r < r_nx r) as PX by (apply Z.mod_pos_bound; lia).
    assert ((0 <=? p mod r_nx r) && (p mod r_nx r <? 0 + r_nx r) && (0 <=? p / r_nx r)
      && (p / r_nx r <? 0 + r_ny r) = true) as -> by lia.
    assert ((p / r_nx r - 0) * r_nx r + (p mod r_nx r - 0) = p) as ->.
    { rewrite !Z.sub_0_r, Z.mul_comm. symmetry. apply Z.div_mod. lia. }
    destruct (get_at_some (wd_data d) p) as (v & ->); [lia|]. exists (Some v). reflexivity. }
  rewrite E. cbn [bind]. do 3 f_equal.
  apply get_at_ext; [rewrite zlen_map; lia|].
  intros p P. destruct (G p) as (v & F & K); [lia|]. rewrite K.
  unfold f0 in F. cbv zeta in F.
  assert (0 <= p / r_nx r < r_ny r) as PY.
  { split; [apply Z.div_pos; lia|]. apply Z.div_lt_upper_bound; lia. }
  assert (0 <= p mod r_nx r < r_nx r) as PX by (apply Z.mod_pos_bound; lia).
  assert ((0 <=? p mod r_nx r) && (p mod r_nx r <? 0 + r_nx r) && (0 <=? p / r_nx r)
    && (p / r_nx r <? 0 + r_ny r) = true) as C by lia.
  rewrite C in F.
  assert ((p / r_nx r - 0) * r_nx r + (p mod r_nx r - 0) = p) as Q.
  { rewrite !Z.sub_0_r, Z.mul_comm. symmetry. apply Z.div_mod. lia. }
  rewrite Q in F. destruct (get_at_some (wd_data d) p) as (u & U); [lia|].
  rewrite U in F. cbn [bind of_option] in F. inversion F; subst v.
  rewrite get_map, U. reflexivity.
Qed.

Lemma write_bands_full r ds : forall bs, 0 < r_nx r -> 0 <= r_ny r -> length bs = length ds ->
  (forall d, In d ds -> zlen (wd_data d) = r_nx r * r_ny r) ->
  write_bands r (mkWindow 0 0 (r_nx r) (r_ny r)) ds bs = Ret (Some (map plain ds)).
Proof.
  induction ds as [|d ds IH]; intros [|f bs] X Y L H; try discriminate; cbn [write_bands map]; auto.
  rewrite (write_band_full r _ d f X Y eq_refl) by (apply H; left; auto). cbn [bind].
  rewrite IH; auto. intros; apply H; right; auto.
Qed.

Lemma blank_bands b n : length (r_bands (blank b n)) = Z.to_nat n.
Proof. unfold blank; cbn [r_bands]. rewrite map_length. apply zupto_length. Qed.

Lemma open_blank b n e : w_open b <> OPEN_CHUNK -> open_out b n e = Some (blank b n).
Proof.
  intros C. unfold open_out, is_chunk. destruct e; auto. destruct (w_open b); auto. contradiction.
Qed.
Lemma window_full b : w_open b <> OPEN_CHUNK -> window_of b = Some (mkWindow 0 0 (w_nx b) (w_ny b)).
Proof. intros C. unfold window_of, is_chunk. destruct (w_open b); auto. contradiction. Qed.

Lemma content_fresh b ds e : whole b -> incl ds (w_bands b) ->
  (e = None \/ w_open b = OPEN_CREATE) ->
  content b ds e = Ret (Some (fresh b ds, false)).
Proof.
  intros (X & Y & NF & NC & D & Q) I H. unfold content.
  assert (mosaic b ds e = Ret (Some (ds, false))) as ->.
  { unfold mosaic. destruct H as [-> | ->]; auto. destruct e; auto. }
  cbn [bind]. rewrite open_blank, window_full by auto.
  change (w_nx b) with (r_nx (blank b (zlen ds))). change (w_ny b) with (r_ny (blank b (zlen ds))).
  rewrite write_bands_full.
  - reflexivity.
  - cbn. lia.
  - cbn. lia.
  - rewrite blank_bands. unfold zlen. lia.
  - intros d K. cbn. apply (D d). auto.
Qed.

(** One pixel. *)
Lemma quot2 s : let v := Z.quot s 2 in Z.abs (2 * v) <= Z.abs s <= Z.abs (2 * v) + 1 /\ 0 <= v * s.
Proof. cbv zeta. pose proof (Z.quot_rem' s 2). pose proof (Z.rem_bound_abs s 2). 
  assert (Z.abs (Z.rem s 2) < 2) by lia.
  destruct (Z.le_gt_cases 0 s).
  - assert (0 <= Z.rem s 2) by (apply Z.rem_nonneg; lia).
    assert (0 <= Z.quot s 2) by (apply Z.quot_pos; lia). nia.
  - assert (Z.rem s 2 <= 0) by (apply Z.rem_nonpos; lia).
    assert (Z.quot s 2 <= 0) by (pose proof (Z.quot_opp_l s 2); assert (0 <= Z.quot (-s) 2) by (apply Z.quot_pos; lia); lia).
    nia.
Qed.

Lemma in_type_between t a b v : in_type t a = true -> in_type t b = true ->
  Z.min a b <= v <= Z.max a b -> in_type t v = true.
Proof. destruct t; unfold in_type, in_shortb; lia. Qed.

Lemma nonneg_bit z : in_short z -> (0 <= z <-> Z.testbit z 15 = false).
Proof.
  intros R. pose proof (proj1 (short_range_bits z) R) as B. rewrite Z.bits_iff_nonneg_ex. split.
  - intros (k & K). destruct (Z.le_gt_cases (k + 1) 15); [apply K; lia|].
    rewrite <- (B (k + 1)) by lia. apply K. lia.
  - intros K. exists 14. intros m M. rewrite B by lia. exact K.
Qed.

Lemma merge_pixel_ok m t nd now old : in_type t now = true -> in_type t old = true ->
  (m = OPEN_QAI_MERGE -> t = DT_SHORT) ->
  exists v, merge_pixel m t nd now old = Ret v /\ in_type t v = true /\ combined m nd now old v.
Proof.
  intros N O Q. unfold merge_pixel, set_brick.
  destruct (now =? nd) eqn:A, (old =? nd) eqn:B; cbn [negb andb].
  - exists now. split; [reflexivity|]. split; auto. unfold combined. lia.
  - rewrite O. exists old. split; [reflexivity|]. split; auto. unfold combined. lia.
  - exists now. split; [reflexivity|]. split; auto. unfold combined. lia.
  - destruct m; try (exists now; split; [reflexivity|]; split; [auto|]; unfold combined; repeat split; intros; lia).
    + pose proof (quot2 (now + old)) as Z0. cbv zeta in Z0.
      assert (in_type t (Z.quot (now + old) 2) = true) as I.
      { apply (in_type_between t now old); auto. nia. }
      rewrite I. exists (Z.quot (now + old) 2). split; [reflexivity|]. split; auto.
      unfold combined. split; [lia|]. split; [lia|]. intros _ _. exact Z0.
    + specialize (Q eq_refl). subst t. cbn [in_type] in N, O.
      apply in_shortb_spec in N, O. rewrite !to_short_id by auto.
      destruct (merge_spec now now old N N O) as (w & -> & I & F & T).
      exists w. split; [reflexivity|]. split; [apply in_shortb_spec; exact I|].
      unfold combined. split; [lia|]. split; [lia|]. intros _ _. split; [exact I|]. split.
      * rewrite (nonneg_bit w I), (nonneg_bit now N), T. reflexivity.
      * intros f. rewrite F. destruct f; reflexivity.
Qed.

Lemma merge_band_ok b d f : 0 <= w_nx b * w_ny b ->
  (w_open b = OPEN_QAI_MERGE -> w_type b = DT_SHORT) ->
  zlen (wd_data d) = w_nx b * w_ny b -> (forall v, In v (wd_data d) -> in_type (w_type b) v = true) ->
  zlen (fb_cells f) = w_nx b * w_ny b ->
  (forall c, In c (fb_cells f) -> exists v, c = Some v /\ in_type (w_type b) v = true) ->
  exists data, merge_band b d f = Ret (mkWband (wd_save d) (wd_name d) (wd_nodata d) data) /\
    zlen data = w_nx b * w_ny b /\ (forall v, In v data -> in_type (w_type b) v = true) /\
    forall p, 0 <= p < w_nx b * w_ny b -> exists now old v,
      get_at (wd_data d) p = Some now /\ get_at (fb_cells f) p = Some (Some old) /\
      get_at data p = Some v /\ combined (w_open b) (wd_nodata d) now old v.
Proof.
  intros N Q L V LF VF. unfold merge_band.
  match goal with |- context [omap ?h (zupto _)] => set (g := h) end.
  assert (forall p, 0 <= p < w_nx b * w_ny b -> exists v, g p = Ret v /\ in_type (w_type b) v = true /\
    exists now old, get_at (wd_data d) p = Some now /\ get_at (fb_cells f) p = Some (Some old) /\
    combined (w_open b) (wd_nodata d) now old v) as G.
  { intros p P. unfold g.
    destruct (get_at_some (wd_data d) p) as (now & A); [lia|].
    destruct (get_at_some (fb_cells f) p) as (c & B); [lia|].
    rewrite A, B. cbn [of_option bind].
    destruct (VF c) as (old & -> & T); [eapply get_at_In; eauto|]. cbn [of_option bind].
    destruct (merge_pixel_ok (w_open b) (w_type b) (wd_nodata d) now old) as (v & E & I & C); auto.
    { apply V. eapply get_at_In; eauto. }
    exists v. split; [exact E|]. split; [exact I|]. exists now, old. auto. }
  destruct (omap_zupto g (w_nx b * w_ny b) N) as (l & E & LL & K).
  { intros p P. destruct (G p P) as (v & E & _). eauto. }
  rewrite E. cbn [bind]. exists l. split; [reflexivity|]. split; [exact LL|]. split.
  - intros v I. apply In_get_at in I. destruct I as (p & R & I).
    destruct (K p) as (u & F & W); [lia|]. rewrite W in I. inversion I; subst u.
    destruct (G p) as (u & F' & T & _); [lia|]. rewrite F in F'. inversion F'; subst; auto.
  - intros p P. destruct (G p P) as (v & F & T & now & old & A & B & C).
    destruct (K p P) as (u & F' & W). rewrite F in F'. inversion F'; subst u.
    exists now, old, v. auto.
Qed.

Lemma content_mosaic b ds r : whole b -> incl ds (w_bands b) -> w_open b <> OPEN_CREATE -> fits b ds r ->
  exists r', content b ds (Some (Raster r)) = Ret (Some (r', true)) /\ mosaicked b ds r r' /\ fits b ds r'.
Proof.
  intros (X & Y & NF & NC & D & Q) I NCr (RX & RY & RB & RC). unfold content.
  assert (0 <= w_nx b * w_ny b) as N by nia.
  assert (mosaicking (w_open b) = true) as M by (destruct (w_open b); auto; contradiction).
  unfold mosaic. rewrite M. cbn [negb]. rewrite RB, RX, RY, !Z.eqb_refl. cbn [negb].
  assert ((match w_open b with
           | OPEN_QAI_MERGE => if zlen (w_bands b) =? 1 then Ret tt else UB
           | _ => Ret tt end) = Ret tt) as ->.
  { destruct (w_open b); auto. destruct Q as (_ & ->); auto. }
  cbn [bind].
  assert (exists ds', omap (fun p => merge_band b (fst p) (snd p)) (combine ds (r_bands r)) = Ret ds' /\
    length ds' = length ds /\
    (forall d', In d' ds' -> zlen (wd_data d') = w_nx b * w_ny b /\
       forall v, In v (wd_data d') -> in_type (w_type b) v = true) /\
    forall k d, nth_error ds k = Some d -> exists f d', nth_error (r_bands r) k = Some f /\
      nth_error ds' k = Some d' /\ wd_name d' = wd_name d /\ wd_nodata d' = wd_nodata d /\
      forall p, 0 <= p < w_nx b * w_ny b -> exists now old v,
        get_at (wd_data d) p = Some now /\ get_at (fb_cells f) p = Some (Some old) /\
        get_at (wd_data d') p = Some v /\ combined (w_open b) (wd_nodata d) now old v) as (ds' & E & L & W & G).
  { clear - N Q D I RB RC.
    assert (length (r_bands r) = length ds) as LB by (unfold zlen in RB; lia).
    clear RB. revert LB RC. generalize (r_bands r) as fs.
    induction ds as [|d ds IH]; intros [|f fs] LB RC; try discriminate; cbn [combine omap].
    - exists []. split; [reflexivity|]. split; auto. split; [intros ? []|]. intros [|k] d K; discriminate.
    - destruct (merge_band_ok b d f) as (data & E & LD & V & P); auto.
      { intros; apply Q; auto. }
      { apply D. apply I. left; auto. }
      { apply D. apply I. left; auto. }
      { apply RC. left; auto. }
      { apply RC. left; auto. }
      cbn [fst snd]. rewrite E. cbn [bind].
      destruct (IH) with (fs := fs) as (ds' & -> & L' & W & G).
      { intros x J. apply I. right; auto. }
      { cbn in LB. lia. }
      { intros; apply RC. right; auto. }
      cbn [bind]. eexists. split; [reflexivity|]. split; [cbn; lia|]. split.
      + intros d' [<- | J]; auto.
      + intros [|k] d0 K; cbn in K.
        * inversion K; subst d0. exists f. eexists. split; [reflexivity|]. split; [reflexivity|].
          cbn [wd_name wd_nodata wd_data]. auto.
        * destruct (G k d0 K) as (f0 & d' & ?). exists f0, d'. auto. }
  rewrite E. cbn [bind].
  rewrite open_blank, window_full by auto.
  change (w_nx b) with (r_nx (blank b (zlen ds))) at 1. change (w_ny b) with (r_ny (blank b (zlen ds))) at 1.
  rewrite write_bands_full.
  2: cbn; lia. 2: cbn; lia.
  2: { rewrite blank_bands. unfold zlen. lia. }
  2: { intros d K. cbn. apply W. auto. }
  cbn [bind]. eexists. split; [reflexivity|]. split.
  - unfold mosaicked. cbn [r_nx r_ny r_bands blank]. split; [reflexivity|]. split; [reflexivity|].
    split; [rewrite zlen_map; unfold zlen; lia|].
    intros i d GI. assert (0 <= i < zlen ds) as R by (eapply get_at_inv; eauto).
    assert (nth_error ds (Z.to_nat i) = Some d) as K.
    { unfold get_at in GI. destruct (i <? 0); [discriminate|exact GI]. }
    destruct (G _ _ K) as (f & d' & A & B & NM & ND & P).
    exists f, (plain d').
    split; [unfold get_at; destruct (i <? 0) eqn:?; [lia|exact A]|].
    split. { rewrite get_map. unfold get_at. destruct (i <? 0) eqn:?; [lia|]. rewrite B. reflexivity. }
    split; [exact NM|]. split; [cbn; congruence|].
    split. { cbn. rewrite zlen_map. apply W. eapply nth_error_In; eauto. }
    intros p PP. destruct (P p PP) as (now & old & v & ? & ? & C & ?).
    exists now, old, v. split; auto. split; auto. split; auto.
    cbn. rewrite get_map, C. reflexivity.
  - unfold fits. cbn [r_nx r_ny r_bands blank]. split; [reflexivity|]. split; [reflexivity|].
    split; [rewrite zlen_map; unfold zlen; lia|].
    intros f J. apply in_map_iff in J. destruct J as (d' & <- & J). cbn.
    destruct (W d' J) as (A & B). split; [rewrite zlen_map; exact A|].
    intros c K. apply in_map_iff in K. destruct K as (v & <- & K). eauto.
Qed.
