(** Proofs about writing in chunks and about concurrent writers. *)
From Verif Require Import Base BaseFacts CStr Loops LoopsFacts StringModel StringProofs ChunkProofs
  QaiModel QaiSpec QaiProofs ParamProofs WrtModel WrtSpec WrtProofs WrtFiles.

Definition in_win (win : window) (x y : Z) : bool :=
  (win_x win <=? x) && (x <? win_x win + win_nx win) && (win_y win <=? y) && (y <? win_y win + win_ny win).

Lemma cell_div nx x y : 0 <= x < nx -> (y * nx + x) / nx = y /\ (y * nx + x) mod nx = x.
Proof.
  intros X. rewrite Z.add_comm. rewrite Z.div_add, Z.mod_add by lia.
  rewrite Z.div_small, Z.mod_small by lia. lia.
Qed.

Definition band_written (r : raster) (win : window) (d : wband) (f f' : fband) : Prop :=
  fb_name f' = wd_name d /\ zlen (fb_cells f') = r_nx r * r_ny r /\
  forall x y, 0 <= x < r_nx r -> 0 <= y < r_ny r ->
    get_at (fb_cells f') (y * r_nx r + x) =
      if in_win win x y
      then option_map Some (get_at (wd_data d) ((y - win_y win) * win_nx win + (x - win_x win)))
      else get_at (fb_cells f) (y * r_nx r + x).

Lemma write_band_window r win d f : 0 < r_nx r -> 0 <= r_ny r ->
  0 <= win_x win -> 0 <= win_y win -> 0 < win_nx win -> 0 < win_ny win ->
  win_x win + win_nx win <= r_nx r -> win_y win + win_ny win <= r_ny r ->
  zlen (wd_data d) = win_nx win * win_ny win -> zlen (fb_cells f) = r_nx r * r_ny r ->
  exists f', write_band r win d f = Ret (Some f') /\ band_written r win d f f'.
Proof.
  intros X Y WX WY NX NY IX IY LD LF. unfold write_band.
  assert ((win_x win <? 0) || (win_y win <? 0) || (win_x win + win_nx win >? r_nx r)
    || (win_y win + win_ny win >? r_ny r) = false) as -> by lia.
  match goal with |- context [omap ?h (zupto _)] => set (g := h) end.
  assert (0 <= r_nx r * r_ny r) as N by nia.
  assert (forall x y, 0 <= x < r_nx r -> 0 <= y < r_ny r ->
    exists v, g (y * r_nx r + x) = Ret v /\
      (if in_win win x y
       then option_map Some (get_at (wd_data d) ((y - win_y win) * win_nx win + (x - win_x win)))
       else get_at (fb_cells f) (y * r_nx r + x)) = Some v) as G.
  { intros x y PX PY. unfold g. cbv zeta. destruct (cell_div (r_nx r) x y PX) as (-> & ->).
    fold (in_win win x y). destruct (in_win win x y) eqn:W; unfold in_win in W.
    - destruct (get_at_some (wd_data d) ((y - win_y win) * win_nx win + (x - win_x win))) as (v & E).
      { rewrite LD. nia. }
      rewrite E. exists (Some v). auto.
    - destruct (get_at_some (fb_cells f) (y * r_nx r + x)) as (v & E); [rewrite LF; nia|].
      rewrite E. exists v. auto. }
  destruct (omap_zupto g (r_nx r * r_ny r) N) as (l & E & LL & K).
  { intros p P. assert (0 <= p / r_nx r < r_ny r) as PY.
    { split; [apply Z.div_pos; lia|]. apply Z.div_lt_upper_bound; lia. }
    assert (0 <= p mod r_nx r < r_nx r) as PX by (apply Z.mod_pos_bound; lia).
    destruct (G (p mod r_nx r) (p / r_nx r) PX PY) as (v & F & _).
    replace (p / r_nx r * r_nx r + p mod r_nx r) with p in F.
    - eauto.
    - rewrite Z.mul_comm. apply Z.div_mod. lia. }
  rewrite E. cbn [bind]. eexists. split; [reflexivity|]. unfold band_written. cbn.
  split; [reflexivity|]. split; [exact LL|]. intros x y PX PY.
  destruct (G x y PX PY) as (v & F & ->).
  destruct (K (y * r_nx r + x)) as (u & F' & ->); [nia|]. congruence.
Qed.

Lemma write_bands_window r win ds : forall bs, 0 < r_nx r -> 0 <= r_ny r ->
  0 <= win_x win -> 0 <= win_y win -> 0 < win_nx win -> 0 < win_ny win ->
  win_x win + win_nx win <= r_nx r -> win_y win + win_ny win <= r_ny r ->
  length bs = length ds ->
  (forall d, In d ds -> zlen (wd_data d) = win_nx win * win_ny win) ->
  (forall f, In f bs -> zlen (fb_cells f) = r_nx r * r_ny r) ->
  exists l, write_bands r win ds bs = Ret (Some l) /\ length l = length ds /\
    (forall f, In f l -> zlen (fb_cells f) = r_nx r * r_ny r) /\
    forall j d, get_at ds j = Some d -> exists f f', get_at bs j = Some f /\ get_at l j = Some f' /\
      band_written r win d f f'.
Proof.
  induction ds as [|d ds IH]; intros [|f bs] X Y WX WY NX NY IX IY L HD HF; try discriminate; cbn [write_bands].
  - exists []. split; [reflexivity|]. split; auto. split; [intros ? []|].
    intros j d E. apply get_at_inv in E. cbn in E. lia.
  - destruct (write_band_window r win d f X Y WX WY NX NY IX IY) as (f' & E & W).
    { apply HD. left; auto. }
    { apply HF. left; auto. }
    rewrite E. cbn [bind].
    destruct (IH bs X Y WX WY NX NY IX IY) as (l & EL & LL & LC & G).
    { cbn in L. lia. }
    { intros; apply HD. right; auto. }
    { intros; apply HF. right; auto. }
    rewrite EL. cbn [bind]. exists (f' :: l). split; [reflexivity|]. split; [cbn; lia|]. split.
    + intros f0 [<- | I]; [apply W|auto].
    + intros j d0 K. assert (0 <= j) as J by (apply get_at_inv in K; lia).
      destruct (Z.eq_dec j 0) as [-> | NZ].
      * rewrite get_cons_0 in *. inversion K; subst d0. exists f, f'. auto.
      * rewrite get_cons_S in K by lia. rewrite !get_cons_S by lia. apply G. exact K.
Qed.

Section Tile.
Variables (t : wbrick) (bands : Z * Z -> list wband) (pn : list Z).
Hypotheses (CH : chunked t) (CB : chunk_bands t bands).
Notation brick c := (part t c (bands c)).

Lemma same_files c c' path ds : in_grid t c -> in_grid t c' -> is_file (brick c) path ds ->
  exists ds', is_file (brick c') path ds' /\ zlen ds' = zlen ds.
Proof.
  intros G G' I. destruct (CB c G) as (_ & N). destruct (CB c' G') as (_ & N').
  rewrite <- N' in N. clear N'. unfold is_file in *. cbn [w_explode part] in *.
  destruct (w_explode t).
  - destruct I as (d & J & -> & ->).
    assert (In (wd_name d) (map wd_name (saved (brick c')))) as M.
    { rewrite <- N. apply in_map; auto. }
    apply in_map_iff in M. destruct M as (d' & E & M).
    exists [d']. split; auto. exists d'. split; [exact M|]. split; [reflexivity|].
    unfold file_name. cbn [w_dname w_fname w_ext part]. rewrite E. reflexivity.
  - destruct I as (-> & ->). exists (saved (brick c')). split; [split; reflexivity|].
    unfold zlen. apply (f_equal (@length _)) in N. rewrite !map_length in N. lia.
Qed.

Lemma grid_window c : in_grid t c ->
  window_of (brick c) = Some (mkWindow (fst c * w_cx t) (snd c * w_cy t) (w_cx t) (w_cy t)) /\
  fst c * w_cx t + w_cx t <= w_nx t /\ snd c * w_cy t + w_cy t <= w_ny t.
Proof.
  intros (A & B). destruct CH as (X & Y & NX & NY). split; [|split; nia].
  unfold window_of. cbn.
  assert ((fst c <? 0) || (snd c <? 0) || (fst c >=? w_cols t) || (snd c >=? w_rows t) = false) as -> by lia.
  reflexivity.
Qed.

(** The state of a file: size and pixels per band. *)
Definition shaped (n : Z) (r : raster) : Prop :=
  r_nx r = w_nx t /\ r_ny r = w_ny t /\ zlen (r_bands r) = n /\
  forall f, In f (r_bands r) -> zlen (fb_cells f) = w_nx t * w_ny t.

Lemma content_chunk c ds e : in_grid t c -> (forall d, In d ds -> In d (bands c)) ->
  (c = (0, 0) \/ exists r0, e = Some (Raster r0) /\ shaped (zlen ds) r0) ->
  exists r, content (brick c) ds e = Ret (Some (r, false)) /\ shaped (zlen ds) r /\
    (forall x y j d, fst c * w_cx t <= x < fst c * w_cx t + w_cx t ->
       snd c * w_cy t <= y < snd c * w_cy t + w_cy t -> get_at ds j = Some d ->
       exists f, get_at (r_bands r) j = Some f /\ fb_name f = wd_name d /\
         get_at (fb_cells f) (y * w_nx t + x) =
         option_map Some (get_at (wd_data d) ((y - snd c * w_cy t) * w_cx t + (x - fst c * w_cx t)))) /\
    (c <> (0, 0) -> forall r0, e = Some (Raster r0) ->
     forall x y j f0, 0 <= x < w_nx t -> 0 <= y < w_ny t ->
       ~ (fst c * w_cx t <= x < fst c * w_cx t + w_cx t /\ snd c * w_cy t <= y < snd c * w_cy t + w_cy t) ->
       get_at (r_bands r0) j = Some f0 -> exists f, get_at (r_bands r) j = Some f /\
         get_at (fb_cells f) (y * w_nx t + x) = get_at (fb_cells f0) (y * w_nx t + x)).
Proof.
  intros G HD HE. destruct CH as (CX & CY & NX & NY). destruct G as (GX & GY).
  assert (0 < w_nx t /\ 0 < w_ny t) as (PX & PY) by nia.
  unfold content.
  assert (mosaic (brick c) ds e = Ret (Some (ds, false))) as ->.
  { unfold mosaic. destruct e; reflexivity. }
  cbn [bind].
  assert (exists r1, open_out (brick c) (zlen ds) e = Some r1 /\ shaped (zlen ds) r1 /\
    (c <> (0, 0) -> forall r0, e = Some (Raster r0) -> r1 = r0)) as (r1 & -> & S1 & OLD).
  { assert (shaped (zlen ds) (blank (brick c) (zlen ds))) as SB.
    { unfold shaped, blank. cbn. split; auto. split; auto. split.
      - rewrite zlen_map. unfold zlen at 1. rewrite zupto_length. unfold zlen. lia.
      - intros f I. apply in_map_iff in I. destruct I as (q & <- & I). cbn. rewrite zlen_map.
        unfold zlen. rewrite zupto_length. nia. }
    unfold open_out. cbn [is_chunk w_open part w_chx w_chy andb].
    destruct HE as [-> | (r0 & -> & S0)].
    - exists (blank (brick (0, 0)) (zlen ds)). cbn [fst snd]. change ((0 >? 0) || (0 >? 0)) with false.
      split; [destruct e; reflexivity|]. split; [exact SB|]. intros NE. contradiction.
    - destruct ((fst c >? 0) || (snd c >? 0)) eqn:P.
      + exists r0. split; auto. split; auto. intros _ r E. congruence.
      + eexists. split; [reflexivity|]. split; [exact SB|].
        intros NE. exfalso. apply NE. destruct c as (a, b'). cbn in *. f_equal; lia. }
  destruct (grid_window c (conj GX GY)) as (-> & WX & WY).
  destruct S1 as (R1X & R1Y & R1N & R1C).
  destruct (write_bands_window r1 (mkWindow (fst c * w_cx t) (snd c * w_cy t) (w_cx t) (w_cy t)) ds (r_bands r1))
    as (l & E & LL & LC & K); cbn [win_x win_y win_nx win_ny]; rewrite ?R1X, ?R1Y; try lia; try nia.
  { unfold zlen in R1N. lia. }
  { intros d I. destruct (CB c (conj GX GY)) as (B & _). apply B. apply HD. exact I. }
  rewrite E. cbn [bind]. eexists. split; [reflexivity|]. split; [|split].
  - unfold shaped. cbn. split; auto. split; auto. split; [unfold zlen; lia|].
    intros f I. rewrite (LC f I), R1X, R1Y. reflexivity.
  - intros x y j d XX YY GD. destruct (K j d GD) as (f & f' & A & B & NM & CL & P).
    exists f'. split; [exact B|]. split; [exact NM|].
    rewrite R1X, R1Y in P. rewrite (P x y) by nia. unfold in_win. cbn [win_x win_y win_nx win_ny].
    assert ((fst c * w_cx t <=? x) && (x <? fst c * w_cx t + w_cx t) && (snd c * w_cy t <=? y)
      && (y <? snd c * w_cy t + w_cy t) = true) as -> by lia. reflexivity.
  - intros NE r0 E0 x y j f0 XX YY OUT G0. rewrite (OLD NE r0 E0) in *.
    destruct (get_at_some ds j) as (d & GD).
    { apply get_at_inv in G0. lia. }
    destruct (K j d GD) as (f & f' & A & B & NM & CL & P).
    exists f'. split; [exact B|]. rewrite R1X, R1Y in P. rewrite (P x y) by lia.
    unfold in_win. cbn [win_x win_y win_nx win_ny].
    assert ((fst c * w_cx t <=? x) && (x <? fst c * w_cx t + w_cx t) && (snd c * w_cy t <=? y)
      && (y <? snd c * w_cy t + w_cy t) = false) as -> by lia.
    congruence.
Qed.

Definition good (c : Z * Z) (w : world) : Prop :=
  forall path ds x y j d, is_file (brick c) path ds ->
    fst c * w_cx t <= x < fst c * w_cx t + w_cx t -> snd c * w_cy t <= y < snd c * w_cy t + w_cy t ->
    get_at ds j = Some d ->
    value_at w path j (y * w_nx t + x) =
      get_at (wd_data d) ((y - snd c * w_cy t) * w_cx t + (x - fst c * w_cx t)).
Definition ready (w : world) : Prop :=
  forall c path ds, in_grid t c -> is_file (brick c) path ds ->
    exists r, disk w path = Some (Raster r) /\ shaped (zlen ds) r.

Hypotheses (SH : forall c, in_grid t c -> short_names (brick c))
  (DI : forall c, in_grid t c -> distinct_names (brick c)).

Lemma chunk_step c w : in_grid t c -> unlocked (brick c) pn w -> (c = (0, 0) \/ ready w) ->
  exists w', write_brick (brick c) pn w = Ret (SUCCESS, w') /\ locks w' = locks w /\ ready w' /\ good c w' /\
    (forall n, (forall ds, ~ is_file (brick c) n ds) -> disk w' n = disk w n) /\
    (c <> (0, 0) -> forall c', in_grid t c' -> c' <> c -> good c' w -> good c' w') /\
    exists lines, prov w' = prov w ++ lines /\ map pl_file lines = (if logs (brick c) then files (brick c) else []) /\
      Forall (fun l => pl_origin l = w_prov t) lines.
Proof.
  intros G U R.
  assert (forall path ds, is_file (brick c) path ds -> c = (0, 0) \/ exists r0, disk w path = Some (Raster r0) /\ shaped (zlen ds) r0) as RR.
  { intros path ds I. destruct R as [-> | R]; [left; auto|right]. apply (R c path ds G I). }
  assert (forall path ds, is_file (brick c) path ds -> forall d, In d ds -> In d (bands c)) as INB.
  { intros path ds I d J. pose proof (saved_incl _ _ _ I d J) as K. exact K. }
  destruct (write_brick_files (brick c) pn w) as (w' & lines & E & L & F & O & P & LN); auto.
  - discriminate.
  - intros path ds I. destruct (content_chunk c ds (disk w path) G (INB path ds I) (RR path ds I)) as (r & C & _). eauto.
  - exists w'. split; [exact E|]. split; [exact L|]. split; [|split; [|split; [|split]]].
    + intros c' path ds G' I'. destruct (same_files c' c path ds G' G I') as (dsc & I & LE).
      destruct (content_chunk c dsc (disk w path) G (INB path dsc I) (RR path dsc I)) as (r & C & S & _).
      exists r. split; [exact (F path dsc r false I C)|]. rewrite <- LE. exact S.
    + intros path ds x y j d I XX YY GD.
      destruct (content_chunk c ds (disk w path) G (INB path ds I) (RR path ds I)) as (r & C & S & V & _).
      unfold value_at. rewrite (F path ds r false I C).
      destruct (V x y j d XX YY GD) as (f & -> & _ & ->). 
      destruct (get_at (wd_data d) ((y - snd c * w_cy t) * w_cx t + (x - fst c * w_cx t))); reflexivity.
    + exact O.
    + intros NE c' G' NC GD path ds x y j d I' XX YY GJ.
      destruct (same_files c' c path ds G' G I') as (dsc & I & LE).
      destruct (RR path dsc I) as [Z0 | (r0 & E0 & S0)]; [contradiction|].
      destruct (content_chunk c dsc (disk w path) G (INB path dsc I) (RR path dsc I)) as (r & C & S & _ & V).
      specialize (GD path ds x y j d I' XX YY GJ). unfold value_at in *.
      rewrite (F path dsc r false I C). rewrite E0 in GD.
      destruct (get_at_some (r_bands r0) j) as (f0 & GF).
      { destruct S0 as (_ & _ & N0 & _). apply get_at_inv in GJ. lia. }
      rewrite GF in GD. destruct CH as (CX & CY & NX & NY). destruct G' as (GX' & GY').
      destruct (V NE r0 E0 x y j f0) as (f & -> & ->); auto; try nia.
      destruct G as (GX & GY).
      intros (QX & QY). apply NC. destruct c as (a, b'), c' as (a', b''). cbn in *. f_equal; nia.
    + exists lines. split; [exact P|]. destruct (logs (brick c)).
      * apply (lines_files _ _ _ LN).
      * subst lines. split; [reflexivity|constructor].
Qed.

Lemma unlocked_part c w : unlocked (brick c) pn w <->
  ~ In (w_dname t) (locks w) /\ ~ In pn (locks w) /\ forall path ds, is_file (brick c) path ds -> ~ In path (locks w).
Proof. reflexivity. Qed.

Lemma unlocked_step c c' w w' : in_grid t c -> in_grid t c' -> locks w' = locks w ->
  unlocked (brick c) pn w -> unlocked (brick c') pn w'.
Proof.
  intros G G' L (A & B & C). unfold unlocked. rewrite L. split; [exact A|]. split; [exact B|].
  intros path ds I. destruct (same_files c' c path ds G' G I) as (ds' & I' & _). eapply C; eauto.
Qed.

Lemma chunks_rest : forall ids done w, NoDup ids -> (forall c, In c ids -> in_grid t c /\ c <> (0, 0)) ->
  (forall c, In c done -> in_grid t c /\ ~ In c ids /\ good c w) -> ready w ->
  (forall c, in_grid t c -> unlocked (brick c) pn w) ->
  exists w', written pn (map (fun c => brick c) ids) w w' /\ locks w' = locks w /\
    (forall c, In c done \/ In c ids -> good c w') /\
    (forall n, (forall c ds, in_grid t c -> ~ is_file (brick c) n ds) -> disk w' n = disk w n) /\
    prov w' = prov w.
Proof.
  induction ids as [|c ids IH]; intros done w ND IN DN RD UN; cbn [map].
  - exists w. split; [constructor|]. split; auto. split; [|split; auto].
    intros c [D | []]. apply DN; auto.
  - inversion ND as [|? ? NI ND']; subst. destruct (IN c (or_introl eq_refl)) as (G & NZ).
    destruct (chunk_step c w G (UN c G) (or_intror RD)) as (w1 & E & L & R1 & GC & O & KEEP & lines & PV & PF & _).
    destruct (IH (c :: done) w1 ND') as (w' & W & L' & GD & O' & PV').
    + intros c' I. apply IN. right; auto.
    + intros c' [<- | D].
      * split; [exact G|]. split; auto.
      * destruct (DN c' D) as (G' & N' & GG). split; [exact G'|].
        split; [intros K; apply N'; right; auto|].
        apply (KEEP NZ c' G'); auto. intros ->. apply N'. left; auto.
    + exact R1.
    + intros c' G'. apply (unlocked_step c c' w w1 G G' L (UN c G)).
    + exists w'. split; [econstructor; eauto|]. split; [congruence|]. split; [|split].
      * intros c' [D | [<- | I]]; apply GD; [left; right|left; left|right]; auto.
      * intros n N. rewrite (O' n N). apply O. intros ds. apply N. exact G.
      * rewrite PV', PV. assert (logs (brick c) = false) as LG.
        { destruct G as (GX & GY). unfold logs. cbn [w_prov w_chx w_chy part].
          destruct c as (a, b'). cbn [fst snd] in *.
          assert (a <> 0 \/ b' <> 0) as K.
          { destruct (Z.eq_dec a 0) as [-> |]; [|auto]. destruct (Z.eq_dec b' 0) as [-> |]; auto. }
          lia. }
        rewrite LG in PF. destruct lines; [apply app_nil_r|discriminate].
Qed.

Lemma all_chunks ids w : in_grid t (0, 0) -> NoDup ((0, 0) :: ids) -> (forall c, In c ids -> in_grid t c) ->
  unlocked (brick (0, 0)) pn w ->
  exists w', written pn (map (fun c => brick c) ((0, 0) :: ids)) w w' /\ locks w' = locks w /\
    (forall c, In c ((0, 0) :: ids) -> good c w') /\
    (forall n, (forall c ds, in_grid t c -> ~ is_file (brick c) n ds) -> disk w' n = disk w n) /\
    exists lines, prov w' = prov w ++ lines /\
      map pl_file lines = (if zlen (w_prov t) >? 0 then files (brick (0, 0)) else []) /\
      Forall (fun l => pl_origin l = w_prov t) lines.
Proof.
  intros G0 ND IN UN. inversion ND as [|? ? NI ND']; subst.
  destruct (chunk_step (0, 0) w G0 UN (or_introl eq_refl)) as (w1 & E & L & R1 & GC & O & _ & lines & PV & PF & PO).
  destruct (chunks_rest ids [(0, 0)] w1 ND') as (w' & W & L' & GD & O' & PV').
  - intros c I. split; [apply IN; auto|]. intros ->. contradiction.
  - intros c [<- | []]. auto.
  - exact R1.
  - intros c G. apply (unlocked_step (0, 0) c w w1 G0 G L UN).
  - exists w'. split; [cbn [map]; econstructor; eauto|]. split; [congruence|]. split; [|split].
    + intros c [<- | I]; apply GD; [left; left|right]; auto.
    + intros n N. rewrite (O' n N). apply O. intros ds. apply N. exact G0.
    + exists lines. rewrite PV'. split; [exact PV|]. split; [|exact PO]. rewrite PF.
      unfold logs. cbn [w_prov w_chx w_chy part fst snd].
      change (0 <=? 0) with true. rewrite !andb_true_r. reflexivity.
Qed.
End Tile.

(** Concurrent writers. *)
Definition inside_pc (p : pc) : bool :=
  match p with Locked | Ready _ | Written | Failed => true | _ => false end.
Definition wrote_pc (p : pc) : bool := match p with Written | Done => true | _ => false end.

Lemma list_set_same {A} (l : list A) i v x : nth_error l i = Some x -> nth_error (list_set l i v) i = Some v.
Proof. revert i; induction l; intros [|i] H; cbn in *; try discriminate; auto. Qed.
Lemma list_set_other {A} (l : list A) i j v : i <> j -> nth_error (list_set l i v) j = nth_error l j.
Proof. revert i j; induction l; intros [|i] [|j] H; cbn; auto; try congruence. Qed.

Record cinv (ws : list writer) (e : option entry) (s : shared) (l : list nat) : Prop := mkCinv {
  ci_serial : serial ws e l (sh_file s);
  ci_nodup : NoDup l;
  ci_who : forall i, In i l <-> exists p, nth_error (sh_pcs s) i = Some p /\ wrote_pc p = true;
  ci_in : forall i p, nth_error (sh_pcs s) i = Some p -> inside_pc p = true -> sh_lock s = Some i;
  ci_held : forall i, sh_lock s = Some i -> exists p, nth_error (sh_pcs s) i = Some p /\ inside_pc p = true;
  ci_ready : forall i r, nth_error (sh_pcs s) i = Some (Ready r) ->
    exists b ds upd, nth_error ws i = Some (b, ds) /\ content b ds (sh_file s) = Ret (Some (r, upd)) }.

Lemma nth_upd {A} (l : list A) i j v p x : nth_error l i = Some x ->
  nth_error (list_set l i v) j = Some p -> (j = i /\ p = v) \/ (j <> i /\ nth_error l j = Some p).
Proof.
  intros I H. destruct (Nat.eq_dec i j) as [<- | N].
  - rewrite (list_set_same l i v x I) in H. inversion H; auto.
  - rewrite list_set_other in H by auto. auto.
Qed.

Lemma cinv_init ws e : cinv ws e (initial e ws) [].
Proof.
  assert (forall i p, nth_error (sh_pcs (initial e ws)) i = Some p -> p = Start) as H.
  { intros i p H. cbn in H. rewrite nth_error_map in H. destruct (nth_error ws i); cbn in H; congruence. }
  constructor.
  - constructor.
  - constructor.
  - intros i. split; [intros []|]. intros (p & A & B). rewrite (H i p A) in B. discriminate.
  - intros i p A B. rewrite (H i p A) in B. discriminate.
  - intros i A. discriminate.
  - intros i r A. apply H in A. discriminate.
Qed.

Lemma cinv_step ws e s s' l : cinv ws e s l -> step ws s s' -> exists l', cinv ws e s' l'.
Proof.
  intros [SE ND WHO IN HE RE] ST.
  assert (forall i p q, nth_error (sh_pcs s) i = Some p -> wrote_pc p = false -> wrote_pc q = false ->
    forall j, In j l <-> exists p0, nth_error (set_pc s i q) j = Some p0 /\ wrote_pc p0 = true) as WHO0.
  { intros i p q A P Q j. rewrite WHO. unfold set_pc. split; intros (p0 & B & C).
    - exists p0. split; auto. rewrite list_set_other; auto. intros ->. congruence.
    - destruct (nth_upd _ _ _ _ _ _ A B) as [(-> & ->) | (N & K)]; [congruence|]. eauto. }
  inversion ST; subst; cbn [sh_file sh_lock sh_pcs] in *.
  - (* lock *) exists l. constructor; cbn [sh_file sh_lock sh_pcs]; auto.
    + apply (WHO0 i Start Locked H); auto.
    + intros j p B C. unfold set_pc in B. destruct (nth_upd _ _ _ _ _ _ H B) as [(-> & ->) | (N & K)]; auto.
      rewrite (IN j p K C) in H0. discriminate.
    + intros j E. inversion E; subst j. exists Locked. split; auto. eapply list_set_same; eauto.
    + intros j r B. unfold set_pc in B. destruct (nth_upd _ _ _ _ _ _ H B) as [(-> & D) | (N & K)]; [discriminate|auto].
  - (* timeout *) exists l. constructor; cbn [sh_file sh_lock sh_pcs]; auto.
    + apply (WHO0 i Start GaveUp H); auto.
    + intros j p B C. unfold set_pc in B. destruct (nth_upd _ _ _ _ _ _ H B) as [(-> & ->) | (N & K)]; [discriminate|eauto].
    + intros j E. destruct (HE j E) as (p & A & B). exists p. split; auto. unfold set_pc.
      rewrite list_set_other; auto. intros ->. rewrite H in A. inversion A; subst p. discriminate.
    + intros j r B. unfold set_pc in B. destruct (nth_upd _ _ _ _ _ _ H B) as [(-> & D) | (N & K)]; [discriminate|auto].
  - (* read *) exists l. constructor; cbn [sh_file sh_lock sh_pcs]; auto.
    + apply (WHO0 i Locked (Ready r) H); auto.
    + intros j p B C. unfold set_pc in B. destruct (nth_upd _ _ _ _ _ _ H B) as [(-> & ->) | (N & K)]; [|eauto].
      apply (IN i Locked H). reflexivity.
    + intros j E. assert (j = i) as ->. { rewrite (IN i Locked H eq_refl) in E. congruence. }
      exists (Ready r). split; auto. eapply list_set_same; eauto.
    + intros j r' B. unfold set_pc in B. destruct (nth_upd _ _ _ _ _ _ H B) as [(-> & D) | (N & K)]; [|auto].
      inversion D; subst r'. eauto 6.
  - (* fail *) exists l. constructor; cbn [sh_file sh_lock sh_pcs]; auto.
    + apply (WHO0 i Locked Failed H); auto.
    + intros j p B C. unfold set_pc in B. destruct (nth_upd _ _ _ _ _ _ H B) as [(-> & ->) | (N & K)]; [|eauto].
      apply (IN i Locked H). reflexivity.
    + intros j E. assert (j = i) as ->. { rewrite (IN i Locked H eq_refl) in E. congruence. }
      exists Failed. split; auto. eapply list_set_same; eauto.
    + intros j r' B. unfold set_pc in B. destruct (nth_upd _ _ _ _ _ _ H B) as [(-> & D) | (N & K)]; [discriminate|auto].
  - (* write *) exists (l ++ [i]). destruct (RE i r H) as (b & ds & upd & W & C).
    constructor; cbn [sh_file sh_lock sh_pcs]; auto.
    + econstructor; eauto.
    + assert (~ In i l) as NI.
      { rewrite WHO. intros (p & A & B). rewrite H in A. inversion A; subst p. discriminate. }
      clear - ND NI. induction l as [|a l IH]; cbn [app].
      * constructor; [intros []|constructor].
      * inversion ND; subst. constructor.
        -- rewrite in_app_iff. intros [K | [K | []]]; [contradiction|]. apply NI. left; auto.
        -- apply IH; auto. intros K; apply NI; right; auto.
    + intros j. rewrite in_app_iff, WHO. unfold set_pc. split.
      * intros [(p & A & B) | [<- | []]].
        -- exists p. split; auto. rewrite list_set_other; auto. intros ->. rewrite H in A. inversion A; subst p; discriminate.
        -- exists Written. split; auto. eapply list_set_same; eauto.
      * intros (p & A & B). destruct (nth_upd _ _ _ _ _ _ H A) as [(-> & ->) | (N & K)]; [right; left; auto|left; eauto].
    + intros j p B D. unfold set_pc in B. destruct (nth_upd _ _ _ _ _ _ H B) as [(-> & ->) | (N & K)]; [|eauto].
      apply (IN i (Ready r) H). reflexivity.
    + intros j E. assert (j = i) as ->. { rewrite (IN i (Ready r) H eq_refl) in E. congruence. }
      exists Written. split; auto. eapply list_set_same; eauto.
    + intros j r' B. unfold set_pc in B. destruct (nth_upd _ _ _ _ _ _ H B) as [(-> & D) | (N & K)]; [discriminate|].
      pose proof (IN j (Ready r') K eq_refl). pose proof (IN i (Ready r) H eq_refl). congruence.
  - (* unlock *) exists l. pose proof (IN i Written H eq_refl) as LI.
    constructor; cbn [sh_file sh_lock sh_pcs]; auto.
    + intros j. rewrite WHO. unfold set_pc. split; intros (p & A & B).
      * destruct (Nat.eq_dec i j) as [<- | N].
        -- exists Done. split; auto. eapply list_set_same; eauto.
        -- exists p. rewrite list_set_other by auto. auto.
      * destruct (nth_upd _ _ _ _ _ _ H A) as [(-> & ->) | (N & K)]; eauto.
    + intros j p B D. unfold set_pc in B. destruct (nth_upd _ _ _ _ _ _ H B) as [(-> & ->) | (N & K)]; [discriminate|].
      pose proof (IN j p K D). congruence.
    + intros j E. discriminate.
    + intros j r' B. unfold set_pc in B. destruct (nth_upd _ _ _ _ _ _ H B) as [(-> & D) | (N & K)]; [discriminate|auto].
Qed.

Lemma cinv_reach ws e s : steps ws (initial e ws) s -> exists l, cinv ws e s l.
Proof.
  intros H. remember (initial e ws) as s0 eqn:E. induction H; subst.
  - exists []. apply cinv_init.
  - destruct IHsteps as (l & I); auto. eapply cinv_step; eauto.
Qed.

Lemma steps_length ws s s' : steps ws s s' -> length (sh_pcs s') = length (sh_pcs s).
Proof.
  assert (forall A (l : list A) i v, length (list_set l i v) = length l) as G.
  { induction l; intros [|i] v; cbn; auto. }
  induction 1 as [|s t u H IH ST]; auto. rewrite <- IH. inversion ST; subst; cbn [sh_pcs]; apply G.
Qed.
