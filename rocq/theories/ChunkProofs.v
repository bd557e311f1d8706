From Verif Require Import Base BaseFacts Loops LoopsFacts ImgSpec ImgFacts ChunkModel ChunkSpec.

(** ** Lists *)
Lemma get_cons_0 {A} (x : A) l : get_at (x :: l) 0 = Some x.
Proof. reflexivity. Qed.
Lemma get_cons_S {A} (x : A) l i : 0 < i -> get_at (x :: l) i = get_at l (i - 1).
Proof.
  intros H. unfold get_at. replace (i <? 0) with false by lia. replace (i - 1 <? 0) with false by lia.
  replace (Z.to_nat i) with (S (Z.to_nat (i - 1))) by lia. reflexivity.
Qed.
Lemma zlen_c {A} (x : A) l : zlen (x :: l) = zlen l + 1.
Proof. unfold zlen. cbn [length]. lia. Qed.
Lemma zlen_a {A} (l l' : list A) : zlen (l ++ l') = zlen l + zlen l'.
Proof. unfold zlen. rewrite app_length. lia. Qed.
Lemma zlen_map {A B} (f : A -> B) l : zlen (map f l) = zlen l.
Proof. unfold zlen. now rewrite map_length. Qed.
Lemma get_map {A B} (f : A -> B) l i : get_at (map f l) i = option_map f (get_at l i).
Proof.
  unfold get_at. destruct (i <? 0); auto. rewrite nth_error_map. reflexivity.
Qed.
Lemma get_app_l {A} (a b : list A) i : 0 <= i < zlen a -> get_at (a ++ b) i = get_at a i.
Proof.
  unfold zlen. intros H. unfold get_at. destruct (i <? 0); auto. apply nth_error_app1. lia.
Qed.
Lemma get_app_r {A} (a b : list A) i : zlen a <= i -> get_at (a ++ b) i = get_at b (i - zlen a).
Proof.
  unfold zlen. intros H. unfold get_at. replace (i <? 0) with false by lia. replace (i - Z.of_nat (length a) <? 0) with false by lia.
  rewrite nth_error_app2 by lia. f_equal. lia.
Qed.
Lemma get_zupto n i : 0 <= i < n -> get_at (zupto n) i = Some i.
Proof.
  intros H. unfold get_at. replace (i <? 0) with false by lia.
  rewrite (nth_error_nth' _ 0) by (rewrite zupto_length; lia). f_equal. apply zupto_nth; auto.
Qed.
Lemma get_repeat {A} (x : A) n i : 0 <= i < n -> get_at (repeat x (Z.to_nat n)) i = Some x.
Proof.
  intros H. destruct (get_at_some (repeat x (Z.to_nat n)) i) as (v & E).
  - unfold zlen. rewrite repeat_length. lia.
  - rewrite E. f_equal. apply get_at_In in E. now apply repeat_spec in E.
Qed.
Lemma zlen_repeat {A} (x : A) n : 0 <= n -> zlen (repeat x (Z.to_nat n)) = n.
Proof. intros H. unfold zlen. rewrite repeat_length. lia. Qed.

Lemma all_some_ok {A} (l : list (option A)) : (forall i, 0 <= i < zlen l -> exists a, get_at l i = Some (Some a)) ->
  exists out, all_some l = Some out /\ l = map Some out.
Proof.
  induction l as [|x l IH]; intros H; cbn [all_some].
  - exists []. auto.
  - destruct (H 0) as (a & E). { rewrite zlen_c. pose proof (zlen_nonneg l). lia. }
    rewrite get_cons_0 in E. inversion E; subst x.
    destruct IH as (out & E1 & E2).
    { intros i R. destruct (H (i + 1)) as (b & Eb). { rewrite zlen_c. lia. }
      rewrite get_cons_S in Eb by lia. replace (i + 1 - 1) with i in Eb by lia. eauto. }
    rewrite E1. exists (a :: out). rewrite E2. auto.
Qed.

(** A table given row by row. *)
Definition rows {A} (g : Z -> Z -> A) (w h : Z) : list A := flat_map (fun row => map (g row) (zupto w)) (zupto h).
Lemma rows_spec {A} (g : Z -> Z -> A) w : 0 <= w -> forall h, 0 <= h ->
  zlen (rows g w h) = w * h /\ forall y x, inside w h y x -> pix (rows g w h) w y x = Some (g y x).
Proof.
  intros W. apply natlike_ind.
  - split; [unfold rows, zupto, zlen; cbn; lia|]. unfold inside. intros; lia.
  - intros h H (L & P). unfold Z.succ.
    assert (rows g w (h + 1) = rows g w h ++ map (g h) (zupto w)) as E.
    { unfold rows. rewrite zupto_snoc, flat_map_app by auto. cbn [flat_map]. now rewrite app_nil_r. }
    rewrite E. split.
    { rewrite zlen_a, zlen_map, L. unfold zlen. rewrite zupto_length. lia. }
    intros y x I. unfold inside in I. unfold pix. destruct (Z.eq_dec y h) as [-> |N].
    + rewrite get_app_r by (rewrite L; nia). rewrite L. replace (w * h + x - w * h) with x by lia.
      rewrite get_map, get_zupto by lia. reflexivity.
    + assert (inside w h y x) as I' by (unfold inside; lia).
      rewrite get_app_l by (rewrite L; now apply index_range). apply P; auto.
Qed.

Lemma window_ok band nx ny xoff yoff w h : zlen band = nx * ny -> 0 <= xoff -> xoff + w <= nx -> 0 <= yoff -> yoff + h <= ny ->
  0 < w -> 0 < h ->
  exists out, window band nx xoff yoff w h = Some out /\ zlen out = w * h /\
    forall y x, inside w h y x -> pix out w y x = pix band nx (yoff + y) (xoff + x).
Proof.
  intros L X1 X2 Y1 Y2 W H.
  set (g := fun row col => get_at band ((yoff + row) * nx + (xoff + col))).
  destruct (rows_spec g w ltac:(lia) h ltac:(lia)) as (RL & RP).
  assert (forall y x, inside w h y x -> exists v, g y x = Some v) as G.
  { intros y x I. unfold g. rewrite get_pix. unfold inside in I. apply (pix_some band nx ny); auto. unfold inside. lia. }
  destruct (all_some_ok (rows g w h)) as (out & E1 & E2).
  { intros i R. rewrite RL in R. destruct (index_split w h i W R) as (I & Q).
    destruct (G _ _ I) as (v & V). exists v. rewrite <- Q. specialize (RP _ _ I). unfold pix in RP. rewrite RP, V. auto. }
  exists out. split; [exact E1|]. rewrite E2 in RL. rewrite zlen_map in RL. split; auto.
  intros y x I. specialize (RP _ _ I). rewrite E2 in RP. unfold pix in *. rewrite get_map in RP. unfold g in RP.
  replace (nx * (yoff + y) + (xoff + x)) with ((yoff + y) * nx + (xoff + x)) by ring.
  destruct (get_at out (w * y + x)) as [v|]; cbn [option_map] in RP; congruence.
Qed.

Lemma raster_ok f b band xoff yoff w h : get_at (f_bands f) (b - 1) = Some band -> zlen band = f_nx f * f_ny f ->
  0 <= xoff -> xoff + w <= f_nx f -> 0 <= yoff -> yoff + h <= f_ny f -> 0 < w -> 0 < h ->
  exists out, raster_io f b xoff yoff w h = Some out /\ zlen out = w * h /\
    forall y x, inside w h y x -> pix out w y x = pix band (f_nx f) (yoff + y) (xoff + x).
Proof.
  intros B L X1 X2 Y1 Y2 W H. unfold raster_io.
  replace ((xoff <? 0) || (yoff <? 0) || (f_nx f <? xoff + w) || (f_ny f <? yoff + h)) with false by lia.
  rewrite B. eapply window_ok; eauto.
Qed.

(** ** Copying a block *)
Lemma copy_block_ok W H offy offx h w src blank dst : zlen dst = W * H -> 0 <= offy -> offy + h <= H -> 0 <= offx -> offx + w <= W ->
  0 <= h -> 0 <= w -> (forall s, src = Some s -> zlen s = w * h) ->
  exists dst', copy_block W offy offx h w src blank dst = Ret dst' /\ zlen dst' = W * H /\
    forall y x, inside W H y x -> pix dst' W y x =
      if (offy <=? y) && (y <? offy + h) && (offx <=? x) && (x <? offx + w)
      then match src with None => Some blank | Some s => pix s w (y - offy) (x - offx) end
      else pix dst W y x.
Proof.
  intros L Y1 Y2 X1 X2 Hh Hw S. unfold copy_block.
  set (val := fun y x => match src with None => Some blank | Some s => pix s w (y - offy) (x - offx) end).
  destruct (ofold_zrange (fun d row => ofold (fun d col => copy_cell W offy offx w src blank d row col) (zrange 0 (w - 1)) d)
    (fun k d => zlen d = W * H /\ forall y x, inside W H y x -> pix d W y x =
       if (offy <=? y) && (y <? offy + k) && (offx <=? x) && (x <? offx + w) then val y x else pix dst W y x)
    0 (h - 1) dst) as (d' & E & L' & P).
  - lia.
  - split; auto. intros y x I. replace ((offy <=? y) && (y <? offy + 0) && (offx <=? x) && (x <? offx + w)) with false by lia. auto.
  - intros row d Hrow (Ld & Pd).
    destruct (ofold_zrange (fun d col => copy_cell W offy offx w src blank d row col)
      (fun k e => zlen e = W * H /\ forall y x, inside W H y x -> pix e W y x =
         if (y =? row + offy) && (offx <=? x) && (x <? offx + k) then val y x else pix d W y x)
      0 (w - 1) d) as (e' & Ee & Le & Pe).
    + lia.
    + split; auto. intros y x I. replace ((y =? row + offy) && (offx <=? x) && (x <? offx + 0)) with false by lia. auto.
    + intros col e Hcol (Le & Pe).
      assert (inside W H (row + offy) (col + offx)) as I by (unfold inside; lia).
      assert (exists v, val (row + offy) (col + offx) = Some v /\
        match src with None => Ret blank | Some s => of_option (get_at s (row * w + col)) end = Ret v) as (v & V1 & V2).
      { unfold val. destruct src as [s|]; [|eauto]. replace (row + offy - offy) with row by lia. replace (col + offx - offx) with col by lia.
        destruct (pix_some s w h row col (S s eq_refl)) as (v & V); [unfold inside; lia|]. exists v. split; auto. rewrite get_pix, V. reflexivity. }
      destruct (set_pix e W H (row + offy) (col + offx) v Le I) as (e2 & S1 & S2 & S3 & S4).
      exists e2. unfold copy_cell. rewrite V2. cbn [bind].
      replace ((row + offy) * W + col + offx) with ((row + offy) * W + (col + offx)) by ring. rewrite S1. split; [reflexivity|]. split; auto.
      intros y x J. destruct (Z.eq_dec y (row + offy)) as [-> |Ny]; [destruct (Z.eq_dec x (col + offx)) as [-> |Nx]|].
      * replace ((row + offy =? row + offy) && (offx <=? col + offx) && (col + offx <? offx + (col + 1))) with true by lia. congruence.
      * rewrite S4 by (auto; congruence). rewrite Pe by auto.
        replace ((row + offy =? row + offy) && (offx <=? x) && (x <? offx + (col + 1))) with ((row + offy =? row + offy) && (offx <=? x) && (x <? offx + col)) by lia. auto.
      * rewrite S4 by (auto; congruence). rewrite Pe by auto. replace (y =? row + offy) with false by lia. auto.
    + exists e'. split; [exact Ee|]. split; auto. intros y x I. rewrite Pe by auto. rewrite Pd by auto.
      replace (offx + (w - 1 + 1)) with (offx + w) by lia.
      destruct (Z.eq_dec y (row + offy)) as [-> |N].
      * replace ((offy <=? row + offy) && (row + offy <? offy + (row + 1)) && (offx <=? x) && (x <? offx + w)) with ((row + offy =? row + offy) && (offx <=? x) && (x <? offx + w)) by lia.
        destruct ((row + offy =? row + offy) && (offx <=? x) && (x <? offx + w)); auto.
        replace ((offy <=? row + offy) && (row + offy <? offy + row) && (offx <=? x) && (x <? offx + w)) with false by lia. auto.
      * replace (y =? row + offy) with false by lia. cbn [andb].
        replace ((offy <=? y) && (y <? offy + (row + 1)) && (offx <=? x) && (x <? offx + w)) with ((offy <=? y) && (y <? offy + row) && (offx <=? x) && (x <? offx + w)) by lia. auto.
  - exists d'. split; [exact E|]. split; auto. intros y x I. rewrite P by auto. replace (offy + (h - 1 + 1)) with (offy + h) by lia. auto.
Qed.

Lemma copy_bands_ok W H offy offx h w src blank : 0 <= offy -> offy + h <= H -> 0 <= offx -> offx + w <= W ->
  0 <= h -> 0 <= w -> forall dst b, 0 <= b ->
  Forall (fun d => zlen d = W * H) dst ->
  (forall s, src = Some s -> forall k, 0 <= k < zlen dst -> exists band, get_at s (b + k) = Some band /\ zlen band = w * h) ->
  exists dst', copy_bands W offy offx h w src blank b dst = Ret dst' /\ zlen dst' = zlen dst /\
    Forall (fun d => zlen d = W * H) dst' /\
    forall k d, get_at dst k = Some d -> exists d', get_at dst' k = Some d' /\
      forall y x, inside W H y x -> pix d' W y x =
        if (offy <=? y) && (y <? offy + h) && (offx <=? x) && (x <? offx + w)
        then match src with
             | None => Some blank
             | Some s => match get_at s (b + k) with Some band => pix band w (y - offy) (x - offx) | None => None end
             end
        else pix d W y x.
Proof.
  intros Y1 Y2 X1 X2 Hh Hw. induction dst as [|d t IH]; intros b B F S; cbn [copy_bands].
  - exists []. split; [auto|]. split; [auto|]. split; [auto|]. intros k d G. apply get_at_inv in G. unfold zlen in G. cbn in G. lia.
  - inversion F as [|? ? Ld Ft]; subst.
    assert (exists s1, match src with None => Ret None | Some bs => s <- of_option (get_at bs b) ;; Ret (Some s) end = Ret s1 /\
      s1 = match src with None => None | Some bs => get_at bs b end /\ (forall s, s1 = Some s -> zlen s = w * h) /\
      (src <> None -> s1 <> None)) as (s1 & E1 & E2 & E3 & E4).
    { destruct src as [bs|].
      - destruct (S bs eq_refl 0) as (band & G & L). { rewrite zlen_c. pose proof (zlen_nonneg t). lia. }
        rewrite Z.add_0_r in G. rewrite G. cbn [of_option bind]. exists (Some band). repeat split; auto; congruence.
      - exists None. repeat split; auto; congruence. }
    rewrite E1. cbn [bind].
    destruct (copy_block_ok W H offy offx h w s1 blank d Ld Y1 Y2 X1 X2 Hh Hw E3) as (d' & C1 & C2 & C3).
    rewrite C1. cbn [bind].
    destruct (IH (b + 1)) as (t' & T1 & T2 & T3 & T4); [lia|auto| |].
    { intros s Es k K. destruct (S s Es (k + 1)) as (band & G & L). { rewrite zlen_c. lia. }
      replace (b + 1 + k) with (b + (k + 1)) by lia. eauto. }
    rewrite T1. cbn [bind]. exists (d' :: t'). split; [auto|]. split; [rewrite !zlen_c; lia|]. split; [constructor; auto|].
    intros k e G. pose proof (get_at_inv _ _ _ G) as R. destruct (Z.eq_dec k 0) as [-> |N].
    + rewrite get_cons_0 in G. inversion G; subst e. exists d'. split; [reflexivity|]. intros y x I. rewrite C3 by auto.
      destruct ((offy <=? y) && (y <? offy + h) && (offx <=? x) && (x <? offx + w)); auto.
      rewrite Z.add_0_r. rewrite E2. destruct src as [bs|]; auto. destruct (get_at bs b) as [band|] eqn:Gb; auto.
      exfalso. apply E4; [congruence|]. now rewrite E2.
    + rewrite get_cons_S in G by lia. destruct (T4 _ _ G) as (e' & G' & P). exists e'. rewrite get_cons_S by lia. split; auto.
      replace (b + k) with (b + 1 + (k - 1)) by lia. auto.
Qed.

(** ** Reading part of a chunk *)
(** Value of band number [b] of the bands of one tile. *)
Definition raw (nx : Z) (bs : list (list Z)) (b y x : Z) : option Z :=
  if b =? 0 then Some 0 else match get_at bs (b - 1) with Some band => pix band nx y x | None => None end.

Lemma rem_mult a res : 0 < res -> Z.rem (a * res) res = 0.
Proof. intros H. apply Z.rem_mul. lia. Qed.
Lemma quot_mult a res : 0 < res -> Z.quot (a * res) res = a.
Proof. intros H. apply Z.quot_mul. lia. Qed.

Lemma read_chunk_ok q resample dt bands res bs chx chy rx ry pixels :
  let l := mkLayout res (q_npx q * res) (q_npy q * res) (tile_w q * res) (tile_h q * res) in
  let f := mkFile res (tile_w q) (tile_h q) bs in
  let w := if rx =? 0 then q_npx q else pixels in
  let h := if ry =? 0 then q_npy q else pixels in
  let xo := if rx <? 0 then q_npx q - pixels else chx * q_npx q in
  let yo := if ry <? 0 then chy * q_npy q + q_npy q - pixels else chy * q_npy q in
  0 < res -> 0 < pixels -> -1 <= rx <= 1 -> -1 <= ry <= 1 -> 0 < q_npx q -> 0 < q_npy q ->
  Forall (fun b => zlen b = tile_w q * tile_h q) bs -> (forall b, In b bands -> 0 <= b <= zlen bs) ->
  0 <= xo -> xo + w <= tile_w q -> 0 <= yo -> yo + h <= tile_h q ->
  exists out, read_chunk l resample dt bands f chx chy (rx * (pixels * res)) (ry * (pixels * res)) = Some out /\ zlen out = zlen bands /\
    forall k b, get_at bands k = Some b -> exists band, get_at out k = Some band /\ zlen band = w * h /\
      forall y x, inside w h y x -> exists v, raw (tile_w q) bs b (yo + y) (xo + x) = Some v /\ pix band w y x = Some (store dt v).
Proof.
  intros l f w h xo yo HR HP Rx Ry HX HY FB BB X1 X2 Y1 Y2. unfold read_chunk.
  set (W := if rx * (pixels * res) =? 0 then l_cx l else Z.abs (rx * (pixels * res))).
  assert (W = w * res) as EW by (unfold W, w, l; cbn [l_cx]; clear - HR HP Rx; assert (0 < pixels * res) by nia;
    destruct (Z.eqb_spec rx 0) as [-> |N]; [replace (0 * (pixels * res) =? 0) with true by lia; auto|];
    replace (rx * (pixels * res) =? 0) with false by nia; assert (rx = -1 \/ rx = 1) as [-> | ->] by lia; lia).
  set (H := if ry * (pixels * res) =? 0 then l_cy l else Z.abs (ry * (pixels * res))).
  assert (H = h * res) as EH by (unfold H, h, l; cbn [l_cy]; clear - HR HP Ry; assert (0 < pixels * res) by nia;
    destruct (Z.eqb_spec ry 0) as [-> |N]; [replace (0 * (pixels * res) =? 0) with true by lia; auto|];
    replace (ry * (pixels * res) =? 0) with false by nia; assert (ry = -1 \/ ry = 1) as [-> | ->] by lia; lia).
  set (XO := if rx * (pixels * res) <? 0 then l_cx l + rx * (pixels * res) else chx * l_cx l).
  assert (XO = xo * res) as EX by (unfold XO, xo, l; cbn [l_cx]; clear - HR HP Rx; assert (0 < pixels * res) by nia;
    assert (rx = -1 \/ rx = 0 \/ rx = 1) as [-> |[-> | ->]] by lia;
    [replace (-1 * (pixels * res) <? 0) with true by lia|replace (0 * (pixels * res) <? 0) with false by lia|replace (1 * (pixels * res) <? 0) with false by lia];
    cbn [Z.ltb Z.compare]; ring).
  set (YO := if ry * (pixels * res) <? 0 then chy * l_cy l + l_cy l + ry * (pixels * res) else chy * l_cy l).
  assert (YO = yo * res) as EY by (unfold YO, yo, l; cbn [l_cy]; clear - HR HP Ry; assert (0 < pixels * res) by nia;
    assert (ry = -1 \/ ry = 0 \/ ry = 1) as [-> |[-> | ->]] by lia;
    [replace (-1 * (pixels * res) <? 0) with true by lia|replace (0 * (pixels * res) <? 0) with false by lia|replace (1 * (pixels * res) <? 0) with false by lia];
    cbn [Z.ltb Z.compare]; ring).
  assert (0 < w) as Pw by (unfold w; destruct (rx =? 0); lia).
  assert (0 < h) as Ph by (unfold h; destruct (ry =? 0); lia).
  cbv zeta. rewrite EW, EH, EX, EY. clearbody W H XO YO w h xo yo. clear W H XO YO EW EH EX EY.
  subst l f. cbn [l_res f_res f_bands]. rewrite !rem_mult, !quot_mult by auto. cbn [Z.ltb Z.compare orb].
  rewrite !Z.eqb_refl. cbn [andb].
  match goal with |- context [all_some (map ?g bands)] => set (rd := g) end.
  assert (forall b, In b bands -> exists band, rd b = Some band /\ zlen band = w * h /\
    forall y x, inside w h y x -> exists v, raw (tile_w q) bs b (yo + y) (xo + x) = Some v /\ pix band w y x = Some (store dt v)) as R.
  { intros b I. specialize (BB b I). unfold rd, raw. destruct (Z.eqb_spec b 0) as [-> |N].
    - eexists. split; [reflexivity|]. split; [apply zlen_repeat; nia|]. intros y x J. exists 0. split; auto.
      unfold pix. rewrite get_repeat by (now apply index_range). destruct dt; auto.
    - replace ((b <? 1) || (zlen bs <? b)) with false by lia.
      destruct (get_at_some bs (b - 1)) as (band & G); [lia|]. rewrite G.
      assert (zlen band = tile_w q * tile_h q) as LB by (rewrite Forall_forall in FB; apply FB; eapply get_at_In; eauto).
      destruct (raster_ok (mkFile res (tile_w q) (tile_h q) bs) b band xo yo w h) as (out & O1 & O2 & O3); auto.
      rewrite O1. eexists. split; [reflexivity|]. split; [rewrite zlen_map; auto|]. intros y x J.
      cbn [f_nx] in O3. specialize (O3 y x J). destruct (pix_some out w h y x O2 J) as (v & V).
      exists v. split; [congruence|]. unfold pix in *. rewrite get_map, V. reflexivity. }
  clearbody rd.
  destruct (all_some_ok (map rd bands)) as (out & A1 & A2).
  { intros i Hi. rewrite zlen_map in Hi. destruct (get_at_some bands i Hi) as (b & G).
    destruct (R b (get_at_In _ _ _ G)) as (band & E & _). exists band. rewrite get_map, G. cbn [option_map]. now rewrite E. }
  exists out. split; auto. split.
  { rewrite <- (zlen_map rd bands), A2, zlen_map. auto. }
  intros k b G. destruct (R b (get_at_In _ _ _ G)) as (band & E & L & P). exists band. split; [|auto].
  assert (get_at (map rd bands) k = Some (Some band)) as Q by (rewrite get_map, G; cbn [option_map]; now rewrite E).
  rewrite A2, get_map in Q. destruct (get_at out k); cbn [option_map] in Q; congruence.
Qed.

(** ** Neighbours *)
Lemma axis n p pixels c t rel k : 0 < n -> 0 < p -> 0 < pixels <= p -> 0 <= c < n -> -1 <= rel <= 1 ->
  let '(c', t') := neighbour n c t rel in
  let '(w, off) := insert_at p pixels rel in
  let o := c' * p + (if rel <? 0 then p - pixels else 0) in
  0 <= c' < n /\ 0 < w /\ 0 <= off /\ off + w <= p + pixels * 2 /\ w = (if rel =? 0 then p else pixels) /\
  0 <= o /\ o + w <= n * p /\
  (0 <= k < w -> ((t * n + c) * p - pixels + (off + k)) / (n * p) = t' /\
                 ((t * n + c) * p - pixels + (off + k)) mod (n * p) = o + k).
Proof.
  intros N P X C R. unfold neighbour, insert_at.
  assert (forall t' o, 0 <= o < n * p -> forall g, g = t' * (n * p) + o -> g / (n * p) = t' /\ g mod (n * p) = o) as U.
  { intros t' o B g ->. split; symmetry; [apply Z.div_unique with o|apply Z.mod_unique with t']; lia. }
  assert (rel = -1 \/ rel = 0 \/ rel = 1) as [-> |[-> | ->]] by lia; cbn [Z.ltb Z.eqb Z.compare].
  - destruct (Z.ltb_spec (c + -1) 0); [|destruct (Z.leb_spec n (c + -1)); [lia|]].
    + assert (c = 0) by lia. subst c. do 7 (split; [nia|]); intros K; apply U; [nia|ring].
    + do 7 (split; [nia|]); intros K; apply U; [nia|ring].
  - replace (c + 0 <? 0) with false by lia. replace (n <=? c + 0) with false by lia.
    do 7 (split; [nia|]); intros K; apply U; [nia|ring].
  - replace (c + 1 <? 0) with false by lia. destruct (Z.leb_spec n (c + 1)).
    + assert (c = n - 1) by lia. subst c. do 7 (split; [nia|]); intros K; apply U; [nia|ring].
    + do 7 (split; [nia|]); intros K; apply U; [nia|ring].
Qed.

(** The column actually shown at column [x] of the padded chunk. *)
Definition col_read (q : cube) (tx cx pixels x : Z) : Z :=
  if x <? pixels then (if cx =? 0 then tx - 1 else tx) * tile_w q + (q_npx q - pixels) + x
  else first_col q tx cx - pixels + x.

Section Pad.
Context (q : cube) (res : Z) (resample : Z -> Z -> Z -> Z -> list Z -> list Z) (dt : datatype) (bands : list Z) (nodata tx ty cx cy pixels : Z).
Hypothesis (Q : cube_ok q) (RES : 0 < res) (PIX : 0 < pixels) (PX : pixels <= q_npx q) (PY : pixels <= q_npy q)
  (CX : 0 <= cx < q_ncx q) (CY : 0 <= cy < q_ncy q)
  (BB : forall tx ty bs b, q_tile q tx ty = Some bs -> In b bands -> 0 <= b <= zlen bs).
Let l := mkLayout res (q_npx q * res) (q_npy q * res) (tile_w q * res) (tile_h q * res).
Let files tx ty := option_map (mkFile res (tile_w q) (tile_h q)) (q_tile q tx ty).
Let W := q_npx q + pixels * 2.
Let H := q_npy q + pixels * 2.

Definition in_part (rel : Z * Z) (y x : Z) : bool :=
  let '(h, offy) := insert_at (q_npy q) pixels (fst rel) in
  let '(w, offx) := insert_at (q_npx q) pixels (snd rel) in
  (offy <=? y) && (y <? offy + h) && (offx <=? x) && (x <? offx + w).
Definition good_pixel (k y x : Z) (d : list Z) : Prop :=
  forall b, get_at bands k = Some b -> exists v,
    world q nodata b (first_row q ty cy - pixels + y) (col_read q tx cx pixels x) = Some v /\ pix d W y x = Some (store dt v).
Definition shaped (brick : list (list Z)) : Prop := zlen brick = zlen bands /\ Forall (fun d => zlen d = W * H) brick.
Definition is_chunk (ard : list (list Z)) : Prop := zlen ard = zlen bands /\
  forall k b, get_at bands k = Some b -> exists band, get_at ard k = Some band /\ zlen band = q_npx q * q_npy q /\
    forall y x, inside (q_npx q) (q_npy q) y x -> exists v,
      world q nodata b (first_row q ty cy + y) (first_col q tx cx + x) = Some v /\ pix band (q_npx q) y x = Some (store dt v).

Lemma sizes : Z.quot (l_cx l) (l_res l) = q_npx q /\ Z.quot (l_cy l) (l_res l) = q_npy q /\
  Z.quot (pixels * res) (l_res l) = pixels /\ Z.quot (l_tx l) (l_cx l) = q_ncx q /\ Z.quot (l_ty l) (l_cy l) = q_ncy q.
Proof.
  destruct Q as (Q1 & Q2 & Q3 & Q4 & _). subst l. cbn [l_cx l_cy l_tx l_ty l_res]. rewrite !quot_mult by auto.
  unfold tile_w, tile_h. do 3 (split; [auto|]). split.
  - replace (q_ncx q * q_npx q * res) with (q_ncx q * (q_npx q * res)) by ring. apply quot_mult. nia.
  - replace (q_ncy q * q_npy q * res) with (q_ncy q * (q_npy q * res)) by ring. apply quot_mult. nia.
Qed.

Lemma world_at b R C tx' ty' bs y x : q_tile q tx' ty' = Some bs -> C / tile_w q = tx' -> C mod tile_w q = x -> R / tile_h q = ty' -> R mod tile_h q = y ->
  world q nodata b R C = raw (tile_w q) bs b y x.
Proof. intros E <- <- <- <-. unfold world, raw. rewrite E. reflexivity. Qed.

Lemma col_part rx x : -1 <= rx <= 1 ->
  let '(cx', tx') := neighbour (q_ncx q) cx tx rx in
  let '(w, offx) := insert_at (q_npx q) pixels rx in
  let xo := if rx <? 0 then q_npx q - pixels else cx' * q_npx q in
  0 <= cx' < q_ncx q /\ 0 < w /\ 0 <= offx /\ offx + w <= W /\ w = (if rx =? 0 then q_npx q else pixels) /\ 0 <= xo /\ xo + w <= tile_w q /\
  (offx <= x < offx + w -> col_read q tx cx pixels x / tile_w q = tx' /\ col_read q tx cx pixels x mod tile_w q = xo + (x - offx)).
Proof.
  intros R. destruct Q as (Q1 & Q2 & Q3 & Q4 & _). clear Q.
  pose proof (axis (q_ncx q) (q_npx q) pixels cx tx rx (x - snd (insert_at (q_npx q) pixels rx)) Q3 Q1 ltac:(lia) CX R) as A.
  unfold col_read. unfold tile_w, W, first_col in *.
  assert (rx = -1 \/ rx = 0 \/ rx = 1) as [-> |[-> | ->]] by lia.
  - clear A. unfold neighbour, insert_at. cbn [Z.ltb Z.eqb Z.compare].
    assert (forall t' o, 0 <= o < q_ncx q * q_npx q -> forall g, g = t' * (q_ncx q * q_npx q) + o -> g / (q_ncx q * q_npx q) = t' /\ g mod (q_ncx q * q_npx q) = o) as U.
    { intros t' o B g ->. split; symmetry; [apply Z.div_unique with o|apply Z.mod_unique with t']; lia. }
    destruct (Z.ltb_spec (cx + -1) 0); [|destruct (Z.leb_spec (q_ncx q) (cx + -1)); [lia|]].
    + replace (cx =? 0) with true by lia. do 7 (split; [nia|]). intros K. replace (x <? pixels) with true by lia. apply U; [nia|ring].
    + replace (cx =? 0) with false by lia. do 7 (split; [nia|]). intros K. replace (x <? pixels) with true by lia. apply U; [nia|ring].
  - destruct (neighbour (q_ncx q) cx tx 0) as [cx' tx']. unfold insert_at in *. cbn [Z.ltb Z.eqb Z.compare fst snd] in *.
    rewrite !Z.add_0_r in A. destruct A as (A1 & A2 & A3 & A4 & A5 & A6 & A7 & A8). do 7 (split; [auto|]). intros K.
    replace (x <? pixels) with false by lia. replace (pixels + (x - pixels)) with x in A8 by lia. apply A8. lia.
  - destruct (neighbour (q_ncx q) cx tx 1) as [cx' tx']. unfold insert_at in *. cbn [Z.ltb Z.eqb Z.compare fst snd] in *.
    rewrite !Z.add_0_r in A. destruct A as (A1 & A2 & A3 & A4 & A5 & A6 & A7 & A8). do 7 (split; [auto|]). intros K.
    replace (x <? pixels) with false by lia.
    replace (q_npx q + pixels * 2 - pixels + (x - (q_npx q + pixels * 2 - pixels))) with x in A8 by lia. apply A8. lia.
Qed.

Lemma add_part_ok ard brick rel : -1 <= fst rel <= 1 -> -1 <= snd rel <= 1 -> is_chunk ard -> shaped brick ->
  exists brick', add_part l resample dt bands nodata files tx ty cx cy (pixels * res) ard brick rel = Ret (Some brick') /\ shaped brick' /\
    forall k d, get_at brick k = Some d -> exists d', get_at brick' k = Some d' /\
      forall y x, inside W H y x -> if in_part rel y x then good_pixel k y x d' else pix d' W y x = pix d W y x.
Proof.
  destruct rel as [ry rx]. cbn [fst snd]. intros Ry Rx CH SH. unfold add_part.
  destruct sizes as (-> & -> & -> & -> & ->). 
  pose proof Q as (Q1 & Q2 & Q3 & Q4 & Q5).
  pose proof (fun x => col_part rx x Rx) as AX.
  pose proof (fun k => axis (q_ncy q) (q_npy q) pixels cy ty ry k Q4 Q2 ltac:(lia) CY Ry) as AY.
  unfold in_part. cbn [fst snd].
  destruct (neighbour (q_ncy q) cy ty ry) as [cy' ty'] eqn:NY. destruct (neighbour (q_ncx q) cx tx rx) as [cx' tx'] eqn:NX.
  destruct (insert_at (q_npy q) pixels ry) as [h offy] eqn:IY. destruct (insert_at (q_npx q) pixels rx) as [w offx] eqn:IX.
  cbv zeta in AX, AY.
  destruct (AX 0) as (X1 & X2 & X3 & X4 & X5 & X6 & X7 & _). destruct (AY 0) as (Y1 & Y2 & Y3 & Y4 & Y5 & Y6 & Y7 & _).
  assert (AX' : forall x, offx <= x < offx + w -> col_read q tx cx pixels x / tile_w q = tx' /\
     col_read q tx cx pixels x mod tile_w q = (if rx <? 0 then q_npx q - pixels else cx' * q_npx q) + (x - offx)) by (intros x; apply AX).
  set (yo := if ry <? 0 then cy' * q_npy q + q_npy q - pixels else cy' * q_npy q).
  assert (cy' * q_npy q + (if ry <? 0 then q_npy q - pixels else 0) = yo) as EYO by (unfold yo; destruct (ry <? 0); lia).
  rewrite EYO in *.
  assert (AY' : forall y, offy <= y < offy + h -> (first_row q ty cy - pixels + y) / tile_h q = ty' /\
     (first_row q ty cy - pixels + y) mod tile_h q = yo + (y - offy)).
  { intros y K. destruct (AY (y - offy)) as (_ & _ & _ & _ & _ & _ & _ & A).  unfold first_row, tile_h.
    replace (offy + (y - offy)) with y in A by lia. apply A. lia. }
  clear AX AY. destruct SH as (SL & SF).
  set (xo := if rx <? 0 then q_npx q - pixels else cx' * q_npx q) in *.
  (* copying a source that shows the right values *)
  assert (forall src,
    (forall s, src = Some s -> forall k, 0 <= k < zlen brick -> exists band, get_at s (0 + k) = Some band /\ zlen band = w * h) ->
    (forall k b y x, get_at bands k = Some b -> offy <= y < offy + h -> offx <= x < offx + w -> exists v,
       world q nodata b (first_row q ty cy - pixels + y) (col_read q tx cx pixels x) = Some v /\
       match src with None => Some (store dt nodata)
       | Some s => match get_at s (0 + k) with Some band => pix band w (y - offy) (x - offx) | None => None end end = Some (store dt v)) ->
    exists brick', (b <- copy_bands (q_npx q + pixels * 2) offy offx h w src (store dt nodata) 0 brick ;; Ret (Some b)) = Ret (Some brick') /\ shaped brick' /\
    forall k d, get_at brick k = Some d -> exists d', get_at brick' k = Some d' /\
      forall y x, inside W H y x -> if (offy <=? y) && (y <? offy + h) && (offx <=? x) && (x <? offx + w) then good_pixel k y x d' else pix d' W y x = pix d W y x) as COPY.
  { intros src S1 S2.
    destruct (copy_bands_ok W H offy offx h w src (store dt nodata) ltac:(lia) Y4 ltac:(lia) X4 ltac:(lia) ltac:(lia) brick 0 ltac:(lia) SF S1) as (brick' & B1 & B2 & B3 & B4).
    exists brick'. fold W. rewrite B1. cbn [bind]. split; [auto|]. split; [split; [lia|auto]|].
    intros k d G. destruct (B4 k d G) as (d' & G' & P). exists d'. split; auto. intros y x I. specialize (P y x I).
    destruct ((offy <=? y) && (y <? offy + h) && (offx <=? x) && (x <? offx + w)) eqn:IN; auto.
    intros b Gb. destruct (S2 k b y x Gb) as (v & V1 & V2); [lia|lia|]. exists v. split; auto. congruence. }
  assert (forall k, 0 <= k < zlen brick -> exists b, get_at bands k = Some b) as BK by (intros k K; apply get_at_some; lia).
  destruct ((ry =? 0) && (rx =? 0)) eqn:CENTER.
  - assert (ry = 0) by lia. assert (rx = 0) by lia. subst ry rx. cbn in IX, IY. inversion IX; inversion IY; subst. 
    destruct CH as (CL & CP). apply COPY.
    + intros s [= <-] k K. destruct (BK k K) as (b & G). destruct (CP k b G) as (band & B1 & B2 & _). rewrite Z.add_0_l. eauto.
    + intros k b y x G Ky Kx. destruct (CP k b G) as (band & B1 & B2 & B3). rewrite Z.add_0_l, B1.
      destruct (B3 (y - pixels) (x - pixels)) as (v & V1 & V2); [unfold inside; lia|]. exists v. split; auto.
      unfold col_read. replace (x <? pixels) with false by lia.
      replace (first_row q ty cy - pixels + y) with (first_row q ty cy + (y - pixels)) by lia.
      replace (first_col q tx cx - pixels + x) with (first_col q tx cx + (x - pixels)) by lia. auto.
  - unfold files at 1. destruct (q_tile q tx' ty') as [bs|] eqn:T; cbn [option_map].
    + destruct (read_chunk_ok q resample dt bands res bs cx' cy' rx ry pixels RES PIX Rx Ry Q1 Q2 (Q5 _ _ _ T) (fun b => BB _ _ _ b T)) as (out & O1 & O2 & O3).
      * exact X6. * rewrite <- X5. exact X7. * fold yo. exact Y6. * fold yo. rewrite <- Y5. exact Y7.
      * fold l in O1. rewrite O1. rewrite <- X5, <- Y5 in O3. fold xo yo in O3. apply COPY.
        -- intros s [= <-] k K. destruct (BK k K) as (b & G). destruct (O3 k b G) as (band & B1 & B2 & _). rewrite Z.add_0_l. eauto.
        -- intros k b y x G Ky Kx. destruct (O3 k b G) as (band & B1 & B2 & B3). rewrite Z.add_0_l, B1.
           destruct (B3 (y - offy) (x - offx)) as (v & V1 & V2); [unfold inside; lia|]. exists v. split; auto.
           destruct (AX' x Kx) as (E1 & E2). destruct (AY' y Ky) as (E3 & E4).
           rewrite (world_at b _ _ _ _ bs _ _ T E1 E2 E3 E4). auto.
    + apply COPY; [congruence|]. intros k b y x G Ky Kx. exists nodata. split; auto.
      destruct (AX' x Kx) as (E1 & E2). destruct (AY' y Ky) as (E3 & E4). unfold world. rewrite E1, E3, T. auto.
Qed.

Lemma add_parts_ok ard : is_chunk ard -> forall rels brick, Forall (fun rel => -1 <= fst rel <= 1 /\ -1 <= snd rel <= 1) rels -> shaped brick ->
  exists brick', add_parts l resample dt bands nodata files tx ty cx cy (pixels * res) ard rels brick = Ret (Some brick') /\ shaped brick' /\
    forall k d, get_at brick k = Some d -> exists d', get_at brick' k = Some d' /\
      forall y x, inside W H y x -> (exists rel, In rel rels /\ in_part rel y x = true) -> good_pixel k y x d'.
Proof.
  intros CH. 
  assert (forall rels brick, Forall (fun rel => -1 <= fst rel <= 1 /\ -1 <= snd rel <= 1) rels -> shaped brick ->
    exists brick', add_parts l resample dt bands nodata files tx ty cx cy (pixels * res) ard rels brick = Ret (Some brick') /\ shaped brick' /\
    forall k d, get_at brick k = Some d -> exists d', get_at brick' k = Some d' /\
      forall y x, inside W H y x -> (good_pixel k y x d -> good_pixel k y x d') /\ ((exists rel, In rel rels /\ in_part rel y x = true) -> good_pixel k y x d')) as G.
  { induction rels as [|rel rels IH]; intros brick F S; cbn [add_parts].
    - exists brick. split; [auto|]. split; [auto|]. intros k d Gd. exists d. split; auto. intros y x I. split; [auto|]. intros (? & [] & _).
    - inversion F as [|? ? (F1 & F2) F3]; subst. destruct (add_part_ok ard brick rel F1 F2 CH S) as (b1 & E1 & S1 & P1).
      rewrite E1. cbn [bind]. destruct (IH b1 F3 S1) as (b2 & E2 & S2 & P2). exists b2. split; [auto|]. split; [auto|].
      intros k d Gd. destruct (P1 k d Gd) as (d1 & G1 & R1). destruct (P2 k d1 G1) as (d2 & G2 & R2). exists d2. split; auto.
      intros y x I. specialize (R1 y x I). destruct (R2 y x I) as (R3 & R4). split.
      + intros Go. apply R3. destruct (in_part rel y x); auto. intros b Gb. destruct (Go b Gb) as (v & V1 & V2). exists v. split; auto. congruence.
      + intros (rel' & [<- |Ir] & Ip); [|apply R4; eauto]. rewrite Ip in R1. auto. }
  intros rels brick F S. destruct (G rels brick F S) as (b & E & S' & P). exists b. split; auto. split; auto.
  intros k d Gd. destruct (P k d Gd) as (d' & G' & R). exists d'. split; auto. intros y x I. apply R; auto.
Qed.

Lemma parts_cover y x : inside W H y x -> exists rel, In rel parts /\ in_part rel y x = true.
Proof.
  unfold inside, W, H. intros I.
  exists (if y <? pixels then -1 else if y <? pixels + q_npy q then 0 else 1, if x <? pixels then -1 else if x <? pixels + q_npx q then 0 else 1).
  split.
  - unfold parts. destruct (y <? pixels), (x <? pixels); try destruct (y <? pixels + q_npy q); try destruct (x <? pixels + q_npx q); cbn; tauto.
  - unfold in_part, insert_at. cbn [fst snd].
    destruct (Z.ltb_spec y pixels); [|destruct (Z.ltb_spec y (pixels + q_npy q))];
    (destruct (Z.ltb_spec x pixels); [|destruct (Z.ltb_spec x (pixels + q_npx q))]); cbn [Z.ltb Z.eqb Z.compare]; lia.
Qed.

Lemma chunk_ok bs : q_tile q tx ty = Some bs ->
  exists ard, read_chunk l resample dt bands (mkFile res (tile_w q) (tile_h q) bs) cx cy 0 0 = Some ard /\ is_chunk ard.
Proof.
  intros T. pose proof Q as (Q1 & Q2 & Q3 & Q4 & Q5).
  destruct (read_chunk_ok q resample dt bands res bs cx cy 0 0 pixels RES PIX ltac:(lia) ltac:(lia) Q1 Q2 (Q5 _ _ _ T) (fun b => BB _ _ _ b T)) as (out & O1 & O2 & O3);
    cbn [Z.ltb Z.eqb Z.compare] in *; unfold tile_w, tile_h; try nia.
  exists out. split; [exact O1|]. split; auto. intros k b G. destruct (O3 k b G) as (band & B1 & B2 & B3). exists band. split; auto. split; auto.
  intros y x I. destruct (B3 y x I) as (v & V1 & V2). exists v. split; auto. unfold inside in I.
  assert (forall n p c t k, 0 < n -> 0 < p -> 0 <= c < n -> 0 <= k < p -> ((t * n + c) * p + k) / (n * p) = t /\ ((t * n + c) * p + k) mod (n * p) = c * p + k) as U.
  { clear. intros n p c t k N P C K. assert (0 <= c * p + k < n * p) by nia.
    split; symmetry; [apply Z.div_unique with (c * p + k)|apply Z.mod_unique with t]; nia. }
  destruct (U (q_ncx q) (q_npx q) cx tx x) as (E1 & E2); try lia. destruct (U (q_ncy q) (q_npy q) cy ty y) as (E3 & E4); try lia.
  rewrite (world_at b _ _ tx ty bs (cy * q_npy q + y) (cx * q_npx q + x)); auto.
Qed.

Lemma padded : q_tile q tx ty <> None ->
  exists brick, read_padded l resample dt bands nodata files tx ty cx cy (pixels * res) = Ret (Some brick) /\ shaped brick /\
    forall k band, get_at brick k = Some band -> forall y x, inside W H y x -> good_pixel k y x band.
Proof.
  intros T. unfold read_padded. unfold files at 1. destruct (q_tile q tx ty) as [bs|] eqn:E; [|congruence]. cbn [option_map].
  destruct (chunk_ok bs E) as (ard & R & CH). rewrite R. replace (0 <? pixels * res) with true by nia.
  unfold add_chunks. destruct sizes as (-> & -> & -> & _ & _). fold W H.
  destruct (add_parts_ok ard CH parts (map (fun _ => repeat 0 (Z.to_nat (W * H))) ard)) as (brick & B1 & B2 & B3).
  - unfold parts. repeat constructor; cbn; lia.
  - split.
    + rewrite zlen_map. apply CH.
    + apply Forall_forall. intros d I. apply in_map_iff in I. destruct I as (? & <- & _). apply zlen_repeat.
      destruct Q as (Q1 & Q2 & _). unfold W, H. nia.
  - exists brick. split; auto. split; auto. intros k band G y x I.
    destruct (get_at_some (map (fun _ : list Z => repeat 0 (Z.to_nat (W * H))) ard) k) as (d & Gd).
    { rewrite zlen_map. apply get_at_inv in G. destruct B2 as (B2 & _). destruct CH as (CL & _). lia. }
    destruct (B3 k d Gd) as (d' & Gd' & P). assert (d' = band) by congruence. subst d'. apply P; auto. now apply parts_cover.
Qed.
End Pad.

(** ** Cropping *)
Lemma crop_short {A} (zero : A) nx ny p from : 0 <= p -> 2 * p <= nx -> 2 * p <= ny -> zlen from = nx * ny ->
  exists out, crop_band zero CT_SHORT nx ny p from = Ret out /\ zlen out = (nx - 2 * p) * (ny - 2 * p) /\
    forall y x, inside (nx - 2 * p) (ny - 2 * p) y x -> pix out (nx - 2 * p) y x = pix from nx (y + p) (x + p).
Proof.
  intros P Px Py L. unfold crop_band. cbv zeta. set (w := nx - 2 * p). set (h := ny - 2 * p).
  assert (0 <= w) as W0 by lia. assert (0 <= h) as H0 by lia. assert (nx = w + 2 * p) as En by lia. assert (ny = h + 2 * p) as Em by lia. clearbody w h.
  destruct (ofold_zrange (fun t i => ofold (fun t j => crop_cell CT_SHORT from nx w p t i j) (zrange 0 (w - 1)) t)
    (fun k d => zlen d = w * h /\ forall y x, inside w h y x -> y < k -> pix d w y x = pix from nx (y + p) (x + p))
    0 (h - 1) (repeat zero (Z.to_nat (w * h)))) as (d' & E & L' & Q).
  - lia.
  - split; [apply zlen_repeat; nia|]. unfold inside. lia.
  - intros i d Hi (Ld & Pd).
    destruct (ofold_zrange (fun t j => crop_cell CT_SHORT from nx w p t i j)
      (fun k d => zlen d = w * h /\ forall y x, inside w h y x -> y < i \/ y = i /\ x < k -> pix d w y x = pix from nx (y + p) (x + p))
      0 (w - 1) d) as (e' & Ee & Le & Pe).
    + lia.
    + split; auto. intros y x I J. apply Pd; auto. unfold inside in *. lia.
    + intros j e Hj (Le & Pe). assert (inside w h i j) as I by (unfold inside; lia).
      destruct (pix_some from nx ny (i + p) (j + p) L) as (v & V); [unfold inside; lia|].
      destruct (set_pix e w h i j v Le I) as (e2 & S1 & S2 & S3 & S4). exists e2. unfold crop_cell. cbv zeta.
      replace ((i + p) * nx + (j + p)) with (nx * (i + p) + (j + p)) by ring. unfold pix in V. rewrite V. cbn [of_option bind]. rewrite S1. split; [reflexivity|]. split; auto.
      intros y x J K. destruct (Z.eq_dec y i) as [-> |Ny]; [destruct (Z.eq_dec x j) as [-> |Nx]|].
      * rewrite S3. unfold pix. rewrite V. auto.
      * rewrite S4 by (auto; congruence). apply Pe; auto. lia.
      * rewrite S4 by (auto; congruence). apply Pe; auto. lia.
    + exists e'. split; [exact Ee|]. split; auto. intros y x I K. apply Pe; auto. unfold inside in I. lia.
  - exists d'. split; [exact E|]. split; auto. intros y x I. apply Q; auto. unfold inside in I. lia.
Qed.

Lemma ofold_bad {A S} (f : S -> A -> outcome S) (I : S -> Prop) a : (forall s, I s -> f s a = UB) ->
  forall l s, I s -> (forall x s, In x l -> I s -> f s x = UB \/ exists s', f s x = Ret s' /\ I s') ->
  ofold f l s = UB \/ (exists s', ofold f l s = Ret s' /\ I s' /\ ~ In a l).
Proof.
  intros Ha. induction l as [|x l IH]; intros s Is HS; cbn [ofold].
  - right. exists s. auto.
  - destruct (HS x s (or_introl eq_refl) Is) as [E|(s' & E & Is')].
    + left. now rewrite E.
    + rewrite E. cbn [bind]. destruct (IH s' Is') as [F|(t & F & It & N)].
      * intros y u Iy. apply HS. now right.
      * now left.
      * right. exists t. split; auto. split; auto. intros [-> |K]; auto. rewrite Ha in E; [discriminate|auto].
Qed.

Lemma crop_other {A} (zero : A) ct nx ny p from : ct <> CT_SHORT -> 0 < p -> 2 * p < nx -> 2 * p < ny ->
  crop_band zero ct nx ny p from = UB.
Proof.
  intros C P Px Py. unfold crop_band. cbv zeta. set (w := nx - 2 * p). set (h := ny - 2 * p).
  assert (0 < w) as W0 by lia. assert (0 < h) as H0 by lia. assert (nx = w + 2 * p) as En by lia. assert (ny = h + 2 * p) as Em by lia. clearbody w h.
  assert (STEP : forall i j t, zlen t = w * h -> crop_cell ct from nx w p t i j = UB \/ exists t', crop_cell ct from nx w p t i j = Ret t' /\ zlen t' = w * h).
  { intros i j t L. assert (crop_cell ct from nx w p t i j = (v <- of_option (get_at from (i * w + j)) ;; of_option (set_at t ((i + p) * nx + (j + p)) v))) as -> by (destruct ct; try congruence; reflexivity).
    destruct (get_at from (i * w + j)) as [v|]; cbn [of_option bind]; [|now left].
    destruct (set_at t ((i + p) * nx + (j + p)) v) as [t'|] eqn:E; cbn [of_option]; [|now left].
    right. exists t'. split; auto. rewrite <- L. apply set_at_length in E. lia. }
  assert (LAST : forall t, zlen t = w * h -> crop_cell ct from nx w p t (h - 1) (w - 1) = UB).
  { intros t L. assert (crop_cell ct from nx w p t (h - 1) (w - 1) = (v <- of_option (get_at from ((h - 1) * w + (w - 1))) ;; of_option (set_at t ((h - 1 + p) * nx + (w - 1 + p)) v))) as -> by (destruct ct; try congruence; reflexivity).
    destruct (get_at from ((h - 1) * w + (w - 1))) as [v|]; cbn [of_option bind]; auto.
    destruct (set_at t ((h - 1 + p) * nx + (w - 1 + p)) v) as [t'|] eqn:E; auto. exfalso.
    apply set_at_inv in E. nia. }
  assert (ROW : forall i t, zlen t = w * h ->
    ofold (fun t j => crop_cell ct from nx w p t i j) (zrange 0 (w - 1)) t = UB \/
    exists t', ofold (fun t j => crop_cell ct from nx w p t i j) (zrange 0 (w - 1)) t = Ret t' /\ zlen t' = w * h /\ i <> h - 1).
  { intros i t L. destruct (Z.eq_dec i (h - 1)) as [-> |N].
    - left. destruct (ofold_bad (fun t j => crop_cell ct from nx w p t (h - 1) j) (fun t => zlen t = w * h) (w - 1) LAST (zrange 0 (w - 1)) t L) as [E|(t' & _ & _ & N)]; auto.
      exfalso. apply N. apply zrange_In. lia.
    - generalize (zrange 0 (w - 1)) as l. intros l. revert t L. induction l as [|j l IH]; intros t L; cbn [ofold].
      + right. exists t. auto.
      + destruct (STEP i j t L) as [E|(t' & E & L')]; rewrite E; cbn [bind]; auto. }
  destruct (ofold_bad (fun t i => ofold (fun t j => crop_cell ct from nx w p t i j) (zrange 0 (w - 1)) t) (fun t => zlen t = w * h) (h - 1)) with (l := zrange 0 (h - 1)) (s := repeat zero (Z.to_nat (w * h))) as [E|(t' & _ & _ & N)]; auto.
  - intros t L. destruct (ROW (h - 1) t L) as [E|(t' & _ & _ & N)]; auto. congruence.
  - apply zlen_repeat. nia.
  - intros i t _ L. destruct (ROW i t L) as [E|(t' & E & L' & _)]; eauto.
  - exfalso. apply N. apply zrange_In. lia.
Qed.
