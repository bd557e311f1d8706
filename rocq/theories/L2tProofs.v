(** Lemmas on Level 2 output. *)
From Coq Require Import Reals Lra.
From Flocq Require Import Core.
From Verif Require Import Base BaseFacts Loops LoopsFacts ChunkProofs RoundModel RoundFacts CubeModel CubeSpec CubeProofs QaiModel QaiSpec QaiProofs TileModel TileSpec TileProofs ToolSpec ToolGrid ImpSeason StdzProofs L2tModel L2tSpec.
#[local] Open Scope Z_scope.

(** ** Pixels of a tile *)
Lemma positions_len c p : 0 <= tile_nx c p -> 0 <= tile_ny c p -> zlen (positions c p) = tile_nx c p * tile_ny c p.
Proof.
  intros X Y. unfold positions, zlen. replace (Z.of_nat (length (flat_map _ _))) with (tile_nx c p * zlen (zupto (tile_ny c p))); [unfold zlen; rewrite zupto_length; nia|].
  unfold zlen. induction (zupto (tile_ny c p)) as [|a l IH]; cbn [flat_map length]; [lia|]. rewrite app_length, map_length, zupto_length. lia.
Qed.
Lemma positions_get c p i j : in_image (tile_nx c p) (tile_ny c p) i j -> get_at (positions c p) (i * tile_nx c p + j) = Some (i, j).
Proof.
  intros (I & J). unfold positions. rewrite (get_flat _ (tile_nx c p) (zupto (tile_ny c p)) i i j); auto.
  - rewrite get_map, get_zupto by lia. reflexivity.
  - intros x. unfold zlen. rewrite map_length, zupto_length. lia.
  - rewrite get_zupto by lia. reflexivity.
Qed.
(** The value of a pixel of a tile. *)
Definition tile_value (p : product) (i0 j0 : Z) (band : list Z * Z) (ij : Z * Z) : Z :=
  if outside p (fst ij + i0) (snd ij + j0) then snd band
  else match get_at (fst band) (pr_nx p * (fst ij + i0) + (snd ij + j0)) with Some v => v | None => 0 end.
Definition tile_bands (c : cube) (ulx uly : Z) (t : Z * Z) (p : product) : list (list Z) :=
  map (fun band => map (tile_value p (row_start c uly (snd t) p) (col_start c ulx (fst t) p) band) (positions c p)) (pr_bands p).
Lemma outside_spec p i j : outside p i j = false <-> in_image (pr_nx p) (pr_ny p) i j.
Proof. unfold outside, in_image. lia. Qed.
Lemma tile_product_eq c ulx uly tx ty p : well_formed p -> tile_product c ulx uly tx ty p = Ret (tile_bands c ulx uly (tx, ty) p).
Proof.
  intros (NX & NY & R & F). unfold tile_product, tile_bands. apply omap_map. intros band Ib. apply omap_map. intros ij _. unfold tile_pixel, tile_value. cbn [fst snd]. destruct (outside p _ _) eqn:O; auto. apply outside_spec in O. destruct O as (O1 & O2).
  rewrite Forall_forall in F. specialize (F band Ib). destruct (get_at_some (fst band) (pr_nx p * (fst ij + row_start c uly ty p) + (snd ij + col_start c ulx tx p))) as (v & ->); [rewrite F; nia|]. reflexivity.
Qed.
(** Dimensions: a tile holds whole pixels. *)
Lemma tile_dims c p : whole_pixels c -> 0 < pr_res p -> (pr_res p | size_x c) -> (pr_res p | size_y c) ->
  0 < tile_nx c p /\ 0 < tile_ny c p /\ tile_nx c p * pr_res p = size_x c /\ tile_ny c p * pr_res p = size_y c /\ tile_nx c p = size_x c / pr_res p /\ tile_ny c p = size_y c / pr_res p.
Proof.
  intros ((SX & SY & R) & (kx & Kx) & (ky & Ky)) Rp (mx & Mx) (my & My). unfold tile_nx, tile_ny, dim_cols, dim_rows.
  assert (size_x c / res c * res c = size_x c) as -> by (rewrite Kx, Z.div_mul by lia; lia). assert (size_y c / res c * res c = size_y c) as -> by (rewrite Ky, Z.div_mul by lia; lia).
  rewrite !Z.quot_div_nonneg by lia. rewrite Mx, My, !Z.div_mul by lia. nia.
Qed.
Lemma start_aligned c ulx uly tx ty p : 0 < pr_res p -> aligned c ulx uly p -> ulx + col_start c ulx tx p * pr_res p = corner_x c tx /\ uly - row_start c uly ty p * pr_res p = corner_y c ty.
Proof.
  intros R ((a & A) & (b & B) & (mx & Mx) & (my & My)). unfold col_start, row_start, tile_ulx, tile_uly, corner_x, corner_y. subst ulx uly. rewrite Mx, My.
  replace (ox c + tx * (mx * pr_res p) - (ox c + a * pr_res p)) with ((tx * mx - a) * pr_res p) by ring. replace (oy c + b * pr_res p - (oy c - ty * (my * pr_res p))) with ((b + ty * my) * pr_res p) by ring. rewrite !Z.div_mul by lia. split; ring.
Qed.
Lemma bands_show_at c ulx uly ulx' uly' t p b band nodata : whole_pixels c -> well_formed p -> (pr_res p | size_x c) -> (pr_res p | size_y c) -> ulx' + col_start c ulx (fst t) p * pr_res p = corner_x c (fst t) -> uly' - row_start c uly (snd t) p * pr_res p = corner_y c (snd t) ->
  nth_error (pr_bands p) b = Some (band, nodata) ->
  exists tb, nth_error (tile_bands c ulx uly t p) b = Some tb /\ shows ulx' uly' (corner_x c (fst t)) (corner_y c (snd t)) p band nodata (size_x c / pr_res p) (size_y c / pr_res p) tb.
Proof.
  intros C W Dx Dy Sx Sy G. destruct W as (NX & NY & R & F). destruct (tile_dims c p C R Dx Dy) as (X & Y & _ & _ & Ex & Ey). rewrite <- Ex, <- Ey.
  unfold tile_bands. rewrite nth_error_map, G. cbn [option_map]. eexists. split; [reflexivity|]. split; [rewrite zlen_map; apply positions_len; lia|].
  intros i j I. rewrite get_map, positions_get by auto. cbn [option_map]. eexists. split; [reflexivity|]. unfold tile_value. cbn [fst snd]. set (i0 := row_start c uly (snd t) p) in *. set (j0 := col_start c ulx (fst t) p) in *. split.
  - intros i' j' x y I' (X1 & Y1) (X2 & Y2). assert (j' = j + j0) as -> by (apply (Z.mul_reg_r _ _ (pr_res p)); lia). assert (i' = i + i0) as -> by (apply (Z.mul_reg_r _ _ (pr_res p)); lia). apply outside_spec in I' as O. rewrite O. apply nth_error_In in G. rewrite Forall_forall in F. specialize (F _ G). cbn [fst] in F. destruct I' as (I1 & I2).
    replace (pr_nx p * (i + i0) + (j + j0)) with ((i + i0) * pr_nx p + (j + j0)) by ring. destruct (get_at_some band ((i + i0) * pr_nx p + (j + j0))) as (v & ->); [rewrite F; nia|]. reflexivity.
  - intros H. destruct (outside p (i + i0) (j + j0)) eqn:O; auto. apply outside_spec in O. exfalso. eapply (H (i + i0) (j + j0)); [exact O|split; reflexivity|]. split; lia.
Qed.
Lemma bands_show c ulx uly t p b band nodata : whole_pixels c -> well_formed p -> aligned c ulx uly p -> nth_error (pr_bands p) b = Some (band, nodata) ->
  exists tb, nth_error (tile_bands c ulx uly t p) b = Some tb /\ shows ulx uly (corner_x c (fst t)) (corner_y c (snd t)) p band nodata (size_x c / pr_res p) (size_y c / pr_res p) tb.
Proof.
  intros C W A G. pose proof W as (_ & _ & R & _). destruct (start_aligned c ulx uly (fst t) (snd t) p R A) as (Sx & Sy). destruct A as (_ & _ & Dx & Dy). eapply bands_show_at; eauto.
Qed.
(** Images off the grid: less than one pixel. *)
Lemma start_near c ulx uly tx ty p : 0 < pr_res p -> exists dx dy, 0 <= dx < pr_res p /\ 0 <= dy < pr_res p /\ (ulx + dx) + col_start c ulx tx p * pr_res p = corner_x c tx /\ (uly - dy) - row_start c uly ty p * pr_res p = corner_y c ty.
Proof.
  intros R. unfold col_start, row_start, tile_ulx, tile_uly, corner_x, corner_y. pose proof (Z.div_mod (ox c + tx * size_x c - ulx) (pr_res p) ltac:(lia)) as D1. pose proof (Z.mod_pos_bound (ox c + tx * size_x c - ulx) (pr_res p) R). pose proof (Z.div_mod (uly - (oy c - ty * size_y c)) (pr_res p) ltac:(lia)) as D2. pose proof (Z.mod_pos_bound (uly - (oy c - ty * size_y c)) (pr_res p) R).
  exists ((ox c + tx * size_x c - ulx) mod pr_res p), ((uly - (oy c - ty * size_y c)) mod pr_res p). lia.
Qed.

(** ** The tiles written *)
Definition written_tile (c : cube) (maxtc : R) (ulx uly : Z) (qai : product) (ps : list product) (t : Z * Z) : option written :=
  let ws := words c ulx uly (fst t) (snd t) qai (tile_bands c ulx uly t qai) in
  if n_valid ws =? 0 then None
  else if too_cloudy maxtc (n_valid ws) (n_cloudy ws) then None
  else Some (mkWritten t (tile_ulx c (fst t)) (tile_uly c (snd t)) (pr_res qai) (map (tile_bands c ulx uly t) ps)).
Lemma one_tile_eq c maxtc ulx uly qai ps t : Forall well_formed (qai :: ps) -> one_tile c maxtc ulx uly (qai :: ps) t = Ret (written_tile c maxtc ulx uly qai (qai :: ps) t).
Proof.
  intros F. inversion F as [|? ? W F']; subst. unfold one_tile, written_tile. rewrite tile_product_eq by auto. cbn [bind]. rewrite <- surjective_pairing. destruct (_ =? 0); auto. destruct (too_cloudy _ _ _); auto.
  rewrite (omap_map _ (tile_bands c ulx uly t)); [reflexivity|]. intros p Ip. rewrite Forall_forall in F. rewrite tile_product_eq by auto. rewrite <- surjective_pairing. auto.
Qed.
Lemma tile_level2_eq c maxtc e allow ulx uly qai ps : Forall well_formed (qai :: ps) -> exists out, tile_level2 c maxtc e allow ulx uly (qai :: ps) = Ret out /\
  (forall w, In w out <-> exists t, In t (tiles_of e allow) /\ written_tile c maxtc ulx uly qai (qai :: ps) t = Some w) /\ (NoDup (tiles_of e allow) -> NoDup (map w_tile out)).
Proof.
  intros F. unfold tile_level2. rewrite (omap_map _ (written_tile c maxtc ulx uly qai (qai :: ps))) by (intros t _; apply one_tile_eq; auto). cbn [bind]. eexists. split; [reflexivity|]. split.
  - intros w. rewrite map_map, in_concat. split.
    + intros (l & Il & I). apply in_map_iff in Il. destruct Il as (t & <- & It). exists t. split; auto. destruct (written_tile _ _ _ _ _ _ t); [destruct I as [<-|[]]; auto|destruct I].
    + intros (t & It & E). exists [w]. split; [|left; auto]. apply in_map_iff. exists t. rewrite E. auto.
  - assert (forall t w, written_tile c maxtc ulx uly qai (qai :: ps) t = Some w -> w_tile w = t) as Wt by (intros t w; unfold written_tile; destruct (_ =? 0); [discriminate|]; destruct (too_cloudy _ _ _); [discriminate|]; intros Q; injection Q as <-; reflexivity).
    assert (forall l t, In t (map w_tile (concat (map (fun o : option written => match o with Some w => [w] | None => [] end) (map (written_tile c maxtc ulx uly qai (qai :: ps)) l)))) -> In t l) as Sub.
    { induction l as [|a l IH]; cbn [map concat]; intros t I; auto. destruct (written_tile _ _ _ _ _ _ a) as [w|] eqn:E; cbn [app map] in I; [destruct I as [I|I]; [left; rewrite <- I; symmetry; auto|]|]; right; auto. }
    induction (tiles_of e allow) as [|a l IH]; cbn [map concat]; [constructor|]. intros N. inversion N as [|? ? Na Nl]; subst. destruct (written_tile _ _ _ _ _ _ a) as [w|] eqn:E; cbn [app map]; auto. constructor; auto. rewrite (Wt _ _ E). intros I. apply Sub in I. auto.
Qed.
Lemma tiles_of_In e allow t : In t (tiles_of e allow) <-> in_extent e t /\ (allow = [] \/ In t allow).
Proof.
  unfold tiles_of. rewrite filter_In, allowlisted_spec, <- surjective_pairing, in_flat_map. unfold in_extent. split.
  - intros ((ty & Iy & I) & A). apply in_map_iff in I. destruct I as (tx & <- & Ix). apply zrange_In in Ix, Iy. cbn [fst snd]. auto.
  - intros ((X & Y) & A). split; auto. exists (snd t). split; [apply zrange_In; auto|]. apply in_map_iff. exists (fst t). rewrite <- surjective_pairing. split; auto. apply zrange_In; auto.
Qed.
Lemma tiles_of_NoDup e allow : NoDup (tiles_of e allow).
Proof.
  apply NoDup_filter. rewrite flat_map_concat_map. apply (NoDup_map_inv swap). apply lex_nodup. rewrite concat_map, map_map. apply (sorted_concat (fun y => y)).
  - apply zrange_sorted.
  - intros ty _. rewrite map_map. cbn [swap fst snd]. split; [|intros k I; apply in_map_iff in I; destruct I as (f & <- & _); reflexivity]. apply (sorted_map Z.lt); [|apply zrange_sorted]. intros u v Q. right. cbn. lia.
Qed.

(** ** Numbers of valid and cloudy pixels *)
Lemma filter_inside {A} (ins : A -> bool) (f : A -> Z) (v : Z -> bool) : forall l, (forall x, In x l -> ins x = false -> v (f x) = false) ->
  filter v (map snd (filter (fun w => ins (fst w)) (combine l (map f l)))) = filter v (map f l).
Proof.
  induction l as [|a l IH]; intros H; auto. cbn [map combine filter fst]. destruct (ins a) eqn:E; cbn [map filter snd]; rewrite IH by (intros; apply H; auto; right; auto); auto.
  rewrite (H a (or_introl eq_refl) E). auto.
Qed.
Lemma words_counts c ulx uly t qai band nodata rest (v : Z -> bool) : pr_bands qai = (band, nodata) :: rest -> v nodata = false ->
  exists tb, nth_error (tile_bands c ulx uly t qai) 0 = Some tb /\ filter v (words c ulx uly (fst t) (snd t) qai (tile_bands c ulx uly t qai)) = filter v tb.
Proof.
  intros E V. unfold tile_bands. rewrite E. cbn [map nth_error]. eexists. split; [reflexivity|]. unfold words. set (i0 := row_start c uly (snd t) qai). set (j0 := col_start c ulx (fst t) qai).
  apply (filter_inside (fun ij => negb (outside qai (fst ij + i0) (snd ij + j0)))). intros ij _ O. apply negb_false_iff in O. unfold tile_value. rewrite O. auto.
Qed.
Lemma tile_words_short c ulx uly t qai band nodata rest tb : well_formed qai -> pr_bands qai = (band, nodata) :: rest -> Forall in_short band -> in_short nodata ->
  nth_error (tile_bands c ulx uly t qai) 0 = Some tb -> Forall in_short tb.
Proof.
  intros W E F N G. unfold tile_bands in G. rewrite E in G. cbn [map nth_error] in G. injection G as <-. apply Forall_map, Forall_forall. intros ij _. unfold tile_value. destruct (outside _ _ _); auto. cbn [fst]. destruct (get_at band _) as [v|] eqn:Q; [|unfold in_short; lia]. rewrite Forall_forall in F. apply F. eapply get_at_In; eauto.
Qed.
Lemma valid_word_spec w : in_short w -> valid_word w = (flag_value Off w =? 0).
Proof. intros W. unfold valid_word, on. rewrite get_flag_value by auto. apply negb_involutive. Qed.
Lemma flag_range f w : 0 <= flag_value f w <= flag_max f.
Proof. unfold flag_value, flag_max, field. pose proof (Z.mod_pos_bound (w / 2 ^ fst (layout f)) (2 ^ snd (layout f))). destruct f; cbn [layout fst snd] in *; specialize (H ltac:(reflexivity)); lia. Qed.
Lemma cloudy_word_spec w : in_short w -> (valid_word w && cloudy_word w = true <-> cloudy w).
Proof.
  intros W. rewrite valid_word_spec by auto. unfold cloudy_word, cloudy, on. rewrite !get_flag_value by auto. pose proof (flag_range Shadow w) as R. unfold flag_max in R. cbn [layout snd] in R. change (2 ^ 1 - 1) with 1 in R. lia.
Qed.
Definition cloudyb (w : Z) : bool := (flag_value Off w =? 0) && ((flag_value Cloud w >? 0) || (flag_value Shadow w =? 1)).
Lemma cloudyb_spec w : cloudyb w = true <-> cloudy w.
Proof. unfold cloudyb, cloudy. lia. Qed.
Lemma counts_spec c ulx uly t qai band nodata rest : well_formed qai -> pr_bands qai = (band, nodata) :: rest -> Forall in_short band -> in_short nodata -> flag_value Off nodata = 1 ->
  exists tb, nth_error (tile_bands c ulx uly t qai) 0 = Some tb /\ let ws := words c ulx uly (fst t) (snd t) qai (tile_bands c ulx uly t qai) in
    count_words valid tb (n_valid ws) /\ count_words cloudy tb (n_cloudy ws) /\ 0 <= n_cloudy ws <= n_valid ws.
Proof.
  intros W E F N O. assert (valid_word nodata = false) as Vn by (rewrite valid_word_spec by auto; lia).
  destruct (words_counts c ulx uly t qai band nodata rest valid_word E Vn) as (tb & G & Q1). destruct (words_counts c ulx uly t qai band nodata rest (fun w => valid_word w && cloudy_word w) E) as (tb' & G' & Q2); [rewrite Vn; auto|]. rewrite G in G'. injection G' as <-.
  exists tb. split; auto. cbv zeta. set (ws := words _ _ _ _ _ _ _) in *. pose proof (tile_words_short c ulx uly t qai band nodata rest tb W E F N G) as S. rewrite Forall_forall in S.
  split; [|split].
  - exists (fun w => flag_value Off w =? 0). split; [intros w; unfold valid; apply Z.eqb_eq|]. unfold n_valid. rewrite Q1. f_equal. apply filter_ext_in. intros w I. apply valid_word_spec; auto.
  - exists cloudyb. split; [apply cloudyb_spec|]. unfold n_cloudy. rewrite Q2. f_equal. apply filter_ext_in. intros w I. apply Bool.eq_iff_eq_true. rewrite cloudyb_spec. apply cloudy_word_spec; auto.
  - unfold n_cloudy, n_valid, zlen. clear. induction ws as [|w ws IH]; cbn [filter]; [cbn; lia|]. destruct (valid_word w); cbn [andb]; [|auto]. destruct (cloudy_word w); cbn [length]; lia.
Qed.
#[local] Open Scope R_scope.
Lemma cloud_share nv nc : (0 < nv)%Z -> (0 <= nc <= nv)%Z -> Rabs (rnd64 (rnd64 (IZR nc / IZR nv) * 100) - 100 * IZR nc / IZR nv) <= / 1000000000 /\ rnd64 (rnd64 (IZR nc / IZR nv) * 100) <= 100.
Proof.
  intros Nv Nc. assert (0 < IZR nv) as P by (apply IZR_lt; auto). assert (0 <= IZR nc <= IZR nv) as [A B] by (split; apply IZR_le; lia).
  assert (0 <= IZR nc / IZR nv <= 1) as Q. { split; [apply Rmult_le_pos; auto; left; now apply Rinv_0_lt_compat|]. apply (Rmult_le_reg_r (IZR nv)); auto. unfold Rdiv. rewrite Rmult_assoc, Rinv_l by lra. lra. }
  replace (100 * IZR nc / IZR nv) with (100 * (IZR nc / IZR nv)) by (unfold Rdiv; ring). set (q := IZR nc / IZR nv) in *. clearbody q.
  pose proof (rnd64_err q 1 ltac:(lra) ltac:(apply Rabs_le; lra)) as E1. apply Rabs_le_inv in E1.
  assert (rnd64 q <= 1) as U by (rewrite <- (rnd64_int 1) by (cbn; lia); apply rnd64_le; lra).
  pose proof (rnd64_err (rnd64 q * 100) 200 ltac:(lra) ltac:(apply Rabs_le; lra)) as E2. apply Rabs_le_inv in E2. split; [apply Rabs_le; lra|].
  rewrite <- (rnd64_int 100) at 2 by (cbn; lia). apply rnd64_le. lra.
Qed.
#[local] Open Scope Z_scope.

(** ** Extent *)
Lemma corner_tiles_spec c corners : 0 < size_x c -> 0 < size_y c -> exists ts, corner_tiles c corners = Some ts /\ forall k, In k corners -> exists t, In t ts /\ covers c (fst t) (snd t) (fst k) (snd k).
Proof.
  intros SX SY. induction corners as [|a l (ts & E & H)]; [exists []; split; auto; intros k []|]. unfold corner_tiles in *. cbn [fold_right]. rewrite E. destruct (tile_find_covers c (fst a) (snd a) SX SY) as (p & q & -> & C). cbn [id_x id_y]. eexists. split; [reflexivity|].
  intros k [<-|I]; [exists (p, q); split; [left; auto|auto]|]. destruct (H k I) as (t & It & Ct). exists t. split; [right|]; auto.
Qed.
Lemma fold_min_le : forall l a x, In x l \/ x = a -> fold_left Z.min l a <= x.
Proof. induction l as [|y l IH]; cbn [fold_left]; intros a x H; [destruct H as [[]|H]; lia|]. destruct H as [[->|H]|H]; [transitivity (Z.min a x); [apply IH; auto|lia]|apply IH; auto|transitivity (Z.min a y); [apply IH; auto|lia]]. Qed.
Lemma fold_max_ge : forall l a x, In x l \/ x = a -> x <= fold_left Z.max l a.
Proof. induction l as [|y l IH]; cbn [fold_left]; intros a x H; [destruct H as [[]|H]; lia|]. destruct H as [[->|H]|H]; [transitivity (Z.max a x); [lia|apply IH; auto]|apply IH; auto|transitivity (Z.max a y); [lia|apply IH; auto]]. Qed.
Lemma extent_covers c corners : 0 < size_x c -> 0 < size_y c -> exists e, tile_extent c corners = Some e /\ forall x y p q, in_box corners x y -> interior c p q x y -> in_extent e (p, q).
Proof.
  intros SX SY. destruct (corner_tiles_spec c corners SX SY) as (ts & E & H). unfold tile_extent. rewrite E. eexists. split; [reflexivity|]. intros x y p q (l & r & t & b & Il & Ir & It & Ib & Hx & Hy) (I1 & I2).
  destruct (H l Il) as (tl & Jl & (Cl & _)), (H r Ir) as (tr & Jr & (Cr & _)), (H t It) as (tt & Jt & (_ & Ct)), (H b Ib) as (tb & Jb & (_ & Cb)). unfold in_extent. cbn [xmin xmax ymin ymax fst snd].
  pose proof (fold_min_le (map fst ts) 2147483647 (fst tl) (or_introl (in_map fst _ _ Jl))). pose proof (fold_max_ge (map fst ts) (-2147483648) (fst tr) (or_introl (in_map fst _ _ Jr))).
  pose proof (fold_min_le (map snd ts) 2147483647 (snd tt) (or_introl (in_map snd _ _ Jt))). pose proof (fold_max_ge (map snd ts) (-2147483648) (snd tb) (or_introl (in_map snd _ _ Jb))).
  unfold corner_x, corner_y in *. assert (fst tl <= p) by nia. assert (p <= fst tr) by nia. assert (snd tt <= q) by nia. assert (q <= snd tb) by nia. lia.
Qed.
(** The tile and the place of an image pixel in it. *)
Lemma pixel_tile c ulx uly p i' j' : whole_pixels c -> 0 < pr_res p -> aligned c ulx uly p -> exists t i j x y, in_image (size_x c / pr_res p) (size_y c / pr_res p) i j /\
  pixel_at (corner_x c (fst t)) (corner_y c (snd t)) (pr_res p) i j x y /\ pixel_at ulx uly (pr_res p) i' j' x y /\ (forall a b, x < a < x + pr_res p -> y - pr_res p < b < y -> interior c (fst t) (snd t) a b).
Proof.
  intros ((SX & SY & _) & _) R ((m & M) & (n & N) & (mx & Mx) & (my & My)). rewrite Mx, My, !Z.div_mul by lia. assert (0 < mx) by nia. assert (0 < my) by nia.
  exists ((m + j') / mx, (i' - n) / my), ((i' - n) mod my), ((m + j') mod mx), (ulx + j' * pr_res p), (uly - i' * pr_res p). cbn [fst snd].
  pose proof (Z.div_mod (m + j') mx ltac:(lia)) as D1. pose proof (Z.mod_pos_bound (m + j') mx ltac:(lia)) as B1. pose proof (Z.div_mod (i' - n) my ltac:(lia)) as D2. pose proof (Z.mod_pos_bound (i' - n) my ltac:(lia)) as B2.
  set (P := (m + j') / mx) in *. set (J := (m + j') mod mx) in *. set (Q := (i' - n) / my) in *. set (I := (i' - n) mod my) in *. clearbody P J Q I.
  assert (j' = mx * P + J - m) as -> by lia. assert (i' = my * Q + I + n) as -> by lia. unfold in_image, pixel_at, interior, corner_x, corner_y. subst ulx uly. rewrite Mx, My. split; [auto|]. split; [split; ring|]. split; [split; ring|]. intros a b A B. split; nia.
Qed.
Lemma pixel_tile_unique c r t t' i j i' j' x y : 0 < r -> 0 < size_x c -> 0 < size_y c -> (r | size_x c) -> (r | size_y c) -> in_image (size_x c / r) (size_y c / r) i j -> in_image (size_x c / r) (size_y c / r) i' j' ->
  pixel_at (corner_x c (fst t)) (corner_y c (snd t)) r i j x y -> pixel_at (corner_x c (fst t')) (corner_y c (snd t')) r i' j' x y -> t = t'.
Proof.
  intros R SX SY (mx & Mx) (my & My). rewrite Mx, My, !Z.div_mul by lia. assert (0 < mx) by nia. assert (0 < my) by nia. unfold in_image, pixel_at, corner_x, corner_y. rewrite Mx, My. intros (A1 & A2) (A3 & A4) (A5 & A6) (A7 & A8). destruct t as [p q], t' as [p' q']. cbn [fst snd] in *.
  assert (p * mx + j = p' * mx + j') by (apply (Z.mul_reg_r _ _ r); lia). assert (q * my + i = q' * my + i') by (apply (Z.mul_reg_r _ _ r); lia). f_equal; nia.
Qed.
(** ** Quicklook *)
Lemma stretch_spec v : Z.abs (stretch v - Z.max 0 (Z.min 2500 v) * 255 / 2500) <= 1 /\ 0 <= stretch v <= 255.
Proof.
  unfold stretch. destruct (v <? 0) eqn:L; [replace (Z.max 0 (Z.min 2500 v)) with 0 by lia; change (0 * 255 / 2500) with 0; lia|]. destruct (v >? 2500) eqn:H; [replace (Z.max 0 (Z.min 2500 v)) with 2500 by lia; change (2500 * 255 / 2500) with 255; lia|]. replace (Z.max 0 (Z.min 2500 v)) with v by lia.
  assert (0 <= IZR v <= 2500)%R as V by (split; apply IZR_le; lia). set (q := (IZR v / 2500)%R). assert (0 <= q <= 1)%R as Q by (unfold q; lra).
  pose proof (rnd64_err q 1 ltac:(lra) ltac:(apply Rabs_le; lra)) as E1. apply Rabs_le_inv in E1. assert (0 <= rnd64 q)%R as L0 by (rewrite <- rnd64_0; apply rnd64_le; lra). assert (rnd64 q <= 1)%R as U by (rewrite <- (rnd64_int 1) by (cbn; lia); apply rnd64_le; lra).
  pose proof (rnd64_err (rnd64 q * 255) 300 ltac:(lra) ltac:(apply Rabs_le; lra)) as E2. apply Rabs_le_inv in E2.
  assert (0 <= rnd64 (rnd64 q * 255))%R as L1 by (rewrite <- rnd64_0; apply rnd64_le; lra). assert (rnd64 (rnd64 q * 255) <= 255)%R as U1 by (apply Rle_trans with (rnd64 255); [apply rnd64_le; lra|rewrite rnd64_int by (cbn; lia); lra]).
  assert (255 * IZR v / 2500 - / 100000 <= rnd64 (rnd64 q * 255) <= 255 * IZR v / 2500 + / 100000)%R as B by (unfold q in *; lra). set (s := rnd64 (rnd64 q * 255)) in *. clearbody s.
  rewrite Ztrunc_floor by lra. pose proof (Zfloor_lb s) as F1. pose proof (Zfloor_ub s) as F2. pose proof (Z.div_mod (v * 255) 2500 ltac:(lia)) as DM. pose proof (Z.mod_pos_bound (v * 255) 2500 ltac:(lia)) as MB. set (D := v * 255 / 2500) in *. set (m := (v * 255) mod 2500) in *.
  apply (f_equal IZR) in DM. rewrite plus_IZR, !mult_IZR in DM. assert (0 <= IZR m <= 2499)%R as M by (split; apply IZR_le; lia).
  assert (0 <= Zfloor s <= 255) as Rg by (split; [apply Zfloor_lub; lra|apply le_IZR; lra]). split; auto.
  assert (IZR D - / 100000 <= s < IZR D + 1)%R as [S1 S2] by lra. assert (Zfloor s <= D) by (apply Zlt_succ_le, lt_IZR; unfold Z.succ; rewrite plus_IZR; lra). assert (D - 1 <= Zfloor s) by (apply Zfloor_lub; rewrite minus_IZR; lra). lia.
Qed.
Lemma look_from_range k n r r' : 0 < r -> 0 < r' -> 0 <= n -> 0 <= k < look_size n r r' -> 0 <= look_from k r r' < n /\ look_from k r r' * r <= k * r' < (look_from k r r' + 1) * r.
Proof.
  intros R R' N K. unfold look_size, look_from in *. rewrite Z.quot_div_nonneg in * by nia. pose proof (Z.div_mod (k * r') r ltac:(lia)). pose proof (Z.mod_pos_bound (k * r') r R). pose proof (Z.div_mod (n * r) r' ltac:(lia)). pose proof (Z.mod_pos_bound (n * r) r' R'). set (a := n * r / r') in *. set (b := k * r' / r) in *. assert (b * r <= k * r' < (b + 1) * r) by lia. assert (0 <= b) by nia. assert (b < n) by nia. auto.
Qed.
(** A band that shows the quality band is the band of the tile. *)
Lemma shows_unique c ulx uly t p band nodata tb tb' : whole_pixels c -> well_formed p -> aligned c ulx uly p ->
  shows ulx uly (corner_x c (fst t)) (corner_y c (snd t)) p band nodata (size_x c / pr_res p) (size_y c / pr_res p) tb -> shows ulx uly (corner_x c (fst t)) (corner_y c (snd t)) p band nodata (size_x c / pr_res p) (size_y c / pr_res p) tb' -> tb = tb'.
Proof.
  intros C (_ & _ & R & _) A (L & S) (L' & S'). destruct (start_aligned c ulx uly (fst t) (snd t) p R A) as (Sx & Sy). destruct A as (_ & _ & Dx & Dy). destruct (tile_dims c p C R Dx Dy) as (X & Y & _ & _ & Ex & Ey). rewrite <- Ex, <- Ey in *.
  set (nx := tile_nx c p) in *. set (ny := tile_ny c p) in *. set (i0 := row_start c uly (snd t) p) in *. set (j0 := col_start c ulx (fst t) p) in *.
  apply get_at_ext; [unfold zlen in *; lia|]. intros k. destruct (Z_lt_dec k 0) as [N|N]; [|destruct (Z_lt_dec k (nx * ny)) as [M|M]].
  - unfold get_at. replace (k <? 0) with true by lia. auto.
  - pose proof (Z.div_mod k nx ltac:(lia)) as D. pose proof (Z.mod_pos_bound k nx X) as B. set (i := k / nx) in *. set (j := k mod nx) in *. assert (in_image nx ny i j) as I by (split; [nia|lia]). replace k with (i * nx + j) by lia.
    destruct (S i j I) as (v & -> & V1 & V2). destruct (S' i j I) as (v' & -> & V1' & V2'). f_equal. destruct (outside p (i + i0) (j + j0)) eqn:O.
    + assert (forall i' j' x y, in_image (pr_nx p) (pr_ny p) i' j' -> pixel_at (corner_x c (fst t)) (corner_y c (snd t)) (pr_res p) i j x y -> ~ pixel_at ulx uly (pr_res p) i' j' x y) as Q.
      { intros i' j' x y I' (X1 & Y1) (X2 & Y2). assert (j' = j + j0) as -> by (apply (Z.mul_reg_r _ _ (pr_res p)); lia). assert (i' = i + i0) as -> by (apply (Z.mul_reg_r _ _ (pr_res p)); lia). apply outside_spec in I'. congruence. }
      rewrite V2, V2' by auto. auto.
    + apply outside_spec in O. assert (get_at band ((i + i0) * pr_nx p + (j + j0)) = Some v) as W by (eapply V1; [exact O|split; reflexivity|split; lia]). assert (get_at band ((i + i0) * pr_nx p + (j + j0)) = Some v') as W' by (eapply V1'; [exact O|split; reflexivity|split; lia]). congruence.
  - replace (get_at tb k) with (@None Z) by (symmetry; apply get_at_none; lia). symmetry. apply get_at_none. lia.
Qed.
Lemma count_unique P l n n' : count_words P l n -> count_words P l n' -> n = n'.
Proof. intros (f & F & ->) (g & G & ->). f_equal. apply filter_ext. intros w. apply Bool.eq_iff_eq_true. rewrite F, G. tauto. Qed.
(** When a tile is written. *)
Lemma written_tile_spec c maxtc ulx uly qai ps t band nodata rest tb nv nc : whole_pixels c -> well_formed qai -> pr_bands qai = (band, nodata) :: rest -> Forall in_short band -> in_short nodata -> flag_value Off nodata = 1 -> aligned c ulx uly qai ->
  shows ulx uly (corner_x c (fst t)) (corner_y c (snd t)) qai band nodata (size_x c / pr_res qai) (size_y c / pr_res qai) tb -> count_words valid tb nv -> count_words cloudy tb nc ->
  0 <= nc <= nv /\ ((exists w, written_tile c maxtc ulx uly qai ps t = Some w) <-> 0 < nv /\ too_cloudy maxtc nv nc = false).
Proof.
  intros C W E F N O A S V K. destruct (counts_spec c ulx uly t qai band nodata rest W E F N O) as (tb' & G & V' & K' & B). destruct (bands_show c ulx uly t qai 0 band nodata C W A) as (tb2 & G2 & S2); [rewrite E; reflexivity|]. rewrite G in G2. injection G2 as <-.
  assert (tb = tb') as -> by (eapply shows_unique; eauto). cbv zeta in *. assert (nv = n_valid (words c ulx uly (fst t) (snd t) qai (tile_bands c ulx uly t qai))) as -> by (eapply count_unique; eauto). assert (nc = n_cloudy (words c ulx uly (fst t) (snd t) qai (tile_bands c ulx uly t qai))) as -> by (eapply count_unique; eauto).
  split; auto. unfold written_tile. set (ws := words _ _ _ _ _ _ _) in *. destruct (n_valid ws =? 0) eqn:Z0; [split; [intros (w & Q); discriminate|lia]|]. destruct (too_cloudy _ _ _); [split; [intros (w & Q); discriminate|intros (_ & Q); discriminate]|]. split; [intros _; split; auto; lia|intros _; eexists; reflexivity].
Qed.
Lemma written_tile_data c maxtc ulx uly qai ps t w : written_tile c maxtc ulx uly qai ps t = Some w -> w = mkWritten t (corner_x c (fst t)) (corner_y c (snd t)) (pr_res qai) (map (tile_bands c ulx uly t) ps).
Proof. unfold written_tile. destruct (_ =? 0); [discriminate|]. destruct (too_cloudy _ _ _); [discriminate|]. intros Q. injection Q as <-. reflexivity. Qed.
Lemma forall2_map {A B} (P : A -> B -> Prop) (f : A -> B) : forall l, (forall a, In a l -> P a (f a)) -> Forall2 P l (map f l).
Proof. induction l as [|a l IH]; intros H; constructor; [apply H; left; auto|]. apply IH. intros; apply H; right; auto. Qed.
(** Quality words are the sum of their parts. *)
Lemma compose_spec w : 0 <= w < 2 ^ 15 -> compose (map (fun f => (f, flag_value f w)) documented_flags) = w.
Proof.
  intros W. unfold compose, documented_flags. cbn [map fold_right fst snd layout]. unfold flag_value, field. cbn [layout fst snd].
  change (2 ^ 0) with 1. change (2 ^ 1) with 2. change (2 ^ 2) with 4. change (2 ^ 3) with 8. change (2 ^ 4) with 16. change (2 ^ 5) with 32. change (2 ^ 6) with 64. change (2 ^ 8) with 256. change (2 ^ 9) with 512. change (2 ^ 10) with 1024. change (2 ^ 11) with 2048. change (2 ^ 13) with 8192. change (2 ^ 14) with 16384. change (2 ^ 15) with 32768 in W. Z.to_euclidean_division_equations. lia.
Qed.
