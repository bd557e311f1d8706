(** Properties of Level 2 output. *)
From Coq Require Import Reals Lra.
From Flocq Require Import Core.
From Verif Require Import Base BaseFacts Loops LoopsFacts ChunkProofs RoundModel RoundFacts CubeModel CubeSpec CubeProofs QaiModel QaiSpec QaiProofs TileModel TileSpec TileProofs ToolSpec L2tModel L2tSpec L2tProofs.
#[local] Open Scope Z_scope.

(** ** C104 *)
(** Every tile that is written is one of the extent and of the allow-list, is written once, lies at its
    place in the grid and holds the values of all products. *)
Theorem C104_tile_content c maxtc e allow ulx uly qai ps : whole_pixels c -> Forall well_formed (qai :: ps) -> exists out, tile_level2 c maxtc e allow ulx uly (qai :: ps) = Ret out /\ NoDup (map w_tile out) /\
  forall w, In w out -> in_extent e (w_tile w) /\ (allow = [] \/ In (w_tile w) allow) /\ w_left w = corner_x c (fst (w_tile w)) /\ w_top w = corner_y c (snd (w_tile w)) /\
    Forall2 (fun p bands => aligned c ulx uly p -> length bands = length (pr_bands p) /\ forall b band nodata, nth_error (pr_bands p) b = Some (band, nodata) -> exists tb, nth_error bands b = Some tb /\
      shows ulx uly (w_left w) (w_top w) p band nodata (size_x c / pr_res p) (size_y c / pr_res p) tb) (qai :: ps) (w_products w).
Proof.
  intros C F. destruct (tile_level2_eq c maxtc e allow ulx uly qai ps F) as (out & E & I & N). exists out. split; auto. split; [apply N, tiles_of_NoDup|]. intros w Iw. apply I in Iw. destruct Iw as (t & It & Wt). apply tiles_of_In in It. apply written_tile_data in Wt. subst w. cbn [w_tile w_left w_top w_products].
  split; [tauto|]. split; [tauto|]. split; auto. split; auto. apply forall2_map. intros p Ip A. split; [unfold tile_bands; apply map_length|]. intros b band nodata G. apply bands_show; auto. rewrite Forall_forall in F. auto.
Qed.
(** Which tiles are written: those with valid pixels and not more clouds than allowed. *)
Theorem C104_written c maxtc e allow ulx uly qai ps band nodata rest out t tb nv nc : whole_pixels c -> Forall well_formed (qai :: ps) -> pr_bands qai = (band, nodata) :: rest -> Forall in_short band -> in_short nodata -> flag_value Off nodata = 1 -> aligned c ulx uly qai ->
  tile_level2 c maxtc e allow ulx uly (qai :: ps) = Ret out -> in_extent e t -> (allow = [] \/ In t allow) ->
  shows ulx uly (corner_x c (fst t)) (corner_y c (snd t)) qai band nodata (size_x c / pr_res qai) (size_y c / pr_res qai) tb -> count_words valid tb nv -> count_words cloudy tb nc ->
  (In t (map w_tile out) -> 0 < nv /\ (100 * IZR nc / IZR nv <= maxtc + / 1000000000)%R) /\
  (0 < nv -> (100 * IZR nc / IZR nv + / 1000000000 <= maxtc)%R \/ (100 <= maxtc)%R -> In t (map w_tile out)).
Proof.
  intros C F E Fb N O A Q It Al S V K. inversion F as [|? ? W _]; subst. destruct (tile_level2_eq c maxtc e allow ulx uly qai ps F) as (out' & E' & I & _). rewrite Q in E'. injection E' as <-.
  destruct (written_tile_spec c maxtc ulx uly qai (qai :: ps) t band nodata rest tb nv nc C W E Fb N O A S V K) as (B & H). split.
  - intros J. apply in_map_iff in J. destruct J as (w & Ew & J). apply I in J. destruct J as (t' & _ & Wt). pose proof (written_tile_data _ _ _ _ _ _ _ _ Wt) as D. rewrite D in Ew. cbn [w_tile] in Ew. subst t'. destruct H as (H & _). destruct H as (P & T); [eauto|]. split; auto. unfold too_cloudy in T. destruct (Rlt_bool_spec maxtc (rnd64 (rnd64 (IZR nc / IZR nv) * 100))) as [L|L]; [discriminate|].
    destruct (cloud_share nv nc P B) as (X & _). apply Rabs_le_inv in X. lra.
  - intros P M. destruct H as (_ & H). destruct H as (w & Wt). { split; auto. unfold too_cloudy. destruct (cloud_share nv nc P B) as (X & U). apply Rabs_le_inv in X. apply Rlt_bool_false. destruct M; lra. }
    apply in_map_iff. exists w. split; [rewrite (written_tile_data _ _ _ _ _ _ _ _ Wt); reflexivity|]. apply I. exists t. split; auto. apply tiles_of_In; auto.
Qed.
(** Every pixel of the image that is in the box of the four corners is in exactly one tile of the grid, and
    this tile is in the extent. *)
Theorem C104_every_pixel c corners ulx uly : whole_pixels c -> exists e, tile_extent c corners = Some e /\ forall p i' j' x y a b, well_formed p -> aligned c ulx uly p ->
  pixel_at ulx uly (pr_res p) i' j' x y -> x < a < x + pr_res p -> y - pr_res p < b < y -> in_box corners a b ->
  exists t i j, in_extent e t /\ in_image (size_x c / pr_res p) (size_y c / pr_res p) i j /\ pixel_at (corner_x c (fst t)) (corner_y c (snd t)) (pr_res p) i j x y /\
    forall t' i2 j2, in_image (size_x c / pr_res p) (size_y c / pr_res p) i2 j2 -> pixel_at (corner_x c (fst t')) (corner_y c (snd t')) (pr_res p) i2 j2 x y -> t' = t.
Proof.
  intros C. pose proof C as ((SX & SY & _) & _). destruct (extent_covers c corners SX SY) as (e & E & H). exists e. split; auto. intros p i' j' x y a b (_ & _ & R & _) A P Ha Hb Box.
  destruct (pixel_tile c ulx uly p i' j' C R A) as (t & i & j & x' & y' & I & P1 & P2 & Int). destruct P as (-> & ->), P2 as (-> & ->). exists t, i, j. destruct t as [tx ty]. split; [eapply H; [exact Box|apply Int; auto]|]. split; auto. split; auto. intros t' i2 j2 I2 P3. destruct A as (_ & _ & Dx & Dy). symmetry. apply (pixel_tile_unique c (pr_res p) (tx, ty) t' i j i2 j2 _ _ R SX SY Dx Dy I I2 P1 P3).
Qed.
(** The extent of the four corners need not hold the whole image: the image is a rectangle in longitude and
    latitude, the grid a polar projection. *)
Theorem C104_extent_refuted : exists c corners e lon lat x y,
  (forall u v, In (u, v) corners -> exists a b, (a = -90 \/ a = 90)%R /\ (b = 60 \/ b = 80)%R /\ polar a b = (IZR u, IZR v)) /\
  (forall a b, (a = -90 \/ a = 90)%R -> (b = 60 \/ b = 80)%R -> exists u v, In (u, v) corners /\ polar a b = (IZR u, IZR v)) /\
  whole_pixels c /\ tile_extent c corners = Some e /\ (-90 <= lon <= 90)%R /\ (60 <= lat <= 80)%R /\ polar lon lat = (IZR x, IZR y) /\ forall t, in_extent e t -> ~ covers c (fst t) (snd t) x y.
Proof.
  assert (forall b, polar (-90) b = (- (90 - b), 0)%R) as P1. { intros b. unfold polar. replace (-90 * PI / 180)%R with (- (PI / 2))%R by field. rewrite sin_neg, cos_neg, sin_PI2, cos_PI2. f_equal; ring. }
  assert (forall b, polar 90 b = (90 - b, 0)%R) as P2. { intros b. unfold polar. replace (90 * PI / 180)%R with (PI / 2)%R by field. rewrite sin_PI2, cos_PI2. f_equal; ring. }
  assert (polar 0 60 = (0, -30)%R) as P3. { unfold polar. replace (0 * PI / 180)%R with 0%R by field. rewrite sin_0, cos_0. f_equal; ring. }
  exists (mkCube (-100) 100 10 10 1), [(-30, 0); (30, 0); (-10, 0); (10, 0)], (mkExtent 6 12 9 9), 0%R, 60%R, 0, (-30).
  split; [|split; [|split; [|split; [reflexivity|split; [lra|split; [lra|split; [exact P3|]]]]]]].
  - intros u v [Q|[Q|[Q|[Q|[]]]]]; injection Q as <- <-; [exists (-90)%R, 60%R|exists 90%R, 60%R|exists (-90)%R, 80%R|exists 90%R, 80%R]; (split; [auto|split; [auto|rewrite ?P1, ?P2; f_equal; lra]]).
  - intros a b [-> | ->] [-> | ->]; rewrite ?P1, ?P2; [exists (-30), 0|exists (-10), 0|exists 30, 0|exists 10, 0]; (split; [cbn; auto|f_equal; lra]).
  - repeat split; cbn; try lia; exists 10; reflexivity.
  - intros t (_ & I) (_ & Co). cbn [ymin ymax] in I. unfold corner_y in Co. cbn [oy size_y] in Co. lia.
Qed.
(** Images that are not on the pixel grid of the tiles are shown shifted, by less than one pixel. *)
Theorem C104_unaligned_partial c maxtc e allow ulx uly qai ps out w : whole_pixels c -> Forall well_formed (qai :: ps) -> tile_level2 c maxtc e allow ulx uly (qai :: ps) = Ret out -> In w out ->
  Forall2 (fun p bands => (pr_res p | size_x c) -> (pr_res p | size_y c) -> exists dx dy, 0 <= dx < pr_res p /\ 0 <= dy < pr_res p /\ forall b band nodata, nth_error (pr_bands p) b = Some (band, nodata) -> exists tb, nth_error bands b = Some tb /\
    shows (ulx + dx) (uly - dy) (w_left w) (w_top w) p band nodata (size_x c / pr_res p) (size_y c / pr_res p) tb) (qai :: ps) (w_products w).
Proof.
  intros C F E Iw. destruct (tile_level2_eq c maxtc e allow ulx uly qai ps F) as (out' & E' & I & _). rewrite E in E'. injection E' as <-. apply I in Iw. destruct Iw as (t & _ & Wt). apply written_tile_data in Wt. subst w. cbn [w_left w_top w_products].
  apply forall2_map. intros p Ip Dx Dy. rewrite Forall_forall in F. specialize (F p Ip). pose proof F as (_ & _ & R & _). destruct (start_near c ulx uly (fst t) (snd t) p R) as (dx & dy & X & Y & Sx & Sy). exists dx, dy. split; auto. split; auto. intros b band nodata G. eapply bands_show_at; eauto.
Qed.
(** They are not shown at their place. *)
Theorem C104_unaligned_refuted : exists c ulx uly p bands tb, whole_pixels c /\ well_formed p /\ (pr_res p | size_x c) /\ tile_product c ulx uly 0 0 p = Ret bands /\ nth_error bands 0 = Some tb /\ get_at tb 0 = Some 5 /\ ulx = -29 /\ uly = 0 /\ pr_res p = 30 /\ fst (nth 0 (pr_bands p) ([], 0)) = [5; 6].
Proof.
  eexists (mkCube 0 0 300 300 30), (-29), 0, (mkProduct 2 1 30 [([5; 6], 0)]), _, _. split; [repeat split; cbn; try lia; exists 10; reflexivity|]. split; [repeat split; cbn; try lia; repeat constructor|]. split; [exists 10; reflexivity|]. split; [reflexivity|]. repeat split; reflexivity.
Qed.
(** The quicklook is written with the pixel size of the other products. *)
Definition flat (nx ny r v nodata : Z) : product := mkProduct nx ny r [(repeat v (Z.to_nat (nx * ny)), nodata)].
Lemma flat_ok nx ny r v nodata : 0 < nx -> 0 < ny -> 0 < r -> well_formed (flat nx ny r v nodata).
Proof. intros X Y R. repeat split; cbn; auto. constructor; [|constructor]. cbn [fst]. unfold zlen. rewrite repeat_length. nia. Qed.
Definition demo_cube : cube := mkCube 0 0 300 300 30.
Lemma demo_cube_ok : whole_pixels demo_cube.
Proof. repeat split; cbn; try lia; exists 10; reflexivity. Qed.
Lemma demo_out : exists w, tile_level2 demo_cube 75 (mkExtent 0 0 0 0) [] 0 0 [flat 10 10 30 0 1; flat 2 2 150 90 0] = Ret [w] /\ w_pixel w = 30 /\ w_tile w = (0, 0) /\ w_products w = [[repeat 0 100]; [repeat 90 4]].
Proof.
  destruct (tile_level2_eq demo_cube 75 (mkExtent 0 0 0 0) [] 0 0 (flat 10 10 30 0 1) [flat 2 2 150 90 0]) as (out & E & I & N); [repeat constructor; apply flat_ok; lia|]. rewrite E.
  assert (tiles_of (mkExtent 0 0 0 0) [] = [(0, 0)]) as T by reflexivity. rewrite T in I, N. specialize (N ltac:(repeat constructor; intros [])).
  assert (exists w, written_tile demo_cube 75 0 0 (flat 10 10 30 0 1) [flat 10 10 30 0 1; flat 2 2 150 90 0] (0, 0) = Some w) as (w & Wt).
  { unfold written_tile. cbv zeta. set (ws := words _ _ _ _ _ _ _). assert (n_valid ws = 100) as -> by reflexivity. assert (n_cloudy ws = 0) as -> by reflexivity. change (100 =? 0) with false. cbn iota.
    unfold too_cloudy. rewrite Rlt_bool_false; [eauto|]. replace (0 / 100)%R with 0%R by field. rewrite rnd64_0, Rmult_0_l, rnd64_0. lra. }
  pose proof (written_tile_data _ _ _ _ _ _ _ _ Wt) as D. exists w. split; [|subst w; repeat split; reflexivity]. f_equal.
  assert (forall x, In x out <-> x = w) as J. { intros x. rewrite I. split; [intros (t & [<-|[]] & Q); congruence|intros ->; exists (0, 0); split; [left|]; auto]. }
  destruct out as [|x [|x2 out]]; [exfalso; apply (J w); auto|rewrite (proj1 (J x) (or_introl eq_refl)); auto|].
  exfalso. cbn [map] in N. inversion N as [|? ? Nx _]; subst. apply Nx. left. rewrite (proj1 (J x) (or_introl eq_refl)), (proj1 (J x2) (or_intror (or_introl eq_refl))). auto.
Qed.
Theorem C104_pixel_size_refuted : exists c maxtc e ulx uly ps out w k p, whole_pixels c /\ Forall well_formed ps /\ Forall (aligned c ulx uly) ps /\ tile_level2 c maxtc e [] ulx uly ps = Ret out /\ In w out /\ nth_error ps k = Some p /\
  w_pixel w <> pr_res p /\ (size_x c / pr_res p) * w_pixel w <> size_x c.
Proof.
  destruct demo_out as (w & E & P & _). exists demo_cube, 75%R, (mkExtent 0 0 0 0), 0, 0, [flat 10 10 30 0 1; flat 2 2 150 90 0], [w], w, 1%nat, (flat 2 2 150 90 0). split; [apply demo_cube_ok|]. split; [repeat constructor; apply flat_ok; lia|].
  split; [repeat constructor; cbn [flat pr_res demo_cube ox oy size_x size_y]; try (exists 0; reflexivity); try (exists 10; reflexivity); exists 2; reflexivity|]. split; auto. split; [left; auto|]. split; auto. rewrite P. cbn. lia.
Qed.
Example C104_example : exists out w, tile_level2 demo_cube 75 (mkExtent 0 0 0 0) [] 0 0 [flat 10 10 30 0 1; flat 2 2 150 90 0] = Ret out /\ In w out /\ w_tile w = (0, 0) /\ w_products w = [[repeat 0 100]; [repeat 90 4]] /\
  aligned demo_cube 0 0 (flat 10 10 30 0 1) /\ Forall well_formed [flat 10 10 30 0 1; flat 2 2 150 90 0] /\ whole_pixels demo_cube /\ flag_value Off 1 = 1.
Proof.
  destruct demo_out as (w & E & _ & T & P). exists [w], w. split; auto. split; [left; auto|]. split; auto. split; auto. split; [repeat constructor; try (exists 0; reflexivity); exists 10; reflexivity|]. split; [repeat constructor; apply flat_ok; lia|]. split; [apply demo_cube_ok|reflexivity].
Qed.
(** A scene over a tile border: no tile shows foreign pixels. *)
Example C104_corner_example : tile_extent demo_cube [(-60, 60); (240, 60); (-60, -240); (240, -240)] = Some (mkExtent (-1) 0 (-1) 0) /\
  tile_product demo_cube (-30) 30 (-1) (-1) (flat 2 2 30 7 (-9999)) = Ret [repeat (-9999) 99 ++ [7]].
Proof. split; reflexivity. Qed.

(** ** C105 *)
(** Every pixel of the quicklook has the documented colour of the image pixel that holds its upper left corner. *)
Theorem C105_colour nx ny r r' qai red green blue i j : 0 < nx -> 0 < ny -> 0 < r -> 0 < r' -> zlen qai = nx * ny -> zlen red = nx * ny -> zlen green = nx * ny -> zlen blue = nx * ny -> Forall in_short qai ->
  in_image (look_size nx r r') (look_size ny r r') i j -> exists i' j' w x y z c, in_image nx ny i' j' /\ j' * r <= j * r' < (j' + 1) * r /\ i' * r <= i * r' < (i' + 1) * r /\
    get_at qai (i' * nx + j') = Some w /\ get_at red (i' * nx + j') = Some x /\ get_at green (i' * nx + j') = Some y /\ get_at blue (i' * nx + j') = Some z /\
    look_pixel nx r r' qai red green blue (i, j) = Ret c /\ shown w c (x, y, z).
Proof.
  intros NX NY R R' L1 L2 L3 L4 F (I & J). destruct (look_from_range i ny r r' R R' ltac:(lia) I) as (I1 & I2). destruct (look_from_range j nx r r' R R' ltac:(lia) J) as (J1 & J2). unfold look_pixel. cbn [fst snd]. set (i' := look_from i r r') in *. set (j' := look_from j r r') in *.
  assert (0 <= i' * nx + j' < nx * ny) as K by nia. destruct (get_at_some qai (i' * nx + j')) as (w & W); [lia|]. destruct (get_at_some red (i' * nx + j')) as (x & X); [lia|]. destruct (get_at_some green (i' * nx + j')) as (y & Y); [lia|]. destruct (get_at_some blue (i' * nx + j')) as (z & Zz); [lia|].
  exists i', j', w, x, y, z. rewrite W, X, Y, Zz. cbn [of_option bind]. eexists. split; [split; auto|]. split; auto. split; auto. do 4 (split; [reflexivity|]). split; [reflexivity|].
  assert (in_short w) as S by (rewrite Forall_forall in F; apply F; eapply get_at_In; eauto). unfold look_colour, on. rewrite !get_flag_value by auto.
  pose proof (flag_range Off w) as R1. pose proof (flag_range Cloud w) as R2. pose proof (flag_range Shadow w) as R3. pose proof (flag_range Snow w) as R4. pose proof (flag_range Saturation w) as R5. pose proof (flag_range Subzero w) as R6. unfold flag_max in *. cbn [layout snd] in *. change (2 ^ 1 - 1) with 1 in *. change (2 ^ 2 - 1) with 3 in *.
  destruct (flag_value Off w =? 0) eqn:E1; cbn [negb]; [|apply sh_off; cbn [applies]; lia]. destruct (flag_value Cloud w =? 3) eqn:E2; [apply sh_cirrus; cbn [applies]; lia|]. destruct (flag_value Cloud w >? 0) eqn:E3; [apply sh_cloud; cbn [applies]; lia|].
  destruct (flag_value Shadow w =? 0) eqn:E4; cbn [negb]; [|apply sh_shadow; cbn [applies]; lia]. destruct (flag_value Snow w =? 0) eqn:E5; cbn [negb]; [|apply sh_snow; cbn [applies]; lia]. destruct (flag_value Saturation w =? 0) eqn:E6; cbn [negb]; [|apply sh_sat; cbn [applies]; lia]. destruct (flag_value Subzero w =? 0) eqn:E7; cbn [negb]; [|apply sh_sub; cbn [applies]; lia].
  apply sh_rgb; cbn [applies]; try lia. intros v v' [Q|[Q|[Q|[]]]]; injection Q as <- <-; apply stretch_spec.
Qed.
(** Brighter pixels are not shown darker. *)
Theorem C105_monotone w x y z x' y' z' : in_short w -> flag_value Off w = 0 -> flag_value Cloud w = 0 -> flag_value Shadow w = 0 -> flag_value Snow w = 0 -> flag_value Saturation w = 0 -> flag_value Subzero w = 0 -> x <= x' -> y <= y' -> z <= z' ->
  c_r (look_colour w x y z) <= c_r (look_colour w x' y' z') /\ c_g (look_colour w x y z) <= c_g (look_colour w x' y' z') /\ c_b (look_colour w x y z) <= c_b (look_colour w x' y' z').
Proof.
  intros S E1 E2 E3 E4 E5 E6. unfold look_colour, on. rewrite !get_flag_value by auto. rewrite E1, E2, E3, E4, E5, E6. cbn [Z.eqb Z.gtb Z.compare negb c_r c_g c_b].
  assert (forall a b, a <= b -> stretch a <= stretch b) as M.
  { intros a b H. pose proof (stretch_spec a) as (_ & Ra). pose proof (stretch_spec b) as (_ & Rb). unfold stretch in *. destruct (a <? 0) eqn:A1; [lia|]. replace (b <? 0) with false in * by lia. destruct (b >? 2500) eqn:B1; [lia|]. replace (a >? 2500) with false in * by lia.
    apply Ztrunc_le, rnd64_le. apply Rmult_le_compat_r; [lra|]. apply rnd64_le. apply Rmult_le_compat_r; [lra|]. apply IZR_le. auto. }
  intros X Y Zz. split; [|split]; auto.
Qed.
(** Clear pixels can have the colour of nodata or of clouds. *)
Theorem C105_unambiguous_refuted : look_colour 0 0 0 0 = look_colour 1 0 0 0 /\ look_colour 0 3000 0 3000 = look_colour 4 0 0 0 /\ ~ applies S_OFF 0 /\ applies S_OFF 1 /\ flag_value Cloud 0 = 0 /\ applies S_CLD_OPQ 4.
Proof.
  assert (stretch 0 = 0) as E. { unfold stretch. change (0 <? 0) with false. change (0 >? 2500) with false. cbn iota. replace (0 / 2500)%R with 0%R by field. rewrite rnd64_0, Rmult_0_l, rnd64_0. apply (Ztrunc_IZR 0). }
  repeat split; try reflexivity; try (cbn; discriminate); unfold look_colour, on; cbn [get_flag]; [change (mkColour (stretch 0) (stretch 0) (stretch 0) = mkColour 0 0 0)|change (mkColour 255 (stretch 0) 255 = mkColour 255 0 255)]; rewrite !E; auto.
Qed.
Example C105_example : exists c, look_pixel 10 30 150 (repeat 8 100) (repeat 100 100) (repeat 200 100) (repeat 300 100) (1, 1) = Ret c /\ c = mkColour 0 255 255 /\ in_image (look_size 10 30 150) (look_size 10 30 150) 1 1.
Proof. eexists. split; [reflexivity|]. split; [reflexivity|]. unfold in_image. cbn. lia. Qed.

(** ** C106 *)
(** Tile sizes that are multiples of the resolution are accepted; and only those, if sizes and resolution
    are multiples of a unit that exceeds the tolerance. *)
Theorem C106_multiples_accepted tol c : 0 <= tol -> whole_pixels c -> start_accepted tol c = true.
Proof. intros T ((SX & SY & R) & (kx & Kx) & (ky & Ky)). unfold start_accepted, size_accepted. rewrite Kx, Ky, !Z.rem_mul by lia. lia. Qed.
Theorem C106_only_multiples_partial tol u c : cube_ok c -> tol < u -> (u | size_x c) -> (u | size_y c) -> (u | res c) -> start_accepted tol c = true -> whole_pixels c.
Proof.
  intros (SX & SY & R) T (a & A) (b & B) (r & Er) S. unfold start_accepted, size_accepted in S. apply andb_prop in S. destruct S as (S1 & S2). rewrite Z.rem_mod_nonneg in S1, S2 by lia. split; [repeat split; auto|].
  assert (forall s k, 0 < s -> s = k * u -> (s mod res c <=? tol) = true -> (res c | s)) as H.
  { intros s k Hs Ks M. apply Z.mod_divide; [lia|]. pose proof (Z.mod_pos_bound s (res c) R) as Bd. pose proof (Z.div_mod s (res c) ltac:(lia)) as D. set (q := s / res c) in *. set (m := s mod res c) in *. assert (m = (k - r * q) * u) by (rewrite Er in D; lia). destruct (Z.eq_dec (k - r * q) 0) as [Q|Q]; [rewrite Q in *; lia|]. nia. }
  split; eapply H; eauto.
Qed.
(** In degrees the tolerance is not small: tiles with gaps between them are accepted. *)
Theorem C106_degrees_refuted : exists tol c, cube_ok c /\ start_accepted tol c = true /\ tol = 5000 /\ size_x c = 1000000 /\ ~ (res c | size_x c) /\ dim_cols c * res c < size_x c.
Proof.
  exists 5000, (mkCube 0 0 1000000 1000000 3000). split; [repeat split; cbn; lia|]. split; [reflexivity|]. split; auto. split; auto. cbn [res size_x]. split; [intros (k & K); lia|reflexivity].
Qed.
(** Any resolution of up to 0.005 degrees (about 500 m) is accepted with any tile size. *)
Theorem C106_fine_resolution_refuted tol c : cube_ok c -> res c <= tol + 1 -> start_accepted tol c = true.
Proof. intros (SX & SY & R) H. unfold start_accepted, size_accepted. rewrite !Z.rem_mod_nonneg by lia. pose proof (Z.mod_pos_bound (size_x c) (res c) R). pose proof (Z.mod_pos_bound (size_y c) (res c) R). lia. Qed.
Example C106_example : exists c, cube_ok c /\ (1000 | size_x c) /\ (1000 | size_y c) /\ (1000 | res c) /\ start_accepted 5 c = true /\ start_accepted 5 (mkCube 0 0 30000000 30000000 29000) = false.
Proof. exists (mkCube 0 0 30000000 30000000 30000). split; [repeat split; cbn; lia|]. split; [exists 30000; reflexivity|]. split; [exists 30000; reflexivity|]. split; [exists 30; reflexivity|]. split; reflexivity. Qed.

(** ** C107 *)
(** Band k of the inflated image holds flag k of the documentation. *)
Theorem C107_bands qai : Forall in_short qai -> length (inflate qai) = length documented_flags /\ forall k f, nth_error documented_flags k = Some f -> nth_error (inflate qai) k = Some (map (flag_value f) qai).
Proof.
  intros F. split; [reflexivity|]. intros k f G. unfold inflate. rewrite nth_error_map. change flag_order with documented_flags. rewrite G. cbn [option_map]. f_equal. apply map_ext_in. intros w I. rewrite Forall_forall in F. rewrite get_flag_value by auto. apply Z.mod_small. pose proof (flag_range f w). unfold flag_max in *. destruct f; cbn [layout snd] in *; lia.
Qed.
(** Nothing is lost. *)
Theorem C107_lossless qai k w : Forall in_short qai -> nth_error qai k = Some w -> 0 <= w -> exists vs, length vs = length documented_flags /\ (forall b v, nth_error vs b = Some v <-> exists band, nth_error (inflate qai) b = Some band /\ nth_error band k = Some v) /\ compose (combine documented_flags vs) = w.
Proof.
  intros F G W. exists (map (fun f => flag_value f w) documented_flags). split; [reflexivity|]. assert (in_short w) as S by (rewrite Forall_forall in F; apply F; eapply nth_error_In; eauto). destruct (C107_bands qai F) as (L & H). split.
  - intros b v. rewrite nth_error_map. destruct (nth_error documented_flags b) as [f|] eqn:E; cbn [option_map].
    + rewrite (H b f E). split; [intros Q; injection Q as <-; eexists; split; [reflexivity|]; rewrite nth_error_map, G; reflexivity|]. intros (band & Q & V). injection Q as <-. rewrite nth_error_map, G in V. exact V.
    + split; [discriminate|]. intros (band & Q & _). apply nth_error_None in E. assert (nth_error (inflate qai) b = None) by (apply nth_error_None; lia). congruence.
  - transitivity (compose (map (fun f => (f, flag_value f w)) documented_flags)); [reflexivity|]. apply compose_spec. unfold in_short in S. change (2 ^ 15) with 32768. lia.
Qed.
Example C107_example : inflate [0; 1; 2051; 32767] = [[0; 1; 1; 1]; [0; 0; 1; 3]; [0; 0; 0; 1]; [0; 0; 0; 1]; [0; 0; 0; 1]; [0; 0; 0; 3]; [0; 0; 0; 1]; [0; 0; 0; 1]; [0; 0; 0; 1]; [0; 0; 1; 3]; [0; 0; 0; 1]; [0; 0; 0; 1]] /\ Forall in_short [0; 1; 2051; 32767].
Proof. split; [reflexivity|]. repeat constructor; unfold in_short; lia. Qed.

Print Assumptions C104_tile_content.
Print Assumptions C104_written.
Print Assumptions C104_every_pixel.
Print Assumptions C104_extent_refuted.
Print Assumptions C104_unaligned_partial.
Print Assumptions C104_unaligned_refuted.
Print Assumptions C104_pixel_size_refuted.
Print Assumptions C105_colour.
Print Assumptions C105_monotone.
Print Assumptions C105_unambiguous_refuted.
Print Assumptions C106_multiples_accepted.
Print Assumptions C106_only_multiples_partial.
Print Assumptions C106_degrees_refuted.
Print Assumptions C106_fine_resolution_refuted.
Print Assumptions C107_bands.
Print Assumptions C107_lossless.
