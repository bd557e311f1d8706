(** C47, C48. *)
From Verif Require Import Base Loops BaseFacts LoopsFacts ImgSpec ImgFacts CsoProofs InterpProps ChunkModel ChunkSpec ChunkProofs.

(** ** C47: the margin of a chunk *)
Definition geometry (q : cube) (res : Z) : layout := mkLayout res (q_npx q * res) (q_npy q * res) (tile_w q * res) (tile_h q * res).
Definition stored (q : cube) (res tx ty : Z) : option file := option_map (mkFile res (tile_w q) (tile_h q)) (q_tile q tx ty).

(** The chunk and its margin show the neighbourhood of the chunk in the seamless
    image, for every cube, resolution, tile, chunk and list of bands, and margins
    up to the size of a chunk.  Missing: the margin to the left, unless there is
    only one column of chunks or the chunk is in the second column. *)
Theorem C47_margin_partial q res resample dt bands nodata tx ty cx cy pixels :
  cube_ok q -> 0 < res -> 0 < pixels <= Z.min (q_npx q) (q_npy q) -> 0 <= cx < q_ncx q -> 0 <= cy < q_ncy q ->
  (forall tx ty bs b, q_tile q tx ty = Some bs -> In b bands -> 0 <= b <= zlen bs) -> q_tile q tx ty <> None ->
  exists brick, read_padded (geometry q res) resample dt bands nodata (stored q res) tx ty cx cy (pixels * res) = Ret (Some brick) /\
    zlen brick = zlen bands /\
    forall k b band, get_at bands k = Some b -> get_at brick k = Some band ->
      zlen band = (q_npx q + 2 * pixels) * (q_npy q + 2 * pixels) /\
      forall y x, inside (q_npx q + 2 * pixels) (q_npy q + 2 * pixels) y x -> pixels <= x \/ q_ncx q = 1 \/ cx = 1 ->
        exists v, world q nodata b (first_row q ty cy - pixels + y) (first_col q tx cx - pixels + x) = Some v /\
                  pix band (q_npx q + 2 * pixels) y x = Some (store dt v).
Proof.
  intros Q R P CX CY B T.
  destruct (padded q res resample dt bands nodata tx ty cx cy pixels Q R ltac:(lia) ltac:(lia) ltac:(lia) CX CY B T) as (brick & E & (S1 & S2) & G).
  exists brick. split; [exact E|]. split; [exact S1|]. intros k b band Gb Gk.
  replace (q_npx q + 2 * pixels) with (q_npx q + pixels * 2) by lia. replace (q_npy q + 2 * pixels) with (q_npy q + pixels * 2) by lia.
  split.
  - rewrite Forall_forall in S2. apply S2. eapply get_at_In; eauto.
  - intros y x I C. destruct (G k band Gk y x I b Gb) as (v & V1 & V2). exists v. split; auto.
    replace (first_col q tx cx - pixels + x) with (col_read q tx cx pixels x); auto.
    unfold col_read, first_col, tile_w. destruct (Z.ltb_spec x pixels); [|lia].
    destruct C as [C|[C|C]]; [lia| |].
    + rewrite C. replace cx with 0 by lia. cbn [Z.eqb]. ring.
    + rewrite C. cbn [Z.eqb]. ring.
Qed.

(** What the margin to the left shows instead: the first column of chunks of the
    tile, or of the tile to the left. *)
Theorem C47_left q res resample dt bands nodata tx ty cx cy pixels :
  cube_ok q -> 0 < res -> 0 < pixels <= Z.min (q_npx q) (q_npy q) -> 0 <= cx < q_ncx q -> 0 <= cy < q_ncy q ->
  (forall tx ty bs b, q_tile q tx ty = Some bs -> In b bands -> 0 <= b <= zlen bs) -> q_tile q tx ty <> None ->
  exists brick, read_padded (geometry q res) resample dt bands nodata (stored q res) tx ty cx cy (pixels * res) = Ret (Some brick) /\
    forall k b band, get_at bands k = Some b -> get_at brick k = Some band ->
      forall y x, inside pixels (q_npy q + 2 * pixels) y x ->
        exists v, world q nodata b (first_row q ty cy - pixels + y) (first_col q (if cx =? 0 then tx - 1 else tx) 0 + q_npx q - pixels + x) = Some v /\
                  pix band (q_npx q + 2 * pixels) y x = Some (store dt v).
Proof.
  intros Q R P CX CY B T.
  destruct (padded q res resample dt bands nodata tx ty cx cy pixels Q R ltac:(lia) ltac:(lia) ltac:(lia) CX CY B T) as (brick & E & (S1 & S2) & G).
  exists brick. split; [exact E|]. intros k b band Gb Gk y x I. unfold inside in I. destruct Q as (Q1 & Q2 & _).
  destruct (G k band Gk y x ltac:(unfold inside; lia) b Gb) as (v & V1 & V2). exists v.
  replace (q_npx q + 2 * pixels) with (q_npx q + pixels * 2) by lia. split; auto.
  unfold col_read in V1. replace (x <? pixels) with true in V1 by lia.
  replace (first_col q (if cx =? 0 then tx - 1 else tx) 0 + q_npx q - pixels + x) with ((if cx =? 0 then tx - 1 else tx) * tile_w q + (q_npx q - pixels) + x); auto.
  unfold first_col, tile_w. ring.
Qed.

(** Without a margin, the chunk itself. *)
Theorem C47_no_margin q res resample dt bands nodata tx ty cx cy radius :
  cube_ok q -> 0 < res -> radius <= 0 -> 0 <= cx < q_ncx q -> 0 <= cy < q_ncy q ->
  (forall tx ty bs b, q_tile q tx ty = Some bs -> In b bands -> 0 <= b <= zlen bs) -> q_tile q tx ty <> None ->
  exists brick, read_padded (geometry q res) resample dt bands nodata (stored q res) tx ty cx cy radius = Ret (Some brick) /\
    zlen brick = zlen bands /\
    forall k b, get_at bands k = Some b -> exists band, get_at brick k = Some band /\ zlen band = q_npx q * q_npy q /\
      forall y x, inside (q_npx q) (q_npy q) y x -> exists v,
        world q nodata b (first_row q ty cy + y) (first_col q tx cx + x) = Some v /\ pix band (q_npx q) y x = Some (store dt v).
Proof.
  intros Q R P CX CY B T. unfold read_padded, stored. destruct (q_tile q tx ty) as [bs|] eqn:E; [|congruence]. cbn [option_map].
  destruct (chunk_ok q res resample dt bands nodata tx ty cx cy 1 Q R ltac:(lia) CX CY B bs E) as (ard & A1 & A2 & A3).
  unfold geometry. rewrite A1. replace (0 <? radius) with false by lia. exists ard. auto.
Qed.

(** What is stored is the value, as far as it fits into the type. *)
Theorem C47_values_kept : forall v, store DT_SHORT v = v /\ (0 <= v <= 255 -> store DT_SMALL v = v).
Proof. intros v. split; [reflexivity|]. intro H. apply Z.mod_small. lia. Qed.

(** Two tiles of 2 chunks of 2 x 1 pixels. *)
Definition two_tiles : cube := mkCube 2 1 2 1 (fun tx ty => if ty =? 0 then if tx =? 0 then Some [[1; 2; 3; 4]] else if tx =? 1 then Some [[5; 6; 7; 8]] else None else None).
Example C47_case : cube_ok two_tiles /\ (forall tx ty bs b, q_tile two_tiles tx ty = Some bs -> In b [1] -> 0 <= b <= zlen bs) /\
  read_padded (geometry two_tiles 30) (fun _ _ _ _ b => b) DT_SHORT [1] (-9) (stored two_tiles 30) 0 0 1 0 30 = Ret (Some [[-9; -9; -9; -9; 2; 3; 4; 5; -9; -9; -9; -9]]).
Proof.
  split; [|split; [|reflexivity]].
  - unfold cube_ok, two_tiles. cbn [q_npx q_npy q_ncx q_ncy q_tile tile_w tile_h]. repeat (split; [lia|]). intros tx ty bs.
    destruct (ty =? 0); [|discriminate]. destruct (tx =? 0); [|destruct (tx =? 1); [|discriminate]]; intros [= <-]; repeat constructor.
  - intros tx ty bs b. unfold two_tiles. cbn [q_tile]. destruct (ty =? 0); [|discriminate].
    destruct (tx =? 0); [|destruct (tx =? 1); [|discriminate]]; intros [= <-] [<- |[]]; cbv; intuition discriminate.
Qed.

(** With two columns of chunks, the left margin of the first chunk does not show
    the pixel to the left (4), but one of the middle of the tile to the left (2). *)
Theorem C47_left_margin_refuted : ~ (forall q res resample dt bands nodata tx ty cx cy pixels,
  cube_ok q -> 0 < res -> 0 < pixels <= Z.min (q_npx q) (q_npy q) -> 0 <= cx < q_ncx q -> 0 <= cy < q_ncy q ->
  (forall tx ty bs b, q_tile q tx ty = Some bs -> In b bands -> 0 <= b <= zlen bs) -> q_tile q tx ty <> None ->
  exists brick, read_padded (geometry q res) resample dt bands nodata (stored q res) tx ty cx cy (pixels * res) = Ret (Some brick) /\
    forall k b band, get_at bands k = Some b -> get_at brick k = Some band ->
      forall y x, inside (q_npx q + 2 * pixels) (q_npy q + 2 * pixels) y x ->
        exists v, world q nodata b (first_row q ty cy - pixels + y) (first_col q tx cx - pixels + x) = Some v /\
                  pix band (q_npx q + 2 * pixels) y x = Some (store dt v)).
Proof.
  intros H. destruct C47_case as (Q & B & _).
  destruct (H two_tiles 30 (fun _ _ _ _ b => b) DT_SHORT [1] (-9) 1 0 0 0 1 Q ltac:(lia) ltac:(cbn; lia) ltac:(cbn; lia) ltac:(cbn; lia) B ltac:(cbn; congruence)) as (brick & E & P).
  vm_compute in E. injection E as <-.
  destruct (P 0 1 [-9; -9; -9; -9; 2; 5; 6; 7; -9; -9; -9; -9] eq_refl eq_refl 1 0 ltac:(unfold inside; cbn; lia)) as (v & V1 & V2).
  vm_compute in V1, V2. congruence.
Qed.

(** ** C48: cropping *)
Lemma Forall2_zlen A B (P : A -> B -> Prop) l l' : Forall2 P l l' -> zlen l = zlen l'.
Proof. intros F. induction F; auto. rewrite !zlen_c. lia. Qed.

(** Bands of short values: exactly the inner part, for every element type of the
    model, size and margin. *)
Theorem C48_crop_partial {A} (zero : A) nx ny res pixels bands : 0 < res -> 0 < pixels -> 2 * pixels <= nx -> 2 * pixels <= ny ->
  Forall (fun b => zlen b = nx * ny) bands ->
  exists out, crop_brick zero CT_SHORT nx ny res (pixels * res) bands = Ret (Some out) /\
    Forall2 (fun b o => zlen o = (nx - 2 * pixels) * (ny - 2 * pixels) /\
      forall y x, inside (nx - 2 * pixels) (ny - 2 * pixels) y x -> pix o (nx - 2 * pixels) y x = pix b nx (y + pixels) (x + pixels)) bands out.
Proof.
  intros R P Px Py F. unfold crop_brick. replace (pixels * res <=? 0) with false by nia. rewrite quot_mult by auto.
  destruct (omap_all (crop_band zero CT_SHORT nx ny pixels) (fun b o => zlen o = (nx - 2 * pixels) * (ny - 2 * pixels) /\
      forall y x, inside (nx - 2 * pixels) (ny - 2 * pixels) y x -> pix o (nx - 2 * pixels) y x = pix b nx (y + pixels) (x + pixels)) bands) as (out & O1 & O2).
  - intros b I. rewrite Forall_forall in F. destruct (crop_short zero nx ny pixels b ltac:(lia) Px Py (F b I)) as (o & O1 & O2 & O3). eauto.
  - exists out. rewrite O1. cbn [bind]. auto.
Qed.

(** Reading a chunk with a margin and cropping it again gives the chunk. *)
Theorem C48_undoes_margin q res resample dt bands nodata tx ty cx cy pixels :
  cube_ok q -> 0 < res -> 0 < pixels <= Z.min (q_npx q) (q_npy q) -> 0 <= cx < q_ncx q -> 0 <= cy < q_ncy q ->
  (forall tx ty bs b, q_tile q tx ty = Some bs -> In b bands -> 0 <= b <= zlen bs) -> q_tile q tx ty <> None ->
  exists chunk padded, read_padded (geometry q res) resample dt bands nodata (stored q res) tx ty cx cy 0 = Ret (Some chunk) /\
    read_padded (geometry q res) resample dt bands nodata (stored q res) tx ty cx cy (pixels * res) = Ret (Some padded) /\
    crop_brick 0 CT_SHORT (q_npx q + 2 * pixels) (q_npy q + 2 * pixels) res (pixels * res) padded = Ret (Some chunk).
Proof.
  intros Q R P CX CY B T.
  destruct (C47_no_margin q res resample dt bands nodata tx ty cx cy 0 Q R ltac:(lia) CX CY B T) as (chunk & C1 & C2 & C3).
  destruct (C47_margin_partial q res resample dt bands nodata tx ty cx cy pixels Q R P CX CY B T) as (pad & P1 & P2 & P3).
  exists chunk, pad. split; auto. split; auto. pose proof Q as (Q1 & Q2 & _).
  destruct (C48_crop_partial 0 (q_npx q + 2 * pixels) (q_npy q + 2 * pixels) res pixels pad R ltac:(lia) ltac:(lia) ltac:(lia)) as (out & O1 & O2).
  { apply Forall_forall. intros band I. destruct (In_get_at _ _ I) as (k & _ & G). destruct (get_at_some bands k) as (b & Gb).
    { apply get_at_inv in G. lia. } apply (P3 k b band Gb G). }
  rewrite O1. f_equal. f_equal.
  replace (q_npx q + 2 * pixels - 2 * pixels) with (q_npx q) in O2 by lia. replace (q_npy q + 2 * pixels - 2 * pixels) with (q_npy q) in O2 by lia.
  assert (zlen out = zlen chunk) as LO. { rewrite <- (Forall2_zlen _ _ _ _ _ O2). lia. }
  assert (zlen out = zlen pad) as LP by (symmetry; apply (Forall2_zlen _ _ _ _ _ O2)).
  apply get_at_ext; [exact LO|]. intros k K.
  destruct (get_at_some out k) as (o & Go); [lia|]. destruct (get_at_some bands k) as (b & Gb); [lia|].
  destruct (C3 k b Gb) as (c & Gc & L1 & V1). rewrite Go, Gc. f_equal.
  destruct (get_at_some pad k) as (band & Gp); [lia|].
  destruct (P3 k b band Gb Gp) as (L2 & V2).
  destruct (Forall2_get _ _ _ _ _ O2 k band o Gp Go) as (L3 & V3).
  apply get_at_ext; [lia|]. intros i Hi.
  destruct (index_split (q_npx q) (q_npy q) i ltac:(lia) ltac:(lia)) as (In1 & E). set (y := i / q_npx q) in *. set (x := i mod q_npx q) in *. clearbody y x.
  rewrite <- E. fold (pix o (q_npx q) y x) (pix c (q_npx q) y x). rewrite V3 by auto.
  destruct (V1 y x In1) as (v & W1 & ->). unfold inside in In1.
  destruct (V2 (y + pixels) (x + pixels) ltac:(unfold inside; lia) ltac:(lia)) as (v' & W2 & ->).
  replace (first_row q ty cy - pixels + (y + pixels)) with (first_row q ty cy + y) in W2 by lia.
  replace (first_col q tx cx - pixels + (x + pixels)) with (first_col q tx cx + x) in W2 by lia. congruence.
Qed.

Example C48_case : crop_brick 0 CT_SHORT 4 3 30 30 [[-9; -9; -9; -9; 2; 3; 4; 5; -9; -9; -9; -9]] = Ret (Some [[3; 4]]).
Proof. reflexivity. Qed.

(** Values of any other type: always written out of bounds. *)
Theorem C48_other_types {A} (zero : A) ct nx ny res pixels band bands : ct <> CT_SHORT -> 0 < res -> 0 < pixels -> 2 * pixels < nx -> 2 * pixels < ny ->
  crop_brick zero ct nx ny res (pixels * res) (band :: bands) = UB.
Proof.
  intros C R P Px Py. unfold crop_brick. replace (pixels * res <=? 0) with false by nia. rewrite quot_mult by auto.
  cbn [omap]. rewrite crop_other; auto.
Qed.

Theorem C48_types_refuted : ~ (forall ct nx ny res pixels band, 0 < res -> 0 < pixels -> 2 * pixels <= nx -> 2 * pixels <= ny -> zlen band = nx * ny ->
  exists out, crop_brick 0 ct nx ny res (pixels * res) [band] = Ret (Some [out])).
Proof.
  intros H. destruct (H CT_FLOAT 3 3 1 1 [1; 2; 3; 4; 5; 6; 7; 8; 9] ltac:(lia) ltac:(lia) ltac:(lia) ltac:(lia) eq_refl) as (out & E).
  rewrite (C48_other_types 0 CT_FLOAT 3 3 1 1) in E by (congruence || lia). discriminate.
Qed.

Print Assumptions C47_margin_partial.
Print Assumptions C47_left.
Print Assumptions C47_no_margin.
Print Assumptions C47_left_margin_refuted.
Print Assumptions C48_crop_partial.
Print Assumptions C48_undoes_margin.
Print Assumptions C48_other_types.
Print Assumptions C48_types_refuted.
Print Assumptions C47_values_kept.
