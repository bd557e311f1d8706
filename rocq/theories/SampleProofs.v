From Coq Require Import Permutation.
From Verif Require Import Base BaseFacts Loops LoopsFacts CubeModel CubeSpec CubeProofs SampleModel SampleSpec.

Lemma zcons {A} (a : A) l : zlen (a :: l) = 1 + zlen l.
Proof. unfold zlen. cbn [length]. lia. Qed.

(** ** One chunk: the located pixel contains the position *)
Lemma quot_pos a b : 0 <= a -> 0 < b -> Z.quot a b = a / b.
Proof. intros. apply Z.quot_div_nonneg; lia. Qed.
Lemma find_x_cases x o s p : 0 < s -> find_x x o s = Some (o + p * s, p) -> o + p * s <= x <= o + p * s + s.
Proof.
  intros S H. destruct (find_x_spec x o s S) as (p' & E & A & B). rewrite H in E.
  assert (p' = p) as -> by congruence. destruct (Z.ltb_spec o x); [specialize (A ltac:(lia))|specialize (B ltac:(lia))]; lia.
Qed.

Lemma tile_cases c x y : cube_ok c -> exists p q, tile_find c x y = Some (mkFound (corner_x c p) (corner_y c q) p q) /\ covers c p q x y.
Proof. intros (A & B & _). apply tile_find_covers; auto. Qed.

Lemma strip_in kx nc j r d S : 0 <= kx -> 0 <= j < nc -> 0 < r -> (kx * nc + j) * r <= d -> d < (kx * nc + j + 1) * r -> (kx + 1) * nc * r <= S -> 0 <= d < S.
Proof.
  intros K J R A B E. assert (0 <= kx * nc) by (apply Z.mul_nonneg_nonneg; lia). set (m := kx * nc) in *.
  assert (0 <= (m + j) * r) by (apply Z.mul_nonneg_nonneg; lia).
  assert ((m + j + 1) * r <= (kx + 1) * nc * r). { apply Z.mul_le_mono_nonneg_r; [lia|]. unfold m. rewrite Z.mul_add_distr_r. lia. }
  lia.
Qed.
Lemma cell_in i j nc nr : 0 <= i < nr -> 0 <= j < nc -> 0 <= i * nc + j < nc * nr.
Proof.
  intros I J. assert (0 <= i * nc) by (apply Z.mul_nonneg_nonneg; lia). assert (i * nc <= (nr - 1) * nc) by (apply Z.mul_le_mono_nonneg_r; lia). rewrite Z.mul_sub_distr_r in *. lia.
Qed.

Lemma locate_spec c k x y : of_cube c k ->
  exists l, locate c k x y = Ret l /\ (forall p, l = Some p -> pixel_of k p x y /\ 0 <= p < cells k).
Proof.
  intros (OK & BX & BY & UX & UY & RE & NC & NR & KX & KY & FX & FY).
  destruct (tile_cases c x y OK) as (tx & ty & E & (C1 & C2)). destruct OK as (SX & SY & R).
  unfold locate. rewrite E. cbn [of_option bind id_x id_y tile_x tile_y].
  destruct (Z.eqb_spec tx (k_tx k)) as [->|]; cbn [negb orb]; [|eexists; split; [reflexivity|discriminate]].
  destruct (Z.eqb_spec ty (k_ty k)) as [->|]; cbn [negb orb]; [|eexists; split; [reflexivity|discriminate]].
  rewrite RE. rewrite !quot_pos by lia.
  set (tj := (x - corner_x c (k_tx k)) / res c). set (ti := (corner_y c (k_ty k) - y) / res c).
  assert (0 <= tj <= 2147483647) as TJ.
  { split; [apply Z.div_pos; lia|]. apply Z.div_le_upper_bound; lia. }
  assert (0 <= ti <= 2147483647) as TI.
  { split; [apply Z.div_pos; lia|]. apply Z.div_le_upper_bound; lia. }
  rewrite !chk_int_ok by (unfold in_int; lia). cbn [bind]. rewrite !quot_pos by lia.
  destruct (Z.eqb_spec (tj / k_ncol k) (k_x k)) as [EX|]; cbn [negb orb]; [|eexists; split; [reflexivity|discriminate]].
  destruct (Z.eqb_spec (ti / k_nrow k) (k_y k)) as [EY|]; cbn [negb orb]; [|eexists; split; [reflexivity|discriminate]].
  eexists. split; [reflexivity|]. intros p [= <-].
  pose proof (Z.div_mod tj (k_ncol k) ltac:(lia)) as D1. pose proof (Z.mod_pos_bound tj (k_ncol k) ltac:(lia)).
  pose proof (Z.div_mod ti (k_nrow k) ltac:(lia)) as D2. pose proof (Z.mod_pos_bound ti (k_nrow k) ltac:(lia)).
  pose proof (Z.div_mod (x - corner_x c (k_tx k)) (res c) ltac:(lia)) as D3. pose proof (Z.mod_pos_bound (x - corner_x c (k_tx k)) (res c) ltac:(lia)).
  pose proof (Z.div_mod (corner_y c (k_ty k) - y) (res c) ltac:(lia)) as D4. pose proof (Z.mod_pos_bound (corner_y c (k_ty k) - y) (res c) ltac:(lia)).
  fold tj in D3. fold ti in D4. rewrite EX in D1. rewrite EY in D2.
  set (j := tj mod k_ncol k) in *. set (i := ti mod k_nrow k) in *.
  replace (ti - k_y k * k_nrow k) with i by lia. replace (tj - k_x k * k_ncol k) with j by lia. split.
  - exists i, j. split; [lia|]. split; [lia|]. split; [auto|]. rewrite UX, UY, RE.
    replace (k_x k * k_ncol k + j) with tj by lia. replace (k_y k * k_nrow k + i) with ti by lia. clear - D3 D4 H1 H2. rewrite !Z.mul_add_distr_r. lia.
  - unfold cells. apply cell_in; lia.
Qed.

Lemma grid_le s a b : 0 < s -> a * s < b * s + s -> a <= b.
Proof. intros S H. assert (a * s < (b + 1) * s) as X by lia. apply Z.mul_lt_mono_pos_r in X; lia. Qed.
Lemma grid_lt s a b : 0 < s -> a * s < b * s -> a < b.
Proof. intros S H. apply Z.mul_lt_mono_pos_r in H; lia. Qed.

(** Conversely, away from the borders that tile_find gives to the neighbour. *)
Lemma locate_complete c k p x y : of_cube c k -> pixel_of k p x y ->
  (x = corner_x c (k_tx k) -> k_tx k <= 0) -> (y = corner_y c (k_ty k) -> k_ty k <= 0) -> locate c k x y = Ret (Some p).
Proof.
  intros OC (i & j & J & I & -> & PX & PY) BX BY. destruct (locate_spec c k x y OC) as (l & E & _).
  destruct OC as (OK & IX & IY & UX & UY & RE & NC & NR & KX & KY & FX & FY). destruct OK as (SX & SY & R).
  rewrite UX, RE in PX. rewrite UY, RE in PY.
  assert (0 <= k_x k * k_ncol k) by (apply Z.mul_nonneg_nonneg; lia). assert (0 <= k_y k * k_nrow k) by (apply Z.mul_nonneg_nonneg; lia).
  assert (corner_x c (k_tx k) <= x < corner_x c (k_tx k) + size_x c) as X1.
  { pose proof (strip_in (k_x k) (k_ncol k) j (res c) (x - corner_x c (k_tx k)) (size_x c)). lia. }
  assert (corner_y c (k_ty k) - size_y c < y <= corner_y c (k_ty k)) as Y1.
  { pose proof (strip_in (k_y k) (k_nrow k) i (res c) (corner_y c (k_ty k) - y) (size_y c)). lia. }
  assert (tile_find c x y = Some (mkFound (corner_x c (k_tx k)) (corner_y c (k_ty k)) (k_tx k) (k_ty k))) as TF.
  { unfold tile_find. destruct (find_x_spec x (ox c) (size_x c) SX) as (a & -> & A1 & A2).
    destruct (find_y_spec y (oy c) (size_y c) SY) as (b & -> & B1 & B2).
    assert (a = k_tx k) as ->.
    { unfold corner_x in *. destruct (Z.ltb_spec (ox c) x) as [L|L].
      - specialize (A1 L). destruct (Z.eq_dec x (ox c + k_tx k * size_x c)) as [Q|Q].
        + specialize (BX Q). assert (k_tx k * size_x c <= 0) by (apply Z.mul_nonpos_nonneg; lia). lia.
        + assert (a <= k_tx k) by (apply (grid_le (size_x c)); lia). assert (k_tx k <= a) by (apply (grid_le (size_x c)); lia). lia.
      - specialize (A2 ltac:(lia)).
        assert (a <= k_tx k) by (apply (grid_le (size_x c)); lia). assert (k_tx k <= a) by (apply (grid_le (size_x c)); lia). lia. }
    assert (b = k_ty k) as ->.
    { unfold corner_y in *. destruct (Z.ltb_spec y (oy c)) as [L|L].
      - specialize (B1 L). destruct (Z.eq_dec y (oy c - k_ty k * size_y c)) as [Q|Q].
        + specialize (BY Q). assert (k_ty k * size_y c <= 0) by (apply Z.mul_nonpos_nonneg; lia). lia.
        + assert (b <= k_ty k) by (apply (grid_le (size_y c)); lia). assert (k_ty k <= b) by (apply (grid_le (size_y c)); lia). lia.
      - specialize (B2 ltac:(lia)).
        assert (b <= k_ty k) by (apply (grid_le (size_y c)); lia). assert (k_ty k <= b) by (apply (grid_le (size_y c)); lia). lia. }
    reflexivity. }
  unfold locate in *. rewrite TF in *. cbn [of_option bind id_x id_y tile_x tile_y] in *. rewrite !Z.eqb_refl in *. cbn [negb orb] in *.
  rewrite RE in *. rewrite !quot_pos in * by lia.
  assert ((x - corner_x c (k_tx k)) / res c = k_x k * k_ncol k + j) as TJ.
  { symmetry. apply (Z.div_unique _ _ _ (x - corner_x c (k_tx k) - res c * (k_x k * k_ncol k + j))); lia. }
  assert ((corner_y c (k_ty k) - y) / res c = k_y k * k_nrow k + i) as TI.
  { symmetry. apply (Z.div_unique _ _ _ (corner_y c (k_ty k) - y - res c * (k_y k * k_nrow k + i))); lia. }
  rewrite TJ, TI in *.
  destruct (chk_int (k_x k * k_ncol k + j)) as [a| |] eqn:CA; try discriminate E.
  unfold chk_int in CA. destruct (in_intb (k_x k * k_ncol k + j)); [injection CA as <-|discriminate]. cbn [bind] in *.
  destruct (chk_int (k_y k * k_nrow k + i)) as [a| |] eqn:CA; try discriminate E.
  unfold chk_int in CA. destruct (in_intb (k_y k * k_nrow k + i)); [injection CA as <-|discriminate]. cbn [bind] in *.
  rewrite !quot_pos by lia.
  replace ((k_x k * k_ncol k + j) / k_ncol k) with (k_x k) by (rewrite Z.add_comm, Z.div_add, Z.div_small by lia; lia).
  replace ((k_y k * k_nrow k + i) / k_nrow k) with (k_y k) by (rewrite Z.add_comm, Z.div_add, Z.div_small by lia; lia).
  rewrite !Z.eqb_refl. cbn [negb orb]. do 2 f_equal. lia.
Qed.

(** At most one chunk of a layout. *)
Lemma locate_unique c k k' x y p p' : of_cube c k -> of_cube c k' -> k_ncol k = k_ncol k' -> k_nrow k = k_nrow k' ->
  locate c k x y = Ret (Some p) -> locate c k' x y = Ret (Some p') ->
  k_tx k = k_tx k' /\ k_ty k = k_ty k' /\ k_x k = k_x k' /\ k_y k = k_y k' /\ p = p'.
Proof.
  intros O O' NC NR. assert (b_res k = b_res k') as RE by (destruct O as (_ & _ & _ & _ & _ & -> & _), O' as (_ & _ & _ & _ & _ & -> & _); auto).
  unfold locate. destruct (tile_find c x y) as [f|]; cbn [of_option bind]; [|discriminate]. rewrite <- RE, <- NC, <- NR.
  destruct (Z.eqb_spec (id_x f) (k_tx k)) as [T1|]; cbn [negb orb]; [|discriminate].
  destruct (Z.eqb_spec (id_y f) (k_ty k)) as [T2|]; cbn [negb orb]; [|discriminate].
  destruct (chk_int (Z.quot (x - tile_x f) (b_res k))) as [tj| |]; cbn [bind]; try discriminate.
  destruct (chk_int (Z.quot (tile_y f - y) (b_res k))) as [ti| |]; cbn [bind]; try discriminate.
  destruct (Z.eqb_spec (Z.quot tj (k_ncol k)) (k_x k)) as [T3|]; cbn [negb orb]; [|discriminate].
  destruct (Z.eqb_spec (Z.quot ti (k_nrow k)) (k_y k)) as [T4|]; cbn [negb orb]; [|discriminate].
  intros E. destruct (Z.eqb_spec (id_x f) (k_tx k')) as [T5|]; cbn [negb orb]; [|discriminate].
  destruct (Z.eqb_spec (id_y f) (k_ty k')) as [T6|]; cbn [negb orb]; [|discriminate]. cbn [bind].
  destruct (Z.eqb_spec (Z.quot tj (k_ncol k)) (k_x k')) as [T7|]; cbn [negb orb]; [|discriminate].
  destruct (Z.eqb_spec (Z.quot ti (k_nrow k)) (k_y k')) as [T8|]; cbn [negb orb]; [|discriminate].
  intros E'. assert (k_x k = k_x k') as X by congruence. assert (k_y k = k_y k') as Y by congruence. rewrite <- X, <- Y in E'.
  repeat (split; [congruence|]). congruence.
Qed.

(** Right border of a tile right of the origin, lower border below it. *)
Lemma locate_border_x c k n y : of_cube c k -> 0 < n -> locate c k (corner_x c n) y = Ret None.
Proof.
  intros OC N. destruct (locate_spec c k (corner_x c n) y OC) as (l & E & _). rewrite E. f_equal.
  destruct OC as (OK & IX & IY & UX & UY & RE & NC & NR & KX & KY & FX & FY). destruct OK as (SX & SY & R).
  unfold locate in E. destruct (tile_find c (corner_x c n) y) as [f|] eqn:TF; [|discriminate]. unfold tile_find in TF.
  destruct (find_x_spec (corner_x c n) (ox c) (size_x c) SX) as (a & FXE & A1 & _). rewrite FXE in TF.
  destruct (find_y y (oy c) (size_y c)) as [[ty b]|]; [|discriminate]. injection TF as <-.
  unfold corner_x in *. assert (0 < n * size_x c) by (apply Z.mul_pos_pos; lia). specialize (A1 ltac:(lia)).
  assert (a < n) by (apply (grid_lt (size_x c)); lia). assert (n <= a + 1) by (apply (grid_le (size_x c)); lia).
  assert (a = n - 1) as -> by lia.
  cbn [of_option bind id_x id_y tile_x tile_y] in E.
  destruct (negb _ || negb _); [congruence|]. rewrite RE in E.
  replace (ox c + n * size_x c - (ox c + (n - 1) * size_x c)) with (size_x c) in E by lia.
  rewrite (quot_pos (size_x c)) in E by lia.
  destruct (chk_int (size_x c / res c)) as [tj| |] eqn:CA; cbn [bind] in E; try discriminate.
  unfold chk_int in CA. destruct (in_intb _); [injection CA as <-|discriminate].
  destruct (chk_int _) as [ti| |]; cbn [bind] in E; try discriminate.
  assert ((k_x k + 1) * k_ncol k <= size_x c / res c) as B by (apply Z.div_le_lower_bound; lia).
  assert (k_x k + 1 <= (size_x c / res c) / k_ncol k) as B2 by (apply Z.div_le_lower_bound; lia).
  rewrite quot_pos in E by (try lia; apply Z.div_pos; lia). replace (size_x c / res c / k_ncol k =? k_x k) with false in E by lia. cbn [negb orb] in E. congruence.
Qed.
Lemma locate_border_y c k n x : of_cube c k -> 0 < n -> locate c k x (corner_y c n) = Ret None.
Proof.
  intros OC N. destruct (locate_spec c k x (corner_y c n) OC) as (l & E & _). rewrite E. f_equal.
  destruct OC as (OK & IX & IY & UX & UY & RE & NC & NR & KX & KY & FX & FY). destruct OK as (SX & SY & R).
  unfold locate in E. destruct (tile_find c x (corner_y c n)) as [f|] eqn:TF; [|discriminate]. unfold tile_find in TF.
  destruct (find_y_spec (corner_y c n) (oy c) (size_y c) SY) as (a & FXE & A1 & _). rewrite FXE in TF.
  destruct (find_x x (ox c) (size_x c)) as [[tx b]|]; [|discriminate]. injection TF as <-.
  unfold corner_y in *. assert (0 < n * size_y c) by (apply Z.mul_pos_pos; lia). specialize (A1 ltac:(lia)).
  assert (a < n) by (apply (grid_lt (size_y c)); lia). assert (n <= a + 1) by (apply (grid_le (size_y c)); lia).
  assert (a = n - 1) as -> by lia.
  cbn [of_option bind id_x id_y tile_x tile_y] in E.
  destruct (negb _ || negb _); [congruence|]. rewrite RE in E.
  replace (oy c - (n - 1) * size_y c - (oy c - n * size_y c)) with (size_y c) in E by lia.
  rewrite (quot_pos (size_y c)) in E by lia.
  destruct (chk_int (Z.quot (x - tx) (res c))) as [tj| |]; cbn [bind] in E; try discriminate.
  destruct (chk_int (size_y c / res c)) as [ti| |] eqn:CA; cbn [bind] in E; try discriminate.
  unfold chk_int in CA. destruct (in_intb _); [injection CA as <-|discriminate].
  assert ((k_y k + 1) * k_nrow k <= size_y c / res c) as B by (apply Z.div_le_lower_bound; lia).
  assert (k_y k + 1 <= (size_y c / res c) / k_nrow k) as B2 by (apply Z.div_le_lower_bound; lia).
  rewrite (quot_pos (size_y c / res c)) in E by (try lia; apply Z.div_pos; lia).
  replace (size_y c / res c / k_nrow k =? k_y k) with false in E by lia. rewrite orb_true_r in E. congruence.
Qed.

(** ** Nothing passes the bounding box *)
Lemma empty_box s k r mask fs : maxy (chunk_box s k) < miny (chunk_box s k) -> sample_row s k mask fs r = Ret (r, false, None).
Proof.
  intros H. unfold sample_row. destruct (r_active r); cbn [negb]; auto. unfold in_box.
  destruct (Z.ltb_spec (r_y r) (miny (chunk_box s k))) as [L|L]; cbn [negb].
  - rewrite andb_false_r. auto.
  - destruct (Z.gtb_spec (r_y r) (maxy (chunk_box s k))); [|lia]. cbn [negb]. rewrite andb_false_r. auto.
Qed.
Lemma skip_all s k mask fs : (forall r, sample_row s k mask fs r = Ret (r, false, None)) -> forall rows,
  omap (sample_row s k mask fs) rows = Ret (map (fun r => (r, false, None)) rows).
Proof.
  intros H. induction rows as [|r rows IH]; cbn [omap map]; auto. rewrite H, IH. reflexivity.
Qed.
Lemma empty_unit s k mask fs st : maxy (chunk_box s k) < miny (chunk_box s k) -> sample_points s st (k, mask, fs) = Ret st.
Proof.
  intros H. unfold sample_points. destruct (t_active st =? 0); auto.
  rewrite skip_all by (intros r; apply empty_box; auto). cbn [bind]. f_equal. destruct st as [rows n out]. cbn [t_rows t_active t_out]. f_equal.
  - rewrite map_map. cbn [fst]. apply map_id.
  - assert (filter (fun x : row * bool * option record => snd (fst x)) (map (fun r => (r, false, None)) rows) = []) as ->.
    { induction rows as [|r l IH]; cbn; auto. }
    unfold zlen. cbn. lia.
  - assert (records (map (fun r => (r, false, None)) rows) = []) as -> by (induction rows as [|r l IH]; cbn; auto).
    apply app_nil_r.
Qed.
Lemma empty_run s units st : Forall (fun u => maxy (chunk_box s (fst (fst u))) < miny (chunk_box s (fst (fst u)))) units ->
  run s units st = Ret st.
Proof.
  intros F. unfold run. induction units as [|[[k mask] fs] us IH]; cbn [ofold]; auto.
  rewrite empty_unit by apply (Forall_inv F). cbn [bind]. apply IH. eapply Forall_inv_tail; eauto.
Qed.

(** ** A run *)
(** Row r is taken by the unit at pixel p. *)
Definition taken (s : setup) (u : chunk * option (list Z) * list feature) (r : row) (p : Z) : Prop :=
  let '(k, mask, fs) := u in
  r_active r = true /\ in_box (chunk_box s k) (r_x r) (r_y r) = true /\
  exists x y, position s r = Some (x, y) /\ locate (s_cube s) k x y = Ret (Some p) /\ unmasked mask p.
Notation off := deactivated.
Definition feats (s : setup) (fs : list feature) (p : Z) (vs : list Z) : Prop :=
  Forall2 (fun f v => get_at (f_dat f) p = Some v /\ (s_exclude s = true -> get_at (f_msk f) p = Some true)) fs vs.
Definition hidden (s : setup) (fs : list feature) (p : Z) : Prop :=
  s_exclude s = true /\ exists f, In f fs /\ get_at (f_msk f) p = Some false.

Lemma read_feats s fs p n : 0 <= p < n -> Forall (fun f => zlen (f_dat f) = n /\ zlen (f_msk f) = n) fs ->
  exists vs, omap (fun f => v <- of_option (get_at (f_dat f) p) ;; b <- of_option (get_at (f_msk f) p) ;; Ret (v, b)) fs = Ret vs /\
    (forallb (fun vb : Z * bool => negb (negb (snd vb) && s_exclude s)) vs = true -> feats s fs p (map fst vs)) /\
    (forallb (fun vb : Z * bool => negb (negb (snd vb) && s_exclude s)) vs = false -> hidden s fs p).
Proof.
  intros P F. induction F as [|f fs [L1 L2] F IH]; cbn [omap].
  - exists []. split; auto. split; [constructor|discriminate].
  - destruct (get_at_some (f_dat f) p) as (v & V); [lia|]. destruct (get_at_some (f_msk f) p) as (b & B); [lia|].
    rewrite V, B. cbn [of_option bind]. destruct IH as (vs & -> & I1 & I2). cbn [bind]. exists ((v, b) :: vs). split; auto.
    cbn [forallb snd map fst]. split.
    + intros H. apply andb_prop in H. destruct H as [H1 H2]. constructor; [|apply I1, H2]. split; auto.
      intros X. rewrite X in H1. destruct b; auto. discriminate.
    + intros H. apply andb_false_iff in H. destruct H as [H|H].
      * destruct b; cbn in H; [discriminate|]. destruct (s_exclude s) eqn:X; [|discriminate]. split; auto. exists f. split; [left|]; auto.
      * destruct (I2 H) as [X (g & G1 & G2)]. split; auto. exists g. split; [right|]; auto.
Qed.

Lemma row_spec s k mask fs r : unit_ok (s_cube s) (k, mask, fs) ->
  (sample_row s k mask fs r = Ret (r, false, None) /\ forall p, ~ taken s (k, mask, fs) r p) \/
  (exists p o, sample_row s k mask fs r = Ret (off r, true, o) /\ taken s (k, mask, fs) r p /\
     match o with
     | Some rec => o_x rec = r_x r /\ o_y rec = r_y r /\ o_resp rec = r_resp r /\ feats s fs p (o_feat rec)
     | None => hidden s fs p
     end).
Proof.
  intros (OC & MO & FO). unfold sample_row.
  destruct (r_active r) eqn:RA; cbn [negb]; [|left; split; auto; intros p (X & _); congruence].
  destruct (in_box (chunk_box s k) (r_x r) (r_y r)) eqn:IB; cbn [negb]; [|left; split; auto; intros p (_ & X & _); congruence].
  destruct (position s r) as [[x y]|] eqn:PO; [|left; split; auto; intros p (_ & _ & x & y & X & _); congruence].
  destruct (locate_spec (s_cube s) k x y OC) as (l & EL & LP). rewrite EL. cbn [bind].
  destruct l as [p|]; [|left; split; auto; intros p (_ & _ & x' & y' & X & Y & _); congruence].
  destruct (LP p eq_refl) as [PX PC].
  assert (forall q, taken s (k, mask, fs) r q -> q = p /\ unmasked mask p) as UN.
  { intros q (_ & _ & x' & y' & X & Y & M). assert (q = p) as -> by congruence. auto. }
  destruct (read_feats s fs p (cells k) PC FO) as (vs & EV & V1 & V2).
  assert (forall v, v <> 0 -> unmasked mask p ->
    (exists p0 o, (if v =? 0 then Ret (r, false, None) else
       vs0 <- omap (fun f => v0 <- of_option (get_at (f_dat f) p) ;; b <- of_option (get_at (f_msk f) p) ;; Ret (v0, b)) fs ;;
       let valid := forallb (fun vb : Z * bool => negb (negb (snd vb) && s_exclude s)) vs0 in
       Ret (mkRow false (r_x r) (r_y r) (r_resp r), true, if valid then Some (mkRec (map fst vs0) (r_resp r) (r_x r) (r_y r)) else None))
       = Ret (off r, true, o) /\ taken s (k, mask, fs) r p0 /\
       match o with
       | Some rec => o_x rec = r_x r /\ o_y rec = r_y r /\ o_resp rec = r_resp r /\ feats s fs p0 (o_feat rec)
       | None => hidden s fs p0
       end)) as FIN.
  { intros v NV U. replace (v =? 0) with false by lia. rewrite EV. cbn [bind]. exists p. eexists. split; [reflexivity|]. split.
    - split; [exact RA|]. split; [exact IB|]. exists x, y. auto.
    - destruct (forallb _ vs) eqn:FB; cbn [o_x o_y o_resp o_feat]; auto. }
  destruct mask as [m|].
  - destruct (get_at_some m p) as (v & V); [rewrite (MO m eq_refl); auto|]. rewrite V. cbn [of_option bind].
    destruct (Z.eq_dec v 0) as [->|NV].
    + left. split; auto. intros q T. apply UN in T. destruct T as [_ (v' & V' & N)]. congruence.
    + right. apply FIN; auto. exists v. auto.
  - cbn [bind]. right. apply FIN; [lia|exact I].
Qed.

Notation unit_t := (chunk * option (list Z) * list feature)%type.
Definition done (s : setup) (us : list unit_t) (r r' : row) (o : option record) : Prop :=
  (r' = r /\ o = None /\ forall u p, In u us -> ~ taken s u r p) \/
  (exists u p, In u us /\ taken s u r p /\ r' = off r /\
     match o with
     | Some rec => o_x rec = r_x r /\ o_y rec = r_y r /\ o_resp rec = r_resp r /\ feats s (snd u) p (o_feat rec)
     | None => hidden s (snd u) p
     end).

Lemma off_not_taken s u r p : ~ taken s u (off r) p.
Proof. destruct u as [[k m] fs]. intros (A & _). discriminate A. Qed.
Lemma inactive_not_taken s u r p : r_active r = false -> ~ taken s u r p.
Proof. destruct u as [[k m] fs]. intros H (A & _). congruence. Qed.

Lemma rows_spec s u rows : unit_ok (s_cube s) u -> exists res,
  omap (sample_row s (fst (fst u)) (snd (fst u)) (snd u)) rows = Ret res /\
  Forall2 (fun r x => done s [u] r (fst (fst x)) (snd x)) rows res /\
  zlen (filter r_active rows) - zlen (filter (fun x : row * bool * option record => snd (fst x)) res) =
    zlen (filter r_active (map (fun x => fst (fst x)) res)).
Proof.
  intros U. destruct u as [[k mask] fs]. cbn [fst snd]. induction rows as [|r rows IH]; cbn [omap].
  - exists []. repeat split; auto.
  - destruct IH as (res & E & F & C). destruct (row_spec s k mask fs r U) as [[E1 N]|(p & o & E1 & T & M)]; rewrite E1; cbn [bind]; rewrite E; cbn [bind].
    + exists ((r, false, None) :: res). split; [reflexivity|]. split.
      * constructor; [|exact F]. left. cbn [fst snd]. split; [reflexivity|]. split; [reflexivity|]. intros u q [<-|[]]. apply N.
      * cbn [map filter fst snd]. destruct (r_active r); rewrite ?zcons; lia.
    + exists ((off r, true, o) :: res). split; [reflexivity|]. split.
      * constructor; [|exact F]. right. exists (k, mask, fs), p. cbn [fst snd]. split; [left; reflexivity|]. auto.
      * assert (r_active r = true) as A by apply T. cbn [map filter fst snd]. rewrite A. cbn [deactivated r_active]. rewrite !zcons. lia.
Qed.

Lemma records_written res : records res = written (map snd res).
Proof. unfold records, written. induction res as [|x res IH]; cbn [flat_map map]; auto. now rewrite IH. Qed.

Lemma filter_nil {A} (f : A -> bool) l : zlen (filter f l) = 0 -> Forall (fun x => f x = false) l.
Proof.
  induction l as [|a l IH]; cbn [filter]; auto. destruct (f a) eqn:F.
  - rewrite zcons. pose proof (zlen_nonneg (filter f l)). lia.
  - intros H. constructor; auto.
Qed.

Lemma unit_spec s u st : unit_ok (s_cube s) u -> counted st -> exists st' os,
  sample_points s st u = Ret st' /\ counted st' /\ t_out st' = t_out st ++ written os /\ length os = length (t_rows st) /\
  Forall2 (fun r x => done s [u] r (fst x) (snd x)) (t_rows st) (combine (t_rows st') os) /\ length (t_rows st') = length os.
Proof.
  intros U C. destruct (rows_spec s u (t_rows st) U) as (res & E & F & D). destruct u as [[k mask] fs]. cbn [fst snd] in E.
  unfold sample_points. destruct (Z.eqb_spec (t_active st) 0) as [Z0|_].
  - exists st, (map (fun _ => None) (t_rows st)). split; [reflexivity|]. split; [exact C|].
    assert (Forall (fun r => r_active r = false) (t_rows st)) as I by (apply filter_nil; unfold counted in C; lia).
    assert (forall l : list row, written (map (fun _ => None) l) = []) as W by (induction l as [|? l' IHl]; cbn; auto).
    rewrite W, app_nil_r, map_length. repeat split; auto. clear - I.
    induction I as [|r l A I IH]; cbn [map combine]; constructor; auto. left. cbn [fst snd]. split; [reflexivity|]. split; [reflexivity|].
    intros u p _. apply inactive_not_taken, A.
  - rewrite E. cbn [bind]. eexists. exists (map snd res). split; [reflexivity|]. cbn [t_rows t_out t_active].
    assert (length res = length (t_rows st)) as LE by (clear - F; induction F; cbn [length]; auto).
    unfold counted. cbn [t_rows t_active]. rewrite C, D, records_written, !map_length. repeat split; auto. clear - F.
    induction F as [|r x rows res H F IH]; cbn [map combine]; constructor; auto.
Qed.

(** Merging the records of two rounds. *)
Definition pick (a b : option record) : option record := match a with Some _ => a | None => b end.
Fixpoint merge (l m : list (option record)) : list (option record) :=
  match l, m with a :: l', b :: m' => pick a b :: merge l' m' | _, _ => [] end.
Lemma merge_length l m : length l = length m -> length (merge l m) = length l.
Proof. revert m. induction l as [|a l IH]; intros [|b m] H; cbn in *; try discriminate; auto. Qed.
Lemma merge_written l m : Forall2 (fun a b => a = None \/ b = None) l m -> Permutation (written l ++ written m) (written (merge l m)).
Proof.
  induction 1 as [|a b l m H F IH]; cbn [merge]; auto. unfold written in *. cbn [flat_map].
  destruct H as [->| ->]; [|destruct a as [a|]]; cbn [pick app].
  - destruct b as [b|]; cbn [app]; auto. rewrite <- Permutation_middle. constructor. exact IH.
  - constructor. exact IH.
  - exact IH.
Qed.

Lemma done_trans s u us r r1 o1 r2 o2 : done s [u] r r1 o1 -> done s us r1 r2 o2 -> done s (u :: us) r r2 (pick o1 o2) /\ (o1 = None \/ o2 = None).
Proof.
  intros [(-> & -> & N)|(v & p & [<-|[]] & T & -> & M)].
  - intros D. split; [|auto]. cbn [pick]. destruct D as [(-> & -> & N2)|(w & q & I & T & -> & M)].
    + left. split; auto. split; auto. intros w q [<-|I]; [apply N; left; auto|apply N2, I].
    + right. exists w, q. split; [right; exact I|]. auto.
  - intros D. assert (r2 = off r /\ o2 = None) as [-> ->].
    { destruct D as [(-> & -> & _)|(w & q & I & T2 & _)]; auto. apply off_not_taken in T2. contradiction. }
    split; [|auto]. right. exists u, p. split; [left; reflexivity|]. split; [exact T|]. split; [reflexivity|].
    destruct o1; exact M.
Qed.

Lemma run_spec s units : Forall (unit_ok (s_cube s)) units -> forall st, counted st -> exists st' os,
  run s units st = Ret st' /\ counted st' /\ Permutation (t_out st') (t_out st ++ written os) /\ length os = length (t_rows st) /\
  Forall2 (fun r x => done s units r (fst x) (snd x)) (t_rows st) (combine (t_rows st') os) /\ length (t_rows st') = length os.
Proof.
  unfold run. induction 1 as [|u us U F IH]; intros st C; cbn [ofold].
  - exists st, (map (fun _ => None) (t_rows st)). split; [reflexivity|]. split; [exact C|].
    assert (forall l : list row, written (map (fun _ => None) l) = []) as W by (induction l as [|? l' IHl]; cbn; auto).
    rewrite W, app_nil_r, map_length. repeat split; auto.
    induction (t_rows st) as [|r l IH]; cbn [map combine]; constructor; auto. left. cbn [fst snd]. split; [reflexivity|]. split; [reflexivity|].
    intros u p [].
  - destruct (unit_spec s u st U C) as (st1 & os1 & E1 & C1 & O1 & L1 & D1 & L1'). rewrite E1. cbn [bind].
    destruct (IH st1 C1) as (st2 & os2 & E2 & C2 & P2 & L2 & D2 & L2'). exists st2, (merge os1 os2).
    split; [exact E2|]. split; [exact C2|].
    assert (length os1 = length os2) as LL by lia.
    assert (Forall2 (fun r x => done s (u :: us) r (fst x) (snd x)) (t_rows st) (combine (t_rows st2) (merge os1 os2)) /\
            Forall2 (fun a b => a = None \/ b = None) os1 os2) as [D N].
    { clear - D1 D2 L1 L1' L2 L2'. revert D1 D2 L1 L1' L2 L2'. generalize (t_rows st) (t_rows st1) (t_rows st2). intros r0 r1 r2. revert r1 r2 os1 os2.
      induction r0 as [|r r0 IH]; intros [|q r1] [|t r2] [|a os1] [|b os2] D1 D2 L1 L1' L2 L2'; cbn [length] in *; try discriminate; cbn [combine merge]; [split; constructor|].
      cbn [combine] in *. inversion D1 as [|? ? ? ? X1 Y1]; subst. inversion D2 as [|? ? ? ? X2 Y2]; subst. cbn [fst snd] in *.
      destruct (IH r1 r2 os1 os2 Y1 Y2 ltac:(lia) ltac:(lia) ltac:(lia) ltac:(lia)) as [A B].
      destruct (done_trans s u us r q a t b X1 X2) as [A' B']. split; constructor; auto. }
    split; [|split; [rewrite merge_length; lia|split; [exact D|rewrite merge_length; lia]]].
    rewrite P2, O1, <- app_assoc. apply Permutation_app_head, merge_written, N.
Qed.

(** In the words of the specification. *)
Lemma done_sampled s us r r' o : Forall (unit_ok (s_cube s)) us -> done s us r r' o -> sampled s us r r' o.
Proof.
  intros F [(-> & -> & _)|([[k mask] fs] & p & I & (A & B & x & y & PO & LO & UM) & -> & M)]; [left; auto|right].
  split; [exact A|]. split; [reflexivity|].
  assert (of_cube (s_cube s) k) as OC by (apply (proj1 (Forall_forall _ _) F) in I; apply I).
  destruct (locate_spec (s_cube s) k x y OC) as (l & EL & LP). rewrite LO in EL. injection EL as <-. destruct (LP p eq_refl) as [PX _].
  destruct o as [rec|].
  - destruct M as (M1 & M2 & M3 & M4). split; [exact M1|]. split; [exact M2|]. split; [exact M3|].
    exists k, mask, fs, p, x, y. auto 8.
  - destruct M as (X & f & IF & G). split; [exact X|]. exists k, mask, fs, f, p, x, y. auto 8.
Qed.
