(** The window and the arrays of a thread. *)
From Coq Require Import Reals Lra Lia Sorting.Sorted.
From Verif Require Import Base Loops BaseFacts LoopsFacts ImgSpec StatsModel StatsSpec AggModel ChunkProofs ListingProofs CsoProofs LsmModel LsmSpec.
#[local] Open Scope Z_scope.

(** ** Lists *)
Lemma sorted_map {A B} (R : A -> A -> Prop) (S : B -> B -> Prop) (f : A -> B) l : StronglySorted R l ->
  (forall a b, In a l -> In b l -> R a b -> S (f a) (f b)) -> StronglySorted S (map f l).
Proof.
  induction 1 as [|a l L IH F]; intros H; cbn [map]; constructor.
  - apply IH. intros x y Ix Iy. apply H; now right.
  - rewrite Forall_forall in *. intros y I. apply in_map_iff in I. destruct I as (x & <- & I). apply H; [now left|now right|now apply F].
Qed.
Lemma sorted_app {A} (R : A -> A -> Prop) l1 l2 : StronglySorted R l1 -> StronglySorted R l2 -> (forall a b, In a l1 -> In b l2 -> R a b) -> StronglySorted R (l1 ++ l2).
Proof.
  induction 1 as [|a l L IH F]; intros S2 H; cbn [app]; auto. constructor.
  - apply IH; auto. intros x y Ix. apply H. now right.
  - rewrite Forall_forall in *. intros x I. apply in_app_iff in I. destruct I as [I|I]; [now apply F|]. apply H; auto. now left.
Qed.
Lemma sorted_ext : forall l1 l2, StronglySorted Z.lt l1 -> StronglySorted Z.lt l2 -> (forall x, In x l1 <-> In x l2) -> l1 = l2.
Proof.
  induction l1 as [|a l1 IH]; intros l2 S1 S2 E.
  - destruct l2 as [|b l2]; auto. exfalso. apply (proj2 (E b)). now left.
  - destruct l2 as [|b l2]; [exfalso; apply (proj1 (E a)); now left|].
    inversion S1 as [|? ? S1' F1]; subst. inversion S2 as [|? ? S2' F2]; subst. rewrite Forall_forall in F1, F2.
    assert (a = b) as <-.
    { destruct (proj1 (E a) (or_introl eq_refl)) as [->|I1]; auto. destruct (proj2 (E b) (or_introl eq_refl)) as [->|I2]; auto. specialize (F1 _ I2). specialize (F2 _ I1). lia. }
    f_equal. apply IH; auto. intros x. split; intros I.
    + destruct (proj1 (E x) (or_intror I)) as [<- |J]; auto. specialize (F1 _ I). lia.
    + destruct (proj2 (E x) (or_intror I)) as [<- |J]; auto. specialize (F2 _ I). lia.
Qed.
Definition lexlt (a b : Z * Z) : Prop := fst a < fst b \/ (fst a = fst b /\ snd a < snd b).
Lemma product_sorted l2 : StronglySorted Z.lt l2 -> forall l1, StronglySorted Z.lt l1 -> StronglySorted lexlt (flat_map (fun a => map (fun b => (a, b)) l2) l1).
Proof.
  intros S2. induction 1 as [|a l L IH F]; cbn [flat_map]; [constructor|]. apply sorted_app; auto.
  - apply (sorted_map Z.lt); auto. intros x y _ _ XY. right. auto.
  - intros x y Ix Iy. left. apply in_map_iff in Ix. destruct Ix as (b & <- & _). apply in_flat_map in Iy. destruct Iy as (c & Ic & Iy). apply in_map_iff in Iy. destruct Iy as (d & <- & _).
    rewrite Forall_forall in F. cbn [fst]. now apply F.
Qed.
Lemma kernel_In r ii jj : In (ii, jj) (kernel r) <-> - r <= ii <= r /\ - r <= jj <= r.
Proof.
  unfold kernel. rewrite in_flat_map. split.
  - intros (a & I & J). apply in_map_iff in J. destruct J as (b & [= -> ->] & J). now rewrite zrange_In in *.
  - intros (I & J). exists ii. rewrite zrange_In. split; auto. apply in_map. now rewrite zrange_In.
Qed.
Lemma kernel_sorted r : StronglySorted lexlt (kernel r).
Proof. apply product_sorted; apply zrange_sorted. Qed.
Lemma kernel_len r : 0 <= r -> zlen (kernel r) = ksize r.
Proof.
  intros R. unfold kernel, ksize. assert (forall l1 (l2 : list Z), zlen (flat_map (fun a : Z => map (fun b => (a, b)) l2) l1) = zlen l1 * zlen l2) as G.
  { induction l1 as [|a l1 IH]; intros l2; cbn [flat_map]; [reflexivity|]. rewrite zlen_a, zlen_map, zlen_c, IH. ring. }
  rewrite G. unfold zlen. rewrite zrange_length. rewrite Z2Nat.id by lia. ring.
Qed.
Lemma ofold_filter_map {A B S} (f : S -> A -> outcome S) (g : S -> B -> outcome S) (h : A -> bool) (q : A -> B) : forall l s,
  (forall s a, In a l -> f s a = if h a then g s (q a) else Ret s) -> ofold f l s = ofold g (map q (filter h l)) s.
Proof.
  induction l as [|a l IH]; intros s H; cbn [filter map ofold]; auto. rewrite H by (now left). destruct (h a); cbn [map ofold bind].
  - destruct (g s (q a)); cbn [bind]; auto. apply IH. intros; apply H; now right.
  - apply IH. intros; apply H; now right.
Qed.

(** ** Pixels and positions *)
Lemma get_on l q b : get_at l q = Some b -> on l q = b.
Proof. unfold on. now intros ->. Qed.
Lemma on_get l q : 0 <= q < zlen l -> get_at l q = Some (on l q).
Proof. intros R. destruct (get_at_some l q R) as (b & G). now rewrite G, (get_on _ _ _ G). Qed.
Lemma val_get l q : 0 <= q < zlen l -> get_at l q = Some (val l q).
Proof. intros R. destruct (get_at_some l q R) as (b & G). unfold val. now rewrite G. Qed.
Lemma at_row nx y x : 0 <= x < nx -> (y * nx + x) / nx = y.
Proof. intros H. rewrite Z.div_add_l by lia. rewrite Z.div_small by lia. lia. Qed.
Lemma at_col nx y x : 0 <= x < nx -> (y * nx + x) mod nx = x.
Proof. intros H. rewrite Z.add_comm, Z.mod_add by lia. now apply Z.mod_small. Qed.
Lemma at_pos nx q : 0 < nx -> q / nx * nx + q mod nx = q.
Proof. intros H. pose proof (Z.div_mod q nx ltac:(lia)). lia. Qed.
Lemma row_range nx ny q : 0 < nx -> 0 <= q < nx * ny -> 0 <= q / nx < ny /\ 0 <= q mod nx < nx.
Proof. intros H Q. split; [split; [apply Z.div_pos; lia|apply Z.div_lt_upper_bound; lia]|apply Z.mod_pos_bound; lia]. Qed.
Lemma pos_range nx ny y x : 0 <= y < ny -> 0 <= x < nx -> 0 <= y * nx + x < nx * ny.
Proof. nia. Qed.

Section Window.
Variables (pa : params) (ft : feature).
Hypothesis LG : legal pa ft.
Let nx := f_nx ft.
Let ny := f_ny ft.
Let r := l_radius pa.

Lemma skipped_ok q : 0 <= q < nx * ny -> exists b, skipped pa ft q = Ret b /\ (b = false <-> selected pa ft q).
Proof.
  intros Q. unfold skipped, selected. destruct (f_mask ft) as [m|] eqn:EM.
  - rewrite (on_get m q) by (rewrite (lg_mask _ _ LG m EM); exact Q). cbn [of_option bind]. destruct (on m q) eqn:Om; cbn [negb].
    + rewrite (on_get (f_msk ft) q) by (rewrite (lg_msk _ _ LG); exact Q). cbn [of_option bind]. eexists. split; [reflexivity|].
      destruct (on (f_msk ft) q), (l_exclude pa); cbn [negb andb]; (split; [intros H; first [discriminate|split; intros; congruence]|intros (_ & H); first [reflexivity|specialize (H eq_refl); discriminate]]).
    + exists true. split; auto. split; [discriminate|]. intros (H & _). specialize (H m eq_refl). congruence.
  - cbn [bind negb]. rewrite (on_get (f_msk ft) q) by (rewrite (lg_msk _ _ LG); exact Q). cbn [of_option bind]. eexists. split; [reflexivity|].
    destruct (on (f_msk ft) q), (l_exclude pa); cbn [negb andb]; (split; [intros H; first [discriminate|split; intros; congruence]|intros (_ & H); first [reflexivity|specialize (H eq_refl); discriminate]]).
Qed.
Lemma matches_ok v : matches (l_query pa) (l_threshold pa) v = true <-> in_class pa v.
Proof. unfold matches, in_class. destruct (l_query pa); lia. Qed.
Lemma binary_ok : exists fg, binary pa ft = Ret fg /\ zlen fg = nx * ny /\ forall q, 0 <= q < nx * ny -> (on fg q = true <-> selected pa ft q /\ in_class pa (val (f_dat ft) q)).
Proof.
  unfold binary. destruct (omap_all (fun p => s <- skipped pa ft p ;; (if (s : bool) then Ret false else v <- of_option (get_at (f_dat ft) p) ;; Ret (matches (l_query pa) (l_threshold pa) v)))
    (fun q b => b = true <-> selected pa ft q /\ in_class pa (val (f_dat ft) q)) (zupto (nx * ny))) as (fg & E & F).
  { intros q I. rewrite zupto_In in I. destruct (skipped_ok q I) as (b & -> & B). cbn [bind]. destruct b.
    - exists false. split; auto. split; [discriminate|]. intros (S & _). apply B in S. discriminate.
    - rewrite (val_get (f_dat ft) q) by (rewrite (lg_dat _ _ LG); exact I). cbn [of_option bind]. eexists. split; [reflexivity|]. rewrite matches_ok. tauto. }
  exists fg. split; [exact E|].
  assert (forall (l : list Z) ys, Forall2 (fun q b => b = true <-> selected pa ft q /\ in_class pa (val (f_dat ft) q)) l ys -> zlen ys = zlen l /\ forall i q, get_at l i = Some q -> (on ys i = true <-> selected pa ft q /\ in_class pa (val (f_dat ft) q))) as G.
  { clear. induction 1 as [|q b l ys H F (L & IH)]; [split; [reflexivity|]; intros i q G; apply get_at_In in G; destruct G|]. split; [rewrite !zlen_c; lia|]. intros i q' G.
    pose proof (get_at_inv _ _ _ G) as R. destruct (Z.eq_dec i 0) as [->|N].
    - rewrite get_cons_0 in G. injection G as <-. unfold on. now rewrite get_cons_0.
    - rewrite get_cons_S in G by lia. unfold on. rewrite get_cons_S by lia. apply IH. exact G. }
  destruct (G _ _ F) as (L & O). split; [rewrite L; unfold zlen; rewrite zupto_length; pose proof (lg_nx _ _ LG); pose proof (lg_ny _ _ LG); subst nx ny; nia|].
  intros q Q. apply O. now apply get_zupto.
Qed.

Variables (fg : list bool) (lab : list Z).
Hypothesis LF : zlen fg = nx * ny.
Hypothesis LL : zlen lab = nx * ny.
Hypothesis FG : forall q, on fg q = true -> selected pa ft q.

Lemma NX : 0 < nx. Proof. exact (lg_nx _ _ LG). Qed.
Lemma RR : 0 <= r. Proof. exact (lg_radius _ _ LG). Qed.

Lemma edge_ok p q cond y x : (cond = true <-> ((0 <=? y) && (y <? ny) && (0 <=? x) && (x <? nx) && in_square r nx p q) = true) -> q = y * nx + x ->
  edge_towards fg nx true cond y x = Ret (if (0 <=? y) && (y <? ny) && (0 <=? x) && (x <? nx) && in_square r nx p q && negb (on fg q) then 1 else 0).
Proof.
  intros C ->. unfold edge_towards. destruct cond.
  - destruct C as (C & _). specialize (C eq_refl). rewrite C. cbn [andb]. rewrite on_get. 2:{ rewrite LF. apply pos_range; lia. } cbn [of_option bind]. destruct (on fg _); reflexivity.
  - destruct ((0 <=? y) && (y <? ny) && (0 <=? x) && (x <? nx) && in_square r nx p (y * nx + x)); [|reflexivity]. destruct C as (_ & C). specialize (C eq_refl). discriminate.
Qed.
Lemma edges_ok p ii jj : 0 <= p < nx * ny -> - r <= ii <= r -> - r <= jj <= r -> let y := p / nx + ii in let x := p mod nx + jj in 0 <= y < ny -> 0 <= x < nx ->
  edges r fg nx ny true ii jj y x = Ret (sides r nx ny fg p (y * nx + x)).
Proof.
  intros P I J y x Y X. unfold edges, sides. rewrite at_row, at_col by auto. pose proof NX.
  rewrite (edge_ok p ((y + 1) * nx + x)); auto. 2:{ unfold in_square, dist. split; intros C.
    - rewrite at_row, at_col by auto. lia. - rewrite !andb_true_iff in C. destruct C as ((((? & ?) & ?) & ?) & C). rewrite at_row, at_col in C by auto. lia. }
  rewrite (edge_ok p ((y - 1) * nx + x)); auto. 2:{ unfold in_square, dist. split; intros C.
    - rewrite at_row, at_col by auto. lia. - rewrite !andb_true_iff in C. destruct C as ((((? & ?) & ?) & ?) & C). rewrite at_row, at_col in C by auto. lia. }
  rewrite (edge_ok p (y * nx + (x + 1))); auto. 2:{ unfold in_square, dist. split; intros C.
    - rewrite at_row, at_col by lia. lia. - rewrite !andb_true_iff in C. destruct C as ((((? & ?) & ?) & ?) & C). rewrite at_row, at_col in C by lia. lia. }
  rewrite (edge_ok p (y * nx + (x - 1))); auto. 2:{ unfold in_square, dist. split; intros C.
    - rewrite at_row, at_col by lia. lia. - rewrite !andb_true_iff in C. destruct C as ((((? & ?) & ?) & ?) & C). rewrite at_row, at_col in C by lia. lia. }
  cbn [bind filter fst snd]. rewrite !Z.add_0_r. change (y + -1) with (y - 1). change (x + -1) with (x - 1). rewrite <- !andb_assoc.
  repeat match goal with |- context [if ?b then _ else _] => destruct b end; reflexivity.
Qed.

(** One foreground pixel of the window. *)
Definition add (p : Z) (st : priv * sums) (q : Z) : outcome (priv * sums) :=
  add_patch true (val lab q) (sides r nx ny fg p q) (fst st, add_value (f_nodata ft) (val (f_dat ft) q) (snd st)).
Definition place (p : Z) (d : Z * Z) : Z := (p / nx + fst d) * nx + (p mod nx + snd d).
Definition hit (p : Z) (d : Z * Z) : bool :=
  negb (l_circle pa && (fst d * fst d + snd d * snd d >? r * r)) &&
  negb ((p / nx + fst d <? 0) || (p mod nx + snd d <? 0) || (p / nx + fst d >=? ny) || (p mod nx + snd d >=? nx)) && on fg (place p d).

Lemma cell_ok p st d : 0 <= p < nx * ny -> In d (kernel r) ->
  window_cell pa ft fg lab (p / nx) (p mod nx) st d = if hit p d then add p st (place p d) else Ret st.
Proof.
  intros P I. destruct d as (ii, jj). apply kernel_In in I. unfold window_cell, hit. fold nx ny r. cbn [fst snd]. destruct (l_circle pa && (ii * ii + jj * jj >? r * r)); [reflexivity|]. cbn [negb andb].
  destruct ((p / nx + ii <? 0) || (p mod nx + jj <? 0) || (p / nx + ii >=? ny) || (p mod nx + jj >=? nx)) eqn:E; [reflexivity|]. cbn [negb andb].
  assert (0 <= p / nx + ii < ny /\ 0 <= p mod nx + jj < nx) as (Y & X) by lia. pose proof (pos_range nx ny _ _ Y X) as Q.
  destruct (skipped_ok _ Q) as (b & -> & B). cbn [bind]. change (place p (ii, jj)) with ((p / nx + ii) * nx + (p mod nx + jj)). destruct b.
  - destruct (on fg ((p / nx + ii) * nx + (p mod nx + jj))) eqn:O; auto. apply FG in O. apply B in O. discriminate.
  - rewrite on_get by (rewrite LF; exact Q). cbn [of_option bind]. destruct (on fg ((p / nx + ii) * nx + (p mod nx + jj))) eqn:O; [|reflexivity]. cbn [negb].
    rewrite (val_get (f_dat ft)) by (rewrite (lg_dat _ _ LG); exact Q). rewrite (val_get lab) by (rewrite LL; exact Q). cbn [of_option bind].
    rewrite (edges_ok p ii jj P (proj1 I) (proj2 I) Y X). cbn [bind]. reflexivity.
Qed.

Let ms p := members r (l_circle pa) nx fg p.
Lemma members_ok p : 0 <= p < nx * ny -> map (place p) (filter (hit p) (kernel r)) = ms p.
Proof using LG LF. clear FG.
  intros P. pose proof NX as N. destruct (row_range nx ny p N P) as (Y & X). apply sorted_ext.
  - apply (sorted_map lexlt); [apply filter_sorted, kernel_sorted|]. intros (a, b) (c, d) I J L. apply filter_In in I. apply filter_In in J. destruct I as (_ & I), J as (_ & J).
    unfold hit, place in *. cbn [fst snd] in *. apply andb_true_iff in I. apply andb_true_iff in J. destruct I as (I & _), J as (J & _). apply andb_true_iff in I. apply andb_true_iff in J. destruct I as (_ & I), J as (_ & J).
    assert (0 <= p mod nx + b < nx) by lia. assert (0 <= p mod nx + d < nx) by lia. destruct L as [L|(L & L')]; cbn [fst snd] in *; nia.
  - unfold ms, members. apply filter_sorted. rewrite zupto_zrange. apply zrange_sorted.
  - intros q. unfold ms, members. rewrite filter_In, zupto_In, LF, in_map_iff. split.
    + intros ((ii, jj) & <- & I). apply filter_In in I. destruct I as (K & H). apply kernel_In in K. unfold hit, place in *. cbn [fst snd] in *. rewrite !andb_true_iff in H. destruct H as ((C & IN) & ->).
      assert (0 <= p / nx + ii < ny /\ 0 <= p mod nx + jj < nx) as (Y' & X') by lia. split; [now apply pos_range|]. rewrite andb_true_r. unfold in_kernel, in_square, dist. rewrite at_row, at_col by auto.
      replace (p / nx + ii - p / nx) with ii by lia. replace (p mod nx + jj - p mod nx) with jj by lia. rewrite !Z.abs_square. clear - C K. generalize dependent (l_circle pa). intros [] C; lia.
    + intros (Q & H). apply andb_true_iff in H. destruct H as (K & O). destruct (row_range nx ny q N Q) as (Y' & X'). exists (q / nx - p / nx, q mod nx - p mod nx). unfold place. cbn [fst snd].
      replace (p / nx + (q / nx - p / nx)) with (q / nx) by lia. replace (p mod nx + (q mod nx - p mod nx)) with (q mod nx) by lia. rewrite at_pos by auto. split; auto.
      apply filter_In. unfold in_kernel, in_square, dist in K. rewrite !Z.abs_square in K. split; [apply kernel_In; clear - K; revert K; generalize (q / nx - p / nx) (q mod nx - p mod nx); intros a b; lia|].
      unfold hit, place. cbn [fst snd]. replace (p / nx + (q / nx - p / nx)) with (q / nx) by lia. replace (p mod nx + (q mod nx - p mod nx)) with (q mod nx) by lia. rewrite at_pos by auto. rewrite O. assert (((q / nx <? 0) || (q mod nx <? 0) || (q / nx >=? ny) || (q mod nx >=? nx)) = false) as -> by lia. clear - K. revert K. generalize (q / nx - p / nx) (q mod nx - p mod nx). intros a b. destruct (l_circle pa); lia.
Qed.
Lemma window_ok p st : 0 <= p < nx * ny -> ofold (window_cell pa ft fg lab (p / nx) (p mod nx)) (kernel r) st = ofold (add p) (ms p) st.
Proof.
  intros P. rewrite (ofold_filter_map _ (add p) (hit p) (place p)). - now rewrite members_ok. - intros s a I. now apply cell_ok.
Qed.
Lemma members_len p : 0 <= p < nx * ny -> zlen (ms p) <= ksize r.
Proof using LG LF. clear FG.
  intros P. rewrite <- (members_ok p P), zlen_map, <- (kernel_len r RR). generalize (kernel r). intros l. unfold zlen. apply inj_le.
  induction l as [|a l IH]; cbn [filter length]; [lia|]. destruct (hit p a); cbn [length]; lia.
Qed.
End Window.
