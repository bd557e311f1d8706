(** Lemmas on stacks and tile grids. *)
From Coq Require Import Sorting.Sorted.
From Verif Require Import Base BaseFacts Loops LoopsFacts ChunkProofs CubeModel CubeSpec CubeProofs ToolModel ToolSpec ToolProofs.

(** ** Order of bands *)
Lemma lex_nodup l : StronglySorted lex_lt l -> NoDup l.
Proof. induction 1 as [|a l S IH F]; constructor; auto. intros I. rewrite Forall_forall in F. specialize (F a I). unfold lex_lt in F. lia. Qed.
Lemma sorted_app {A} (R : A -> A -> Prop) : forall a b, StronglySorted R a -> StronglySorted R b -> (forall x y, In x a -> In y b -> R x y) -> StronglySorted R (a ++ b).
Proof.
  induction a as [|x a IH]; intros b Sa Sb H; cbn [app]; auto. inversion Sa as [|? ? S F]; subst. constructor; [apply IH; auto; intros; apply H; [right|]; auto|]. rewrite Forall_forall in *. intros y I. apply in_app_or in I. destruct I as [I|I]; [auto|apply H; [left|]; auto].
Qed.
Lemma sorted_concat {A} (key : A -> Z) (row : A -> list (Z * Z)) : forall l, StronglySorted (fun a b => key a < key b) l -> (forall a, In a l -> StronglySorted lex_lt (row a) /\ forall p, In p (row a) -> fst p = key a) -> StronglySorted lex_lt (concat (map row l)).
Proof.
  induction l as [|a l IH]; intros S H; cbn [map concat]; [constructor|]. inversion S as [|? ? Sl F]; subst. apply sorted_app; [apply H; left; auto|apply IH; auto; intros; apply H; right; auto|].
  intros x y Ix Iy. apply in_concat in Iy. destruct Iy as (r & Ir & Iy). apply in_map_iff in Ir. destruct Ir as (b & <- & Ib). rewrite Forall_forall in F. specialize (F b Ib). left.
  destruct (H a (or_introl eq_refl)) as (_ & Ka). destruct (H b (or_intror Ib)) as (_ & Kb). rewrite (Ka x Ix), (Kb y Iy). auto.
Qed.
Lemma sorted_map {A B} (R : A -> A -> Prop) (Q : B -> B -> Prop) (f : A -> B) l : (forall x y, R x y -> Q (f x) (f y)) -> StronglySorted R l -> StronglySorted Q (map f l).
Proof. intros H. induction 1 as [|a l S IH F]; cbn [map]; constructor; auto. rewrite Forall_forall in *. intros y I. apply in_map_iff in I. destruct I as (x & <- & I). auto. Qed.
Lemma enum_sorted {A} (l : list A) : StronglySorted (fun a b : Z * A => fst a < fst b) (enum l).
Proof.
  assert (forall k : list (Z * A), StronglySorted Z.lt (map fst k) -> StronglySorted (fun a b : Z * A => fst a < fst b) k) as G.
  { induction k as [|a k IH]; cbn [map]; intros S; constructor; inversion S as [|? ? S' F]; subst; auto. rewrite Forall_forall in *. intros x I. apply F. now apply in_map. }
  apply G. unfold enum. rewrite combine_fst by apply enum_length. apply zupto_sorted.
Qed.
Lemma stack_inv od ins l : stack od ins = Some l -> exists first rest, ins = first :: rest /\ (forall x, In x ins -> same (in_dir x) (in_dir first) = true /\ in_nx x = in_nx first /\ in_ny x = in_ny first) /\ same od (in_dir first) = true /\
  ((exists x, In x rest /\ in_nb x <> in_nb first) /\ l = concat (map (fun fx : Z * input => map (fun b => (fst fx, b + 1)) (zupto (in_nb (snd fx)))) (enum ins))
   \/ (forall x, In x ins -> in_nb x = in_nb first) /\ l = concat (map (fun b => map (fun f => (f, b + 1)) (zupto (zlen ins))) (zupto (in_nb first)))).
Proof.
  unfold stack. destruct ins as [|first rest]; [discriminate|]. destruct (forallb _ rest) eqn:F; [|discriminate]. destruct (same od _) eqn:S; [|discriminate]. cbn [andb]. rewrite forallb_forall in F.
  assert (forall d, same d d = true) as Sr by (induction d as [|x d IH]; cbn; auto; rewrite Z.eqb_refl; auto).
  intros E. exists first, rest. split; auto. split; [intros x [<-|I]; [auto|specialize (F x I); apply andb_prop in F; destruct F as [F F3]; apply andb_prop in F; destruct F; repeat split; auto; lia]|]. split; auto.
  destruct (existsb _ rest) eqn:X.
  - left. apply existsb_exists in X. destruct X as (x & I & X). split; [exists x; split; auto; lia|]. injection E as <-. reflexivity.
  - right. split; [|injection E as <-; reflexivity]. intros x [<-|I]; auto. destruct (in_nb x =? in_nb first) eqn:Q; [lia|]. exfalso. assert (existsb (fun x => negb (in_nb x =? in_nb first)) rest = true) as Y by (apply existsb_exists; exists x; split; auto; lia). congruence.
Qed.
Lemma by_file_sorted ins : StronglySorted lex_lt (concat (map (fun fx : Z * input => map (fun b => (fst fx, b + 1)) (zupto (in_nb (snd fx)))) (enum ins))).
Proof.
  apply (sorted_concat fst); [apply enum_sorted|]. intros [f x] _. cbn [fst snd]. split; [|intros p I; apply in_map_iff in I; destruct I as (b & <- & _); reflexivity].
  apply (sorted_map Z.lt); [|apply zupto_sorted]. intros u v L. right. cbn. lia.
Qed.
Lemma by_band_sorted n nb : StronglySorted lex_lt (map swap (concat (map (fun b => map (fun f => (f, b + 1)) (zupto n)) (zupto nb)))).
Proof.
  rewrite concat_map, map_map. apply (sorted_concat (fun b => b + 1)).
  - rewrite <- (map_id (zupto nb)). apply (sorted_map Z.lt); [intros; lia|apply zupto_sorted].
  - intros b _. rewrite map_map. cbn [swap fst snd]. split; [|intros p I; apply in_map_iff in I; destruct I as (f & <- & _); reflexivity]. apply (sorted_map Z.lt); [|apply zupto_sorted]. intros u v L. right. cbn. lia.
Qed.
Lemma stack_all od ins l : stack od ins = Some l -> all_bands (map in_nb ins) l.
Proof.
  intros E. apply stack_inv in E. destruct E as (first & rest & Ei & _ & _ & [[_ ->]|[H ->]]).
  - split; [apply lex_nodup, by_file_sorted|]. intros f b. rewrite in_concat. split.
    + intros (r & Ir & I). apply in_map_iff in Ir. destruct Ir as ([f' x] & <- & Ir). cbn [fst snd] in I. apply in_map_iff in I. destruct I as (k & Q & I). injection Q as <- <-. apply zupto_In in I. apply enum_In in Ir. exists (in_nb x). rewrite get_map, Ir. split; auto. lia.
    + intros (nb & G & B). rewrite get_map in G. destruct (get_at ins f) as [x|] eqn:Gx; [|discriminate]. injection G as <-. exists (map (fun b => (f, b + 1)) (zupto (in_nb x))). split.
      * apply in_map_iff. exists (f, x). split; auto. now apply enum_In.
      * apply in_map_iff. exists (b - 1). split; [f_equal; lia|apply zupto_In; lia].
  - split.
    + apply (NoDup_map_inv swap). apply lex_nodup, by_band_sorted.
    + intros f b. rewrite in_concat. split.
      * intros (r & Ir & I). apply in_map_iff in Ir. destruct Ir as (k & <- & Ik). apply in_map_iff in I. destruct I as (f' & Q & I). injection Q as <- <-. apply zupto_In in I, Ik.
        destruct (get_at_some ins f' I) as (x & Gx). exists (in_nb x). rewrite get_map, Gx. split; auto. rewrite (H x) by (eapply get_at_In; eauto). lia.
      * intros (nb & G & B). rewrite get_map in G. destruct (get_at ins f) as [x|] eqn:Gx; [|discriminate]. injection G as <-. rewrite (H x) in B by (eapply get_at_In; eauto). exists (map (fun f => (f, b - 1 + 1)) (zupto (zlen ins))). split.
        -- apply in_map_iff. exists (b - 1). split; auto. apply zupto_In. lia.
        -- apply in_map_iff. exists f. split; [f_equal; lia|]. apply zupto_In. apply get_at_inv in Gx. exact Gx.
Qed.

(** ** Tiles *)
Lemma find_x_le x x' o s p p' : 0 < s -> x <= x' -> find_x x o s = Some (o + p * s, p) -> find_x x' o s = Some (o + p' * s, p') -> p <= p'.
Proof.
  intros S L A B. destruct (find_x_spec x o s S) as (u & E & U1 & U2). destruct (find_x_spec x' o s S) as (v & F & V1 & V2). rewrite A in E. rewrite B in F. injection E as _ <-. injection F as _ <-.
  destruct (Z.ltb_spec o x), (Z.ltb_spec o x'); try lia; nia.
Qed.
Lemma find_y_le y y' o s q q' : 0 < s -> y <= y' -> find_y y o s = Some (o - q * s, q) -> find_y y' o s = Some (o - q' * s, q') -> q' <= q.
Proof.
  intros S L A B. destruct (find_y_spec y o s S) as (u & E & U1 & U2). destruct (find_y_spec y' o s S) as (v & F & V1 & V2). rewrite A in E. rewrite B in F. injection E as _ <-. injection F as _ <-.
  destruct (Z.ltb_spec y o), (Z.ltb_spec y' o); try lia; nia.
Qed.
Lemma smallest_le l : forall x, In x l -> smallest l <= x.
Proof.
  assert (forall l a, fold_left Z.min l a <= a /\ forall x, In x l -> fold_left Z.min l a <= x) as G.
  { induction l0 as [|y l0 IH]; cbn [fold_left]; intros a; [split; [lia|intros x []]|]. destruct (IH (Z.min a y)) as (A & B). split; [lia|]. intros x [<-|I]; [lia|auto]. }
  apply G.
Qed.
Lemma largest_ge l : forall x, In x l -> x <= largest l.
Proof.
  assert (forall l a, a <= fold_left Z.max l a /\ forall x, In x l -> x <= fold_left Z.max l a) as G.
  { induction l0 as [|y l0 IH]; cbn [fold_left]; intros a; [split; [lia|intros x []]|]. destruct (IH (Z.max a y)) as (A & B). split; [lia|]. intros x [<-|I]; [lia|auto]. }
  apply G.
Qed.
Lemma smallest_in l : l <> [] -> (forall x, In x l -> x <= 2147483647) -> In (smallest l) l.
Proof.
  assert (forall l a, fold_left Z.min l a = a \/ In (fold_left Z.min l a) l) as G.
  { induction l0 as [|y l0 IH]; cbn [fold_left]; intros a; [auto|]. destruct (IH (Z.min a y)) as [-> |I]; [|right; right; auto]. destruct (Z.min_spec a y) as [[_ ->]|[_ ->]]; [left|right; left]; auto. }
  intros N B. destruct (G l 2147483647) as [E|I]; auto. fold (smallest l) in E. destruct l as [|x l]; [congruence|]. pose proof (smallest_le (x :: l) x (or_introl eq_refl)). specialize (B x (or_introl eq_refl)). replace (smallest (x :: l)) with x by lia. left; auto.
Qed.
Lemma largest_in l : l <> [] -> (forall x, In x l -> -2147483648 <= x) -> In (largest l) l.
Proof.
  assert (forall l a, fold_left Z.max l a = a \/ In (fold_left Z.max l a) l) as G.
  { induction l0 as [|y l0 IH]; cbn [fold_left]; intros a; [auto|]. destruct (IH (Z.max a y)) as [-> |I]; [|right; right; auto]. destruct (Z.max_spec a y) as [[_ ->]|[_ ->]]; [right; left|left]; auto. }
  intros N B. destruct (G l (-2147483648)) as [E|I]; auto. fold (largest l) in E. destruct l as [|x l]; [congruence|]. pose proof (largest_ge (x :: l) x (or_introl eq_refl)). specialize (B x (or_introl eq_refl)). replace (largest (x :: l)) with x by lia. left; auto.
Qed.
(** The tiles of a box. *)
Lemma tabulate_spec c corners : 0 < size_x c -> 0 < size_y c -> let xs := map fst corners in let ys := map snd corners in
  exists p q p' q' l, tabulate c corners = Some l /\
  tile_find c (smallest xs) (largest ys) = Some (mkFound (corner_x c p) (corner_y c q) p q) /\ tile_find c (largest xs) (smallest ys) = Some (mkFound (corner_x c p') (corner_y c q') p' q') /\
  covers c p q (smallest xs) (largest ys) /\ covers c p' q' (largest xs) (smallest ys) /\
  l = concat (map (fun py => map (fun px => polygon c px py) (zrange p p')) (zrange q q')).
Proof.
  intros SX SY xs ys. unfold tabulate. fold xs ys. destruct (tile_find_covers c (smallest xs) (largest ys) SX SY) as (p & q & -> & C). destruct (tile_find_covers c (largest xs) (smallest ys) SX SY) as (p' & q' & -> & C').
  exists p, q, p', q', (concat (map (fun py => map (fun px => polygon c px py) (zrange p p')) (zrange q q'))). cbn [id_x id_y]. auto 10.
Qed.
Lemma poly_In c p p' q q' t : In t (concat (map (fun py => map (fun px => polygon c px py) (zrange p p')) (zrange q q'))) <-> exists px py, p <= px <= p' /\ q <= py <= q' /\ t = polygon c px py.
Proof.
  rewrite in_concat. split.
  - intros (r & Ir & I). apply in_map_iff in Ir. destruct Ir as (py & <- & Iy). apply in_map_iff in I. destruct I as (px & <- & Ix). apply zrange_In in Ix, Iy. exists px, py. auto.
  - intros (px & py & A & B & ->). exists (map (fun px => polygon c px py) (zrange p p')). split; apply in_map_iff; [exists py|exists px]; split; auto; apply zrange_In; auto.
Qed.
Lemma tile_find_le c x y x' y' f f' : 0 < size_x c -> 0 < size_y c -> x <= x' -> y' <= y -> tile_find c x y = Some f -> tile_find c x' y' = Some f' -> id_x f <= id_x f' /\ id_y f <= id_y f'.
Proof.
  intros SX SY Lx Ly A B. unfold tile_find in *.
  destruct (find_x_spec x (ox c) (size_x c) SX) as (p & E1 & _). destruct (find_y_spec y (oy c) (size_y c) SY) as (q & E2 & _). destruct (find_x_spec x' (ox c) (size_x c) SX) as (p' & E3 & _). destruct (find_y_spec y' (oy c) (size_y c) SY) as (q' & E4 & _).
  rewrite E1, E2 in A. rewrite E3, E4 in B. injection A as <-. injection B as <-. cbn. split; [eapply find_x_le; [exact SX|exact Lx| |]; eauto|eapply find_y_le; [exact SY|exact Ly| |]; eauto].
Qed.
Lemma zrange_sorted a b : StronglySorted Z.lt (zrange a b).
Proof.
  unfold zrange. assert (forall k i, StronglySorted Z.lt (map (fun k => a + Z.of_nat k) (seq i k))) as H.
  { induction k as [|k IH]; intros i; cbn [seq map]; constructor; auto. apply Forall_forall. intros x Ix. apply in_map_iff in Ix. destruct Ix as (y & <- & Iy). apply in_seq in Iy. lia. }
  apply H.
Qed.
