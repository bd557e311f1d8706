From Verif Require Import Base BaseFacts CStr CStrFacts StringModel StringSpec StringProofs Loops LoopsFacts
  TileModel TileSpec.
From Coq Require Import Sorting.Sorted.

(** ** Text *)
Lemma print_0d_neg w n : n < 0 -> print_0d w n = 45 :: pad0 (w - 1) (dec_nonneg (- n)).
Proof. intros H; unfold print_0d; now replace (n <? 0) with true by lia. Qed.

Lemma print_04d_length n : -999 <= n <= 9999 -> length (print_0d 4 n) = 4%nat.
Proof.
  intros H. destruct (Z.ltb_spec n 0).
  - rewrite print_0d_neg by auto. cbn [length].
    pose proof (pad0_length 3 (- n) ltac:(lia) ltac:(change (10 ^ Z.of_nat 3) with 1000; lia)) as L.
    unfold print_0d in L. replace (- n <? 0) with false in L by lia.
    change (4 - 1)%nat with 3%nat. now rewrite L.
  - apply pad0_length; [lia|]. change (10 ^ Z.of_nat 4) with 10000; lia.
Qed.

Lemma print_0d_chars w n : Forall (fun c => c = 45 \/ 48 <= c <= 57) (print_0d w n).
Proof.
  destruct (Z.ltb_spec n 0).
  - rewrite print_0d_neg by auto. constructor; auto.
    pose proof (print_0d_digits (w - 1) (- n) ltac:(lia)) as D. unfold print_0d in D.
    replace (- n <? 0) with false in D by lia.
    eapply Forall_impl; [|exact D]. cbn; lia.
  - eapply Forall_impl; [|apply print_0d_digits; lia]. cbn; lia.
Qed.

Lemma atoi_print_0d_neg w n : -2147483648 <= n < 0 -> atoi (print_0d w n) = Ret n.
Proof.
  intros H. rewrite print_0d_neg by lia. unfold atoi, atoi_val; cbn [skip_space].
  change (is_space 45) with false; cbn iota beta.
  unfold pad0; rewrite digits_val_zeros, dec_nonneg_val by lia.
  rewrite Z.opp_involutive. apply chk_int_ok; unfold in_int; lia.
Qed.

Lemma atoi_print_0d_any w n : in_int n -> atoi (print_0d w n) = Ret n.
Proof.
  unfold in_int; intros H. destruct (Z.ltb_spec n 0); [apply atoi_print_0d_neg; lia|apply atoi_print_0d; lia].
Qed.

Lemma digits_val_stop l c r : is_digit c = false -> forall acc, all_digits l ->
  digits_val acc (l ++ c :: r) = digits_val acc l.
Proof.
  intros N acc H. rewrite digits_val_app by auto. cbn [digits_val]. now rewrite N.
Qed.

(** Decimal numbers followed by a newline. *)
Lemma atoi_print_d_nl n : 0 <= n <= 2147483647 -> atoi (print_d n ++ [10]) = Ret n.
Proof.
  intros H; unfold atoi, print_d. replace (n <? 0) with false by lia.
  assert (all_digits (dec_nonneg n)) as D by (apply dec_nonneg_digits; lia).
  assert (atoi_val (dec_nonneg n ++ [10]) = digits_val 0 (dec_nonneg n ++ [10])) as ->.
  { unfold atoi_val. destruct (dec_nonneg n) as [|c l] eqn:E; [reflexivity|].
    inversion D; subst. cbn [app skip_space].
    replace (is_space c) with false by (unfold is_space; lia).
    destruct c as [|p|p]; auto. do 7 (destruct p as [p|p|]; auto; try lia). }
  rewrite digits_val_stop by (auto; reflexivity).
  rewrite dec_nonneg_val by lia. apply chk_int_ok; unfold in_int; lia.
Qed.

Lemma tile_name_chars t : Forall (fun c => c <> 0 /\ c <> 10) (tile_name t).
Proof.
  unfold tile_name. change (lit "X"%string) with [88]. change (lit "_Y"%string) with [95; 89].
  repeat (apply Forall_app; split).
  - constructor; [lia|constructor].
  - eapply Forall_impl; [|apply print_0d_chars]; cbn; lia.
  - constructor; [lia|constructor; [lia|constructor]].
  - eapply Forall_impl; [|apply print_0d_chars]; cbn; lia.
Qed.

Lemma tile_name_length t : tile_id_ok t -> length (tile_name t) = 11%nat.
Proof.
  intros [A B]; unfold tile_name. rewrite !app_length, !print_04d_length by auto. reflexivity.
Qed.

Lemma cstr_of_line l buf : chars_ok l -> cstr_of (l ++ 0 :: buf) = Some l.
Proof. apply cstr_of_app. Qed.

Lemma parse_tile_line t tail : tile_id_ok t ->
  parse_coord ((tile_name t ++ [10]) ++ 0 :: tail) 1 = Ret (fst t) /\
  parse_coord ((tile_name t ++ [10]) ++ 0 :: tail) 7 = Ret (snd t).
Proof.
  intros [A B].
  assert (chars_ok (tile_name t ++ [10])) as C.
  { apply chars_ok_app; split.
    - eapply Forall_impl; [|apply tile_name_chars]. cbn; tauto.
    - constructor; [discriminate|constructor]. }
  assert (forall k, (k <= 11)%nat ->
    cstr_of (skipn k ((tile_name t ++ [10]) ++ 0 :: tail)) = Some (skipn k (tile_name t ++ [10]))) as S.
  { intros k K. rewrite skipn_app. rewrite app_length, (tile_name_length t) by (split; auto).
    cbn [length]. replace (k - (11 + 1))%nat with 0%nat by lia. rewrite skipn_O.
    apply cstr_of_app. rewrite <- (firstn_skipn k (tile_name t ++ [10])) in C.
    apply chars_ok_app in C. apply C. }
  pose proof (print_04d_length _ A) as LA. pose proof (print_04d_length _ B) as LB.
  unfold parse_coord. rewrite !S by lia. cbn [of_option bind]. unfold tile_name.
  change (lit "X"%string) with [88]. change (lit "_Y"%string) with [95; 89].
  set (P := print_0d 4 (fst t)) in *. set (Q := print_0d 4 (snd t)) in *.
  assert (([88] ++ P ++ [95; 89] ++ Q) ++ [10] = [88] ++ P ++ [95; 89] ++ Q ++ [10]) as ->
    by (rewrite <- !app_assoc; reflexivity).
  split.
  - change (skipn 1 ([88] ++ P ++ [95; 89] ++ Q ++ [10])) with (P ++ [95; 89] ++ Q ++ [10]).
    rewrite firstn_app, LA, Nat.sub_diag, firstn_O, app_nil_r.
    rewrite firstn_all2 by lia. apply atoi_print_0d_any; unfold in_int; lia.
  - assert (skipn 7 ([88] ++ P ++ [95; 89] ++ Q ++ [10]) = Q ++ [10]) as ->.
    { replace ([88] ++ P ++ [95; 89] ++ Q ++ [10]) with (([88] ++ P ++ [95; 89]) ++ Q ++ [10])
        by (rewrite <- !app_assoc; reflexivity).
      rewrite skipn_app, skipn_all2 by (rewrite !app_length, LA; cbn; lia).
      rewrite !app_length, LA. reflexivity. }
    rewrite firstn_app, LB, Nat.sub_diag, firstn_O, app_nil_r.
    rewrite firstn_all2 by lia. apply atoi_print_0d_any; unfold in_int; lia.
Qed.

Lemma read_tiles_ok ts : forall buf rest, length buf = 1024%nat -> Forall tile_id_ok ts ->
  read_tiles (length ts) buf (concat (map (fun t => tile_name t ++ [10]) ts) ++ rest) = Ret (Some ts).
Proof.
  induction ts as [|t ts IH]; intros buf rest L F; cbn [length read_tiles map concat]; auto.
  inversion F as [|? ? Ht Hts]; subst.
  assert (Forall (fun c => c <> 10) (tile_name t)) as N
    by (eapply Forall_impl; [|apply tile_name_chars]; cbn; tauto).
  rewrite <- app_assoc, <- app_assoc. cbn [app].
  set (R := concat (map (fun t => tile_name t ++ [10]) ts) ++ rest).
  assert (fgets_buf buf (tile_name t ++ 10 :: R) =
    Some ((tile_name t ++ [10]) ++ 0 :: skipn (length (tile_name t ++ [10]) + 1) buf, R)) as FG.
  { unfold fgets_buf. rewrite fgets_newline; auto. unfold zlen.
    rewrite tile_name_length by auto. lia. }
  rewrite FG. destruct (parse_tile_line t (skipn (length (tile_name t ++ [10]) + 1) buf) Ht) as [-> ->].
  cbn [bind]. unfold R. rewrite IH; auto.
  - cbn [bind]. destruct t; reflexivity.
  - exact (eq_trans (fgets_buf_length _ _ _ _ FG ltac:(lia)) L).
Qed.

Lemma list_file_read ts rest : ts <> [] -> Forall tile_id_ok ts -> zlen ts <= 2147483647 ->
  tile_readlist (Content (list_file ts rest)) = Ret (Some ts).
Proof.
  intros NE F L. unfold tile_readlist, list_file.
  pose proof (zlen_nonneg ts) as P.
  assert (all_digits (print_d (zlen ts))) as D.
  { unfold print_d. replace (zlen ts <? 0) with false by lia. apply dec_nonneg_digits; auto. }
  assert (length (print_d (zlen ts)) <= 20)%nat as LL.
  { unfold print_d. replace (zlen ts <? 0) with false by lia.
    pose proof (dec_digits_length 20 (zlen ts) [] 20 ltac:(lia)) as Q.
    unfold dec_nonneg. cbn [length] in Q. destruct Q; [|lia].
    change (10 ^ Z.of_nat 20) with 100000000000000000000; lia. }
  assert (fgets_buf (repeat 0 1024) (print_d (zlen ts) ++ 10 :: concat (map (fun t => tile_name t ++ [10]) ts) ++ rest)
    = Some ((print_d (zlen ts) ++ [10]) ++ 0 :: skipn (length (print_d (zlen ts) ++ [10]) + 1) (repeat 0 1024),
            concat (map (fun t => tile_name t ++ [10]) ts) ++ rest)) as FG.
  { unfold fgets_buf. rewrite fgets_newline; auto.
    - eapply Forall_impl; [|exact D]; cbn; lia.
    - assert (zlen (repeat 0 1024) = 1024) as -> by (unfold zlen; rewrite repeat_length; reflexivity).
      unfold zlen at 1. lia. }
  rewrite FG. rewrite cstr_of_app.
  - cbn [of_option bind]. rewrite atoi_print_d_nl by lia. cbn [bind].
    replace (zlen ts <=? 0) with false by (destruct ts; [congruence|unfold zlen; cbn [length]; lia]).
    unfold zlen at 1; rewrite Nat2Z.id.
    apply read_tiles_ok; auto.
    pose proof (fgets_buf_length _ _ _ _ FG) as Q. rewrite Q; apply repeat_length || (rewrite repeat_length; lia).
  - apply chars_ok_app; split; [|constructor; [discriminate|constructor]].
    eapply Forall_impl; [|exact D]; cbn; lia.
Qed.

(** ** Selection *)
Lemma allowlisted_spec allow x y : tile_allowlisted allow x y = true <-> allow = [] \/ In (x, y) allow.
Proof.
  unfold tile_allowlisted. destruct allow as [|a l]; [cbn; tauto|].
  replace (zlen (a :: l) >? 0) with true by (unfold zlen; cbn [length]; lia).
  set (L := a :: l). assert (L <> []) as NE by discriminate. clearbody L. clear a l.
  assert (forall b, fold_left (fun b t => if (x =? fst t) && (y =? snd t) then true else b) L b = true
     <-> b = true \/ In (x, y) L) as G.
  { clear NE. induction L as [|[u v] L IH]; intros b; cbn [fold_left In fst snd]; [tauto|].
    rewrite IH. destruct (Z.eqb_spec x u), (Z.eqb_spec y v); subst; cbn [andb]; split; try tauto.
    all: intros [H|[H|H]]; auto; inversion H; congruence. }
  rewrite G. split; [intros [H|H]; [discriminate|auto]|intros [H|H]; [congruence|auto]].
Qed.

Definition sel (e : extent) (allow : list (Z * Z)) (ys : list Z) : list (Z * Z) :=
  flat_map (fun y => map (fun x => (x, y)) (filter (fun x => tile_allowlisted allow x y) (zrange (xmin e) (xmax e)))) ys.

(** Loop invariant: the first n slots are the selection so far. *)
Definition holds_tiles (cells : nat) (st : active) (l : list (Z * Z)) : Prop :=
  a_n st = zlen l /\ length (a_x st) = cells /\ length (a_y st) = cells /\
  active_tiles st = l.

Lemma firstn_list_set_snoc {A} (l : list A) n v : (n < length l)%nat ->
  firstn (S n) (list_set l n v) = firstn n l ++ [v].
Proof.
  revert n; induction l as [|x l IH]; intros [|n] H; cbn in *; try lia; auto.
  f_equal. apply IH; lia.
Qed.

Lemma combine_list_set {A B} (a : list A) (b : list B) n x y : length a = length b ->
  combine (list_set a n x) (list_set b n y) = list_set (combine a b) n (x, y).
Proof.
  revert b n; induction a as [|u a IH]; intros [|v b] [|n] H; cbn in *; try discriminate; auto.
  f_equal. apply IH; congruence.
Qed.

Lemma active_step_ok cells allow ty st tx l : holds_tiles cells st l -> zlen l < Z.of_nat cells ->
  exists st', active_step allow ty st tx = Ret st' /\
    holds_tiles cells st' (l ++ if tile_allowlisted allow tx ty then [(tx, ty)] else []).
Proof.
  intros (N & LX & LY & T) B. unfold active_step.
  destruct (tile_allowlisted allow tx ty).
  - pose proof (zlen_nonneg l).
    unfold set_at. rewrite N, LX, LY.
    replace ((zlen l <? 0) || (Z.of_nat cells <=? zlen l)) with false by lia. cbn [of_option bind].
    eexists; split; [reflexivity|]. unfold holds_tiles, active_tiles; cbn [a_n a_x a_y].
    rewrite !length_list_set. repeat split; auto.
    + unfold zlen. rewrite app_length; cbn [length]. lia.
    + replace (Z.to_nat (zlen l + 1)) with (S (Z.to_nat (zlen l))) by lia.
      rewrite combine_list_set by congruence.
      rewrite firstn_list_set_snoc by (rewrite combine_length; lia).
      unfold active_tiles in T. rewrite N in T. now rewrite T.
  - exists st; split; auto. rewrite app_nil_r. repeat split; auto.
Qed.

Lemma filter_length_le {A} (f : A -> bool) l : (length (filter f l) <= length l)%nat.
Proof. induction l as [|a l IH]; cbn; [lia|]. destruct (f a); cbn; lia. Qed.

Lemma active_row_ok cells allow ty xs : forall st l, holds_tiles cells st l ->
  zlen l + zlen xs <= Z.of_nat cells ->
  exists st', ofold (active_step allow ty) xs st = Ret st' /\
    holds_tiles cells st' (l ++ map (fun x => (x, ty)) (filter (fun x => tile_allowlisted allow x ty) xs)).
Proof.
  induction xs as [|x xs IH]; intros st l H B; cbn [ofold filter map].
  - exists st; split; auto. now rewrite app_nil_r.
  - assert (zlen (x :: xs) = zlen xs + 1) as E by (unfold zlen; cbn [length]; lia).
    pose proof (zlen_nonneg xs).
    destruct (active_step_ok cells allow ty st x l H ltac:(lia)) as (st1 & -> & H1). cbn [bind].
    destruct (IH st1 _ H1) as (st' & E' & H').
    { unfold zlen in *. rewrite app_length. destruct (tile_allowlisted allow x ty); cbn [length]; lia. }
    exists st'; split; auto. rewrite <- app_assoc in H'.
    destruct (tile_allowlisted allow x ty); cbn [map app] in *; auto.
Qed.

Lemma active_rows_ok cells allow e ys : forall st l, holds_tiles cells st l ->
  zlen l + zlen ys * Z.max 0 (xmax e - xmin e + 1) <= Z.of_nat cells ->
  exists st', ofold (fun st ty => ofold (active_step allow ty) (zrange (xmin e) (xmax e)) st) ys st = Ret st' /\
    holds_tiles cells st' (l ++ sel e allow ys).
Proof.
  induction ys as [|y ys IH]; intros st l H B; cbn [ofold sel flat_map].
  - exists st; split; auto. now rewrite app_nil_r.
  - assert (zlen (y :: ys) = zlen ys + 1) as E by (unfold zlen; cbn [length]; lia).
    assert (zlen (zrange (xmin e) (xmax e)) = Z.max 0 (xmax e - xmin e + 1)) as W
      by (unfold zlen; rewrite zrange_length; lia).
    pose proof (zlen_nonneg ys).
    destruct (active_row_ok cells allow y (zrange (xmin e) (xmax e)) st l H) as (st1 & -> & H1).
    { rewrite W. nia. }
    cbn [bind].
    destruct (IH st1 _ H1) as (st' & E' & H').
    { unfold zlen in *. rewrite app_length, map_length.
      pose proof (filter_length_le (fun x => tile_allowlisted allow x y) (zrange (xmin e) (xmax e))). nia. }
    exists st'; split; auto. rewrite <- app_assoc in H'. exact H'.
Qed.

Lemma sel_in e allow ys t : In t (sel e allow ys) <->
  In (snd t) ys /\ xmin e <= fst t <= xmax e /\ (allow = [] \/ In t allow).
Proof.
  unfold sel. rewrite in_flat_map. destruct t as [x y]; cbn [fst snd]. split.
  - intros (v & V & H). apply in_map_iff in H. destruct H as (u & Q & H). inversion Q; subst.
    apply filter_In in H. rewrite zrange_In, allowlisted_spec in H. tauto.
  - intros (H1 & H2 & H3). exists y; split; auto. apply in_map_iff. exists x; split; auto.
    apply filter_In. rewrite zrange_In, allowlisted_spec. auto.
Qed.

Lemma SS_app {A} (R : A -> A -> Prop) l1 l2 : StronglySorted R l1 -> StronglySorted R l2 ->
  (forall a b, In a l1 -> In b l2 -> R a b) -> StronglySorted R (l1 ++ l2).
Proof.
  intros S1 S2 H. induction S1 as [|a l1 S1 IH F]; cbn; auto.
  constructor.
  - apply IH. intros; apply H; cbn; auto.
  - apply Forall_app; split; auto. apply Forall_forall. intros b B. apply H; cbn; auto.
Qed.

Lemma SS_filter {A} (R : A -> A -> Prop) (f : A -> bool) l : StronglySorted R l -> StronglySorted R (filter f l).
Proof.
  induction 1 as [|a l S IH F]; cbn; [constructor|].
  destruct (f a); auto. constructor; auto.
  apply Forall_forall. intros x X. apply filter_In in X. rewrite Forall_forall in F. apply F, X.
Qed.

Lemma SS_map {A B} (R : A -> A -> Prop) (Q : B -> B -> Prop) (f : A -> B) l :
  (forall a b, R a b -> Q (f a) (f b)) -> StronglySorted R l -> StronglySorted Q (map f l).
Proof.
  intros H. induction 1 as [|a l S IH F]; cbn; constructor; auto.
  rewrite Forall_map. eapply Forall_impl; [|exact F]. auto.
Qed.

Lemma sel_sorted e allow ys : StronglySorted Z.lt ys -> StronglySorted before (sel e allow ys).
Proof.
  induction 1 as [|y ys S IH F]; cbn; [constructor|].
  apply SS_app; auto.
  - apply (SS_map Z.lt); [intros a b L; right; cbn; auto|]. apply SS_filter, zrange_sorted.
  - intros a b A B. apply in_map_iff in A. destruct A as (x & <- & _).
    apply sel_in in B. rewrite Forall_forall in F. left; cbn. apply F, B.
Qed.

Lemma tile_active_ok f e allow : tile_readlist f = Ret (Some allow) -> extent_ok e ->
  exists c st, tile_active f e = Ret (c, st) /\
    is_selection e allow (active_tiles st) /\ a_n st = zlen (active_tiles st) /\
    (c = SUCCESS \/ c = FAILURE) /\ (c = FAILURE <-> active_tiles st = []).
Proof.
  intros R E. unfold tile_active; rewrite R; cbn [bind].
  destruct E as (E1 & E2 & E3 & E4 & E5 & E6 & E7 & E8 & E9).
  set (w := xmax e - xmin e + 1) in *. set (h := ymax e - ymin e + 1) in *.
  assert (0 <= w * h) by nia.
  unfold dim_cells.
  rewrite (chk_int_ok (xmax e - xmin e)) by (unfold in_int; lia). cbn [bind]. fold w.
  rewrite (chk_int_ok w) by (unfold in_int; lia). cbn [bind].
  rewrite (chk_int_ok (ymax e - ymin e)) by (unfold in_int; lia). cbn [bind]. fold h.
  rewrite (chk_int_ok h) by (unfold in_int; lia). cbn [bind].
  rewrite (chk_int_ok (w * h)) by (unfold in_int; lia). cbn [bind].
  replace (w * h <? 0) with false by lia.
  destruct (active_rows_ok (Z.to_nat (w * h)) allow e (zrange (ymin e) (ymax e))
    (mkActive (repeat 0 (Z.to_nat (w * h))) (repeat 0 (Z.to_nat (w * h))) 0) []) as (st & -> & (N & _ & _ & T)).
  { unfold holds_tiles; cbn [a_n a_x a_y]. rewrite repeat_length. repeat split; auto. }
  { assert (zlen (zrange (ymin e) (ymax e)) = h) as -> by (unfold zlen; rewrite zrange_length; lia).
    unfold zlen; cbn [length]. fold w. replace (Z.max 0 w) with w by lia. lia. }
  cbn [bind]. exists (if a_n st =? 0 then FAILURE else SUCCESS), st. split; auto.
  cbn [app] in *. rewrite T. split.
  { split; [apply sel_sorted, zrange_sorted|]. intros t. rewrite sel_in, zrange_In.
    unfold in_extent; tauto. }
  split; auto. rewrite N.
  destruct (sel e allow (zrange (ymin e) (ymax e))) as [|t l]; cbn.
  - split; [auto|]. tauto.
  - split; auto. split; intros; discriminate.
Qed.

Lemma selection_unique e allow l1 l2 : is_selection e allow l1 -> is_selection e allow l2 -> l1 = l2.
Proof.
  intros [S1 I1] [S2 I2].
  assert (forall t, In t l1 <-> In t l2) as EQ by (intros t; now rewrite I1, I2).
  clear I1 I2. revert l2 S2 EQ.
  assert (forall a, ~ before a a) as IR by (unfold before; lia).
  assert (forall a b, before a b -> before b a -> False) as AS by (unfold before; lia).
  induction S1 as [|a l1 S1 IH F1]; intros l2 S2 EQ.
  - destruct l2 as [|b l2]; auto. exfalso. apply (EQ b). cbn; auto.
  - destruct S2 as [|b l2 S2 F2]; [exfalso; apply (EQ a); cbn; auto|].
    rewrite Forall_forall in F1, F2.
    assert (a = b) as ->.
    { destruct (proj1 (EQ a) (or_introl eq_refl)) as [|A]; auto.
      destruct (proj2 (EQ b) (or_introl eq_refl)) as [|B]; auto.
      exfalso. apply (AS a b); auto. }
    f_equal. apply IH; auto. intros t. split; intros T.
    + destruct (proj1 (EQ t) (or_intror T)) as [->|]; auto. exfalso. apply (IR t); auto.
    + destruct (proj2 (EQ t) (or_intror T)) as [->|]; auto. exfalso. apply (IR t); auto.
Qed.
