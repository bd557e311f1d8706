(** Lemmas about the products of the time series analysis. *)
From Verif Require Import Base Loops CStr BaseFacts LoopsFacts CStrFacts ChunkProofs ParamProofs DateModel DateSpec DateProofs SeasonModel SeasonSpec SeasonProofs TsaModel TsaSpec.
From Coq Require Import Sorting.Sorted.

Lemma all_some_iff {A} : forall (l : list (option A)) r, all_some l = Some r <-> l = map Some r.
Proof.
  induction l as [|o l IH]; intros r; cbn [all_some].
  - split; intros H; [inversion H; auto|]. destruct r; [auto|discriminate].
  - destruct o as [x|]; [|split; intros H; [discriminate|destruct r; discriminate]].
    split; intros H.
    + destruct (all_some l) as [s|] eqn:E; [|discriminate]. inversion H; subst. cbn [map]. f_equal. now apply IH.
    + destruct r as [|y r]; [discriminate|]. cbn [map] in H. injection H as -> H. apply IH in H. now rewrite H.
Qed.
Lemma all_some_ok {A} (l : list (option A)) : (forall o, In o l -> o <> None) -> exists r, all_some l = Some r.
Proof.
  induction l as [|o l IH]; intros H; cbn [all_some]; [eauto|]. destruct o as [x|]; [|exfalso; apply (H None); cbn; auto].
  destruct IH as (r & ->); [intros; apply H; cbn; auto|]. eauto.
Qed.

Lemma omap_F2 {A B} (f : A -> outcome B) : forall l r, omap f l = Ret r <-> Forall2 (fun a b => f a = Ret b) l r.
Proof.
  induction l as [|a l IH]; intros r; cbn [omap].
  - split; intros H; [inversion H; constructor|inversion H; auto].
  - split; intros H.
    + destruct (f a) as [b| |] eqn:E; cbn [bind] in H; try discriminate. destruct (omap f l) as [bs| |] eqn:O; cbn [bind] in H; try discriminate.
      inversion H; subst. constructor; auto. now apply IH.
    + inversion H as [|x b l' bs E F]; subst. rewrite E. cbn [bind]. apply IH in F. rewrite F. reflexivity.
Qed.

(** ** the table of products *)
Definition table (p : tpar) (nt nr ni : Z) : list info :=
  info_series p nt nr ni ++
    info_fold (` "Y") (tp_ny p) Year (tp_y p) ++ info_fold (` "Q") (s_nq (tp_season p)) Quarter (tp_q p) ++
    info_fold (` "M") (s_nm (tp_season p)) Month (tp_m p) ++ info_fold (` "W") (s_nw (tp_season p)) Week (tp_w p) ++
    info_fold (` "D") (s_nd (tp_season p)) Day (tp_d p) ++
    info_pol p ni ++ info_udf (` "PYP") (tp_pyp p) ++ info_udf (` "RSP") (tp_rsp p).

Lemma infos_table p nt nr ni : zlen (tp_use p) = POL_LENGTH -> infos p nt nr ni = Ret (table p nt nr ni).
Proof.
  intros U. unfold infos. change (_ ++ _) with (table p nt nr ni). cbv zeta. fold (table p nt nr ni).
  assert (zlen (combine pol_tags (tp_use p)) = 39) as C.
  { unfold zlen in *. rewrite combine_length. change (length pol_tags) with 39%nat. unfold POL_LENGTH in U. lia. }
  assert (zlen (table p nt nr ni) = nprod) as ->; [|now rewrite Z.eqb_refl].
  unfold table, info_series, info_fold, info_pol, info_udf. unfold zlen in *. rewrite !app_length, !map_length. cbn [length]. unfold nprod, POL_LENGTH. lia.
Qed.

Definition writes (i : info) : bool := negb (i_write i =? 0).
Lemma b2z_not b : negb (b2z b =? 0) = b.
Proof. destruct b; reflexivity. Qed.
Lemma b2z_pos b : (b2z b >? 0) = b.
Proof. destruct b; reflexivity. Qed.
Lemma b2z_mul a b : b2z a * b2z b = b2z (a && b).
Proof. destruct a, b; reflexivity. Qed.

Lemma pol_map (f : list Z * bool -> info) g suffix flag use : (forall tu, i_name (f tu) = fst tu ++ suffix) -> (forall tu, g (f tu) = snd tu && flag) ->
  map (fun i => (i_name i, g i)) (map f (combine pol_tags use)) = pol_requests suffix flag use.
Proof. intros N G. unfold pol_requests. rewrite map_map. apply map_ext. intros tu. now rewrite N, G. Qed.

(** The flags of the parameter file decide about writing. *)
Lemma table_writes p nt nr ni : map (fun i => (i_name i, writes i)) (table p nt nr ni) = requests p.
Proof.
  unfold table, requests, info_pol. rewrite !map_app. unfold info_series, info_fold, info_udf. cbn [map i_name]. unfold writes. cbn [i_write]. rewrite !b2z_not.
  rewrite (pol_map _ (fun i => negb (i_write i =? 0)) (` "-POL") (tp_pol p)), (pol_map _ (fun i => negb (i_write i =? 0)) (` "-TRO") (tp_tro p)), (pol_map _ (fun i => negb (i_write i =? 0)) (` "-CAO") (tp_cao p));
    try (intros tu; cbn [i_name i_write]; rewrite ?b2z_mul, ?b2z_not; reflexivity). rewrite <- !app_assoc. reflexivity.
Qed.

(** Whatever is written is computed. *)
Lemma table_enabled p nt nr ni i : In i (table p nt nr ni) -> writes i = true -> i_enable i > 0.
Proof.
  assert (forall b, negb (b2z b =? 0) = true -> b2z b > 0) as B by (intros []; cbn; [lia|discriminate]).
  assert (forall a b, 0 <= b2z a * b2z b /\ (negb (b2z a * b2z b =? 0) = true -> b2z a * b2z b > 0)) as M by (intros [] []; cbn; split; try lia; discriminate).
  assert (forall b, 0 <= b2z b) as P by (intros []; cbn; lia).
  unfold table, info_pol. rewrite !in_app_iff. unfold writes.
  intros [I|[I|[I|[I|[I|[I|[[I|[I|[I|I]]]|[I|I]]]]]]]].
  1-6,11,12: cbn [info_series info_fold info_udf In] in I; repeat (destruct I as [<-|I]; [cbn [i_write i_enable]; intros W; try lia; apply B in W; repeat match goal with |- context [b2z ?x] => pose proof (P x); generalize dependent (b2z x); intros end; lia|]); contradiction.
  1: cbn [In] in I; repeat (destruct I as [<-|I]; [cbn [i_write i_enable]; apply B|]); contradiction.
  - apply in_map_iff in I. destruct I as (tu & <- & _). cbn [i_write i_enable]. intros W. destruct (M (snd tu) (tp_pol p)) as (M1 & M2). specialize (M2 W).
    destruct (M (snd tu) (tp_tro p)) as (N1 & _). destruct (M (snd tu) (tp_cao p)) as (O1 & _). rewrite !Z.mul_add_distr_l. lia.
  - apply in_map_iff in I. destruct I as (tu & <- & _). cbn [i_write i_enable]. apply M.
  - apply in_map_iff in I. destruct I as (tu & <- & _). cbn [i_write i_enable]. apply M.
Qed.

Lemma table_names p nt nr ni : zlen (tp_use p) = POL_LENGTH -> map i_name (table p nt nr ni) =
  [` "TSS"; ` "NRT"; ` "RMS"; ` "TSI"; ` "STM"] ++ flat_map (fun x => [` "FB" ++ x; ` "TR" ++ x; ` "CA" ++ x]) [` "Y"; ` "Q"; ` "M"; ` "W"; ` "D"] ++
  [` "PCX"; ` "PCY"] ++ map (fun t => t ++ ` "-POL") pol_tags ++ map (fun t => t ++ ` "-TRO") pol_tags ++ map (fun t => t ++ ` "-CAO") pol_tags ++ [` "PYP"; ` "RSP"].
Proof.
  intros U. assert (forall sfx, map (fun tu : list Z * bool => fst tu ++ sfx) (combine pol_tags (tp_use p)) = map (fun t => t ++ sfx) pol_tags) as C.
  { intros sfx. rewrite <- (map_map fst (fun t => t ++ sfx)). f_equal. unfold zlen, POL_LENGTH in U. assert (length (tp_use p) = 39%nat) as L by lia. clear U. revert L. generalize (tp_use p).
    change 39%nat with (length pol_tags). generalize pol_tags. induction l as [|x l IH]; intros [|u us] L; cbn [length combine map] in *; try discriminate; auto. f_equal. apply IH. now inversion L. }
  unfold table, info_pol. rewrite !map_app, !map_map. cbn [i_name]. rewrite !C. rewrite <- !app_assoc. reflexivity.
Qed.

Fixpoint eq_text (a b : list Z) : bool :=
  match a, b with [], [] => true | x :: a, y :: b => (x =? y) && eq_text a b | _, _ => false end.
Lemma eq_text_iff : forall a b, eq_text a b = true <-> a = b.
Proof.
  induction a as [|x a IH]; intros [|y b]; cbn [eq_text]; try (split; congruence). rewrite andb_true_iff, IH, Z.eqb_eq. split; [intros (-> & ->); auto|intros H; inversion H; auto].
Qed.
Fixpoint distinct (l : list (list Z)) : bool :=
  match l with [] => true | a :: t => negb (existsb (eq_text a) t) && distinct t end.
Lemma distinct_NoDup l : distinct l = true -> NoDup l.
Proof.
  induction l as [|a l IH]; intros H; cbn [distinct] in H; constructor; apply andb_true_iff in H as (H1 & H2); auto.
  intros I. apply negb_true_iff in H1. assert (existsb (eq_text a) l = true) as E; [|congruence]. apply existsb_exists. exists a. split; auto. now apply eq_text_iff.
Qed.

Lemma table_nodup p nt nr ni : zlen (tp_use p) = POL_LENGTH -> NoDup (map i_name (table p nt nr ni)).
Proof. intros U. rewrite table_names by auto. apply distinct_NoDup. vm_compute. reflexivity. Qed.

(** Product names have no underscore, hence index and product can be read off the file name. *)
Definition no_us (l : list Z) : Prop := Forall (fun c => c <> 95) l.
Lemma table_no_us p nt nr ni i : zlen (tp_use p) = POL_LENGTH -> In i (table p nt nr ni) -> no_us (i_name i).
Proof.
  intros U I. apply (in_map i_name) in I. rewrite table_names in I by auto.
  assert (forallb (fun l => forallb (fun c => negb (c =? 95)) l) ([` "TSS"; ` "NRT"; ` "RMS"; ` "TSI"; ` "STM"] ++ flat_map (fun x => [` "FB" ++ x; ` "TR" ++ x; ` "CA" ++ x]) [` "Y"; ` "Q"; ` "M"; ` "W"; ` "D"] ++
  [` "PCX"; ` "PCY"] ++ map (fun t => t ++ ` "-POL") pol_tags ++ map (fun t => t ++ ` "-TRO") pol_tags ++ map (fun t => t ++ ` "-CAO") pol_tags ++ [` "PYP"; ` "RSP"]) = true) as E by (vm_compute; reflexivity).
  rewrite forallb_forall in E. specialize (E _ I). apply Forall_forall. intros c C. rewrite forallb_forall in E. specialize (E c C). lia.
Qed.

Lemma last_us : forall a b a' b', no_us b -> no_us b' -> a ++ 95 :: b = a' ++ 95 :: b' -> a = a' /\ b = b'.
Proof.
  induction a as [|x a IH]; intros b a' b' N N' H.
  - destruct a' as [|y a']; cbn [app] in H; [inversion H; auto|]. inversion H; subst. exfalso. unfold no_us in N. rewrite Forall_forall in N. apply (N 95); auto. apply in_app_iff. cbn; auto.
  - destruct a' as [|y a']; cbn [app] in H.
    + inversion H; subst. exfalso. unfold no_us in N'. rewrite Forall_forall in N'. apply (N' 95); auto. apply in_app_iff. cbn; auto.
    + inversion H; subst. apply IH in H2; auto. destruct H2 as (-> & ->). auto.
Qed.

Lemma file_text_inj p ix ix' n n' : no_us n -> no_us n' -> file_text p ix n = file_text p ix' n' -> ix = ix' /\ n = n'.
Proof.
  intros N N'. unfold file_text. change (` "_") with [95]. rewrite !app_assoc. intros H.
  rewrite <- !(app_assoc _ [95] n), <- !(app_assoc _ [95] n') in H. cbn [app] in H. apply last_us in H; auto. destruct H as (H & ->). split; auto.
  apply app_inv_head in H. auto.
Qed.

Lemma file_name_text p ix n f : file_name p ix n = Some f <-> (f = file_text p ix n /\ zlen (file_text p ix n) < 1024).
Proof.
  unfold file_name, fits. change (compact (tp_lo p)) with (day_text (tp_lo p)). change (compact (tp_hi p)) with (day_text (tp_hi p)). fold (file_text p ix n).
  rewrite Z.geb_leb. destruct (Z.leb_spec 1024 (zlen (file_text p ix n))); split; intros A; try discriminate; try lia.
  - inversion A; auto.
  - destruct A as (-> & _). auto.
Qed.

(** ** one index *)
Lemma product_brick p imgs nt nr ix i b : compile_product p imgs nt nr ix i = Ret (Some (Some b)) <->
  i_enable i > 0 /\ 1 <= i_len i /\ b_product b = i_name i /\ b_file b = file_text p ix (i_name i) /\ zlen (file_text p ix (i_name i)) < 1024 /\
  b_written b = writes i /\ labels p imgs nt nr i = Ret (map Some (b_bands b)).
Proof.
  unfold compile_product, writes. destruct (Z.gtb_spec (i_enable i) 0); [|split; [discriminate|lia]].
  destruct (Z.ltb_spec (i_len i) 1); [split; [discriminate|lia]|]. destruct (file_name p ix (i_name i)) as [f|] eqn:F.
  - apply file_name_text in F. destruct F as (-> & F). destruct (labels p imgs nt nr i) as [ls| |]; cbn [bind]; [|split; [discriminate|intros (_ & _ & _ & _ & _ & _ & D); discriminate]..].
    destruct (all_some ls) as [r|] eqn:A.
    + apply all_some_iff in A. subst ls. split.
      * intros X. inversion X; subst. cbn. repeat (split; [auto; lia|]). auto.
      * intros (_ & _ & P1 & P2 & _ & P4 & P5). f_equal. f_equal. f_equal. destruct b as [b1 b2 b3 b4]. cbn in *. subst. f_equal.
        inversion P5 as [P6]. clear P5. revert b4 P6. induction r as [|x r IH]; intros [|y b4] P6; cbn [map] in P6; try discriminate; auto. inversion P6; subst. f_equal; auto.
    + split; [discriminate|]. intros (_ & _ & _ & _ & _ & _ & D). inversion D as [D']. assert (all_some ls = Some (b_bands b)) as X by now apply all_some_iff. congruence.
  - split; [discriminate|]. intros (_ & _ & P1 & P2 & P3 & _). assert (file_name p ix (i_name i) = Some (file_text p ix (i_name i))) as X by (apply file_name_text; auto). congruence.
Qed.
Lemma product_none p imgs nt nr ix i : compile_product p imgs nt nr ix i = Ret (Some None) <-> i_enable i <= 0.
Proof.
  unfold compile_product. destruct (Z.gtb_spec (i_enable i) 0); [|split; auto].
  split; [|lia]. destruct (i_len i <? 1); [discriminate|]. destruct (file_name p ix (i_name i)); [|discriminate]. destruct (labels p imgs nt nr i) as [ls| |]; cbn [bind]; try discriminate. destruct (all_some ls); discriminate.
Qed.

(** The result for one index, product by product. *)
Lemma tsa_F2 p imgs nt nr ni ix bs : zlen (tp_use p) = POL_LENGTH -> compile_tsa p imgs nt nr ni ix = Ret (Some bs) ->
  Forall2 (fun i o => compile_product p imgs nt nr ix i = Ret (Some o)) (table p nt nr ni) bs.
Proof.
  intros U H. unfold compile_tsa in H. rewrite infos_table in H by auto. cbn [bind] in H. destruct (omap _ _) as [r| |] eqn:O; cbn [bind] in H; try discriminate.
  assert (all_some r = Some bs) as A by congruence. apply all_some_iff in A. subst r. apply omap_F2 in O. clear H. revert bs O. generalize (table p nt nr ni). intros l bs O.
  remember (map Some bs) as r eqn:R. revert bs R. induction O as [|i o l r E F IH]; intros [|b bs] R; cbn [map] in R; try discriminate; constructor; inversion R; subst; auto.
Qed.

Lemma series_concat p imgs bs : time_series p imgs = Ret (Some bs) ->
  exists ls, bs = concat ls /\ Forall2 (fun ix l => compile_tsa p imgs (zlen imgs) (n_nrt p imgs) (n_steps p (zlen imgs)) ix = Ret (Some l)) (tp_index p) ls.
Proof.
  unfold time_series. destruct (omap _ _) as [r| |] eqn:O; cbn [bind]; try discriminate. intros H. destruct (all_some r) as [ls|] eqn:S; [|discriminate].
  assert (bs = concat ls) as -> by congruence. clear H. exists ls. split; auto. apply all_some_iff in S. subst r. apply omap_F2 in O. remember (map Some ls) as r eqn:R. revert ls R.
  induction O as [|i o l r E F IH]; intros [|b bs] R; cbn [map] in R; try discriminate; constructor; inversion R; subst; auto.
Qed.

(** Every brick of the result belongs to one entry of the table and one index. *)
Lemma series_brick p imgs bs b : zlen (tp_use p) = POL_LENGTH -> time_series p imgs = Ret (Some bs) -> In (Some b) bs ->
  exists ix i, In ix (tp_index p) /\ In i (table p (zlen imgs) (n_nrt p imgs) (n_steps p (zlen imgs))) /\
    compile_product p imgs (zlen imgs) (n_nrt p imgs) ix i = Ret (Some (Some b)) /\
    forall i', In i' (table p (zlen imgs) (n_nrt p imgs) (n_steps p (zlen imgs))) -> i_enable i' > 0 ->
      exists b', In (Some b') bs /\ compile_product p imgs (zlen imgs) (n_nrt p imgs) ix i' = Ret (Some (Some b')).
Proof.
  intros U H I. apply series_concat in H. destruct H as (ls & -> & F). apply in_concat in I. destruct I as (l & L & I).
  assert (exists ix, In ix (tp_index p) /\ compile_tsa p imgs (zlen imgs) (n_nrt p imgs) (n_steps p (zlen imgs)) ix = Ret (Some l)) as (ix & X & E).
  { clear I. induction F as [|ix l' ixs ls' E F IH]; [contradiction|]. destruct L as [->|L]; [exists ix; cbn; auto|]. destruct (IH L) as (y & Y & Z). exists y. cbn; auto. }
  apply tsa_F2 in E; auto. exists ix.
  assert (exists i, In i (table p (zlen imgs) (n_nrt p imgs) (n_steps p (zlen imgs))) /\ compile_product p imgs (zlen imgs) (n_nrt p imgs) ix i = Ret (Some (Some b))) as (i & J & K).
  { clear - E I. induction E as [|i o t l E F IH]; [contradiction|]. destruct I as [->|I]; [exists i; cbn; auto|]. destruct (IH I) as (y & Y & Z). exists y. cbn; auto. }
  exists i. split; auto. split; auto. split; auto. intros i' I' P.
  assert (exists o, In o l /\ compile_product p imgs (zlen imgs) (n_nrt p imgs) ix i' = Ret (Some o)) as (o & O & Q).
  { clear - E I'. induction E as [|i o t l E F IH]; [contradiction|]. destruct I' as [->|I]; [exists o; cbn; auto|]. destruct (IH I) as (y & Y & Z). exists y. cbn; auto. }
  destruct o as [b'|]; [|apply product_none in Q; lia]. exists b'. split; auto. apply in_concat. eauto.
Qed.

Lemma bricks_concat ls : bricks (concat ls) = flat_map bricks ls.
Proof. unfold bricks. induction ls as [|l ls IH]; cbn [concat flat_map]; auto. rewrite flat_map_app. congruence. Qed.

(** The files written for one index. *)
Lemma tsa_files p imgs nt nr ni ix bs : zlen (tp_use p) = POL_LENGTH -> compile_tsa p imgs nt nr ni ix = Ret (Some bs) -> written_files bs = map (file_text p ix) (asked p).
Proof.
  intros U H. apply tsa_F2 in H; auto. unfold asked. rewrite <- (table_writes p nt nr ni). unfold written_files.
  assert (forall i, In i (table p nt nr ni) -> writes i = true -> i_enable i > 0) as W by (intros; eapply table_enabled; eauto). clear U.
  induction H as [|i o t l E F IH]; auto. cbn [map filter]. change (bricks (o :: l)) with ((match o with Some b => [b] | None => [] end) ++ bricks l). rewrite filter_app, map_app.
  rewrite IH by (intros; apply W; cbn; auto). destruct o as [b|].
  - apply product_brick in E. destruct E as (_ & _ & _ & E1 & _ & E2 & _). cbn [filter]. rewrite E2. cbn [snd]. destruct (writes i); cbn [map app]; [rewrite E1|]; reflexivity.
  - apply product_none in E. cbn [snd]. destruct (writes i) eqn:WI; [|reflexivity]. assert (i_enable i > 0) by (apply W; cbn; auto). lia.
Qed.

Lemma files_ok p imgs bs : zlen (tp_use p) = POL_LENGTH -> time_series p imgs = Ret (Some bs) -> written_files bs = flat_map (fun ix => map (file_text p ix) (asked p)) (tp_index p).
Proof.
  intros U H. apply series_concat in H. destruct H as (ls & -> & F). induction F as [|ix l ixs ls E F IH]; auto. cbn [concat flat_map]. rewrite <- IH.
  unfold written_files, bricks. rewrite flat_map_app, filter_app, map_app. f_equal. eapply tsa_files; eauto.
Qed.

Lemma asked_nodup p : zlen (tp_use p) = POL_LENGTH -> NoDup (asked p) /\ Forall no_us (asked p).
Proof.
  intros U. unfold asked. rewrite <- (table_writes p 0 0 0). pose proof (table_nodup p 0 0 0 U) as N. assert (forall i, In i (table p 0 0 0) -> no_us (i_name i)) as C by (intros; eapply table_no_us; eauto).
  revert N C. generalize (table p 0 0 0). induction l as [|i l IH]; intros N C; cbn [map filter snd]; [split; constructor|].
  cbn [map] in N. inversion N as [|x y N1 N2]; subst. destruct (IH N2) as (I1 & I2); [intros; apply C; cbn; auto|]. destruct (writes i); [|split; auto]. cbn [map fst]. split; constructor; auto; [|apply C; cbn; auto].
  intros I. apply N1. apply in_map_iff in I. destruct I as ((n, w) & <- & I). apply filter_In in I. destruct I as (I & _). apply in_map_iff in I. destruct I as (j & J & I). inversion J; subst. cbn. now apply in_map.
Qed.

Lemma files_nodup p l : NoDup (asked p) -> Forall no_us (asked p) -> NoDup l -> NoDup (flat_map (fun ix => map (file_text p ix) (asked p)) l).
Proof.
  intros N C D. induction D as [|ix l X D IH]; cbn [flat_map]; [constructor|].
  assert (NoDup (map (file_text p ix) (asked p))) as M.
  { clear IH. revert N C. generalize (asked p). induction l0 as [|n l0 J]; intros N C; cbn [map]; constructor; inversion N; inversion C; subst; auto.
    intros I. apply in_map_iff in I. destruct I as (n' & E & I). rewrite Forall_forall in H6. apply file_text_inj in E; auto. destruct E as (_ & ->). auto. }
  assert (forall x y : list (list Z), NoDup x -> NoDup y -> (forall a, In a x -> ~ In a y) -> NoDup (x ++ y)) as APP.
  { induction 1 as [|a x A1 A2 A3]; intros Y B; cbn [app]; auto. constructor; [|apply A3; auto; intros; apply B; cbn; auto]. rewrite in_app_iff. intros [I|I]; [auto|]. apply (B a); cbn; auto. }
  apply APP; auto. intros f I J. apply in_map_iff in I. destruct I as (n & <- & I). apply in_flat_map in J. destruct J as (ix' & K & J). apply in_map_iff in J. destruct J as (n' & E & J).
  rewrite Forall_forall in C. apply file_text_inj in E; auto. destruct E as (-> & _). auto.
Qed.
