(** Proofs about the averages of water vapour. *)
From Coq Require Import Reals Lra Lia ZifyBool.
From Verif Require Import Base BaseFacts CStr Loops LoopsFacts RoundModel StatsModel StatsSpec StatsProofs L1Model L1Proofs WvpModel WvpSpec.
#[local] Open Scope Z_scope.

Lemma Rltb_true x y : Rltb x y = true <-> (x < y)%R.
Proof. unfold Rltb. destruct (Rlt_dec x y); split; intros; auto; discriminate. Qed.
Lemma Rltb_false x y : Rltb x y = false <-> (y <= x)%R.
Proof. unfold Rltb. destruct (Rlt_dec x y); split; intros; auto; try discriminate; lra. Qed.
Lemma Rleb_true x y : Rleb x y = true <-> (x <= y)%R.
Proof. unfold Rleb. destruct (Rle_dec x y); split; intros; auto; discriminate. Qed.
Lemma Rleb_false x y : Rleb x y = false <-> (y < x)%R.
Proof. unfold Rleb. destruct (Rle_dec x y); split; intros; auto; try discriminate; lra. Qed.

Lemma int2bit_nth : forall size x k, 0 <= x -> (k < size)%nat -> nth k (int2bit x size) false = Z.testbit x (Z.of_nat k).
Proof.
  induction size as [|n IH]; intros x k X K; [lia|]. cbn [int2bit]. destruct k as [|k].
  - cbn [nth]. rewrite Z.rem_mod_nonneg by lia. change (Z.of_nat 0) with 0. rewrite Z.bit0_odd, Zmod_odd. destruct (Z.odd x); reflexivity.
  - cbn [nth]. rewrite Z.quot_div_nonneg by lia. rewrite IH by (try apply Z.div_pos; lia). rewrite Nat2Z.inj_succ. rewrite Z.div2_bits by lia. reflexivity.
Qed.

(** ** The counters *)
Definition ticked (k : Z) : Z * Z := (k / 5, k mod 5 + 1).
Lemma tick_ticked k : 0 <= k -> tick (ticked k) = ticked (k + 1).
Proof. intros K. unfold tick, ticked. destruct (k mod 5 + 1 >=? 5) eqn:E; f_equal; lia. Qed.
Fixpoint cells (l : list Z) (k : Z) : list (Z * Z) := match l with [] => [] | x :: t => (x, k / 5) :: cells t (k + 1) end.
Lemma loop_ticks {A} (f : Z -> Z -> A -> outcome A) : forall l k a, 0 <= k ->
  ofold (fun s x => a' <- f x (fst (snd s)) (fst s) ;; Ret (a', tick (snd s))) l (a, ticked k) = (a' <- ofold (fun a p => f (fst p) (snd p) a) (cells l k) a ;; Ret (a', ticked (k + zlen l))).
Proof.
  induction l as [|x t IH]; intros k a K; cbn [ofold cells bind].
  - unfold zlen. cbn [length]. rewrite Z.add_0_r. reflexivity.
  - cbn [fst snd ticked]. destruct (f x (k / 5) a) as [a'| |]; cbn [bind]; auto. change (k / 5, k mod 5 + 1) with (ticked k). rewrite tick_ticked by lia. rewrite IH by lia.
    replace (k + 1 + zlen t) with (k + zlen (x :: t)) by (unfold zlen; cbn [length]; lia). reflexivity.
Qed.
Lemma cells_range hi : forall n lo k, Z.to_nat (hi - lo + 1) = n -> cells (zrange lo hi) k = map (fun x => (x, (x - lo + k) / 5)) (zrange lo hi).
Proof.
  induction n as [|n IH]; intros lo k N.
  - rewrite zrange_nil by lia. reflexivity.
  - rewrite zrange_cons by lia. cbn [cells map]. f_equal; [do 2 f_equal; lia|]. rewrite IH by lia. apply map_ext. intros x. do 2 f_equal; lia.
Qed.
Lemma ofold_map {A B S} (f : S -> B -> outcome S) (h : A -> B) : forall l s, ofold f (map h l) s = ofold (fun s a => f s (h a)) l s.
Proof. induction l as [|a t IH]; intros s; cbn [map ofold]; auto. destruct (f s (h a)); cbn [bind]; auto. Qed.
Lemma ofold_ext {A S} (f h : S -> A -> outcome S) l : (forall a s, In a l -> f s a = h s a) -> forall s, ofold f l s = ofold h l s.
Proof. induction l as [|a t IH]; intros E s; cbn [ofold]; auto. rewrite E by (left; auto). destruct (h s a); cbn [bind]; auto. apply IH. intros; apply E; right; auto. Qed.
Lemma ofold_flat {A B S} (f : S -> B -> outcome S) (h : A -> list B) : forall l s, ofold f (flat_map h l) s = ofold (fun s a => ofold f (h a) s) l s.
Proof. induction l as [|a t IH]; intros s; cbn [flat_map ofold]; auto. rewrite ofold_app. destruct (ofold f (h a) s); cbn [bind]; auto. Qed.

Definition pixel_list (g : granule) : list (Z * Z) := flat_map (fun y => map (fun x => (x, y)) (zrange (g_xoff g) (g_nx g - 1))) (zrange (g_yoff g) (g_ny g - 1)).
Definition on_pixel (g : granule) (b : box) (a : acc) (p : Z * Z) : outcome acc := pixel g b (snd p) ((snd p - g_yoff g) / 5) (fst p) ((fst p - g_xoff g) / 5) a.
Lemma row_flat g b y yc a : row g b y yc a = (a' <- ofold (fun a x => pixel g b y yc x ((x - g_xoff g) / 5) a) (zrange (g_xoff g) (g_nx g - 1)) a ;; Ret (a', ticked (zlen (zrange (g_xoff g) (g_nx g - 1))))).
Proof.
  unfold row. change (0, 1) with (ticked 0). rewrite (loop_ticks (fun x xc a => pixel g b y yc x xc a)) by lia.
  rewrite (cells_range _ (Z.to_nat (g_nx g - 1 - g_xoff g + 1))) by lia. rewrite ofold_map. cbn [fst snd].
  f_equal. apply ofold_ext. intros x s _. do 2 f_equal. lia.
Qed.
Lemma image_flat g b a : image g b a = (a' <- ofold (on_pixel g b) (pixel_list g) a ;; Ret (a', ticked (zlen (zrange (g_yoff g) (g_ny g - 1))))).
Proof.
  unfold image. change (0, 1) with (ticked 0).
  transitivity (ofold (fun s y => a' <- (r <- row g b y (fst (snd s)) (fst s) ;; Ret (fst r)) ;; Ret (a', tick (snd s))) (zrange (g_yoff g) (g_ny g - 1)) (a, ticked 0)).
  { apply ofold_ext. intros y s _. destruct (row g b y (fst (snd s)) (fst s)); reflexivity. }
  rewrite (loop_ticks (fun y yc a => r <- row g b y yc a ;; Ret (fst r))) by lia.
  rewrite (cells_range _ (Z.to_nat (g_ny g - 1 - g_yoff g + 1))) by lia. rewrite ofold_map. cbn [fst snd]. unfold pixel_list. rewrite ofold_flat.
  f_equal. apply ofold_ext. intros y s _. rewrite ofold_map. rewrite row_flat. unfold on_pixel. cbn [fst snd]. replace (y - g_yoff g + 0) with (y - g_yoff g) by lia.
  destruct (ofold _ _ s) as [a'| |]; reflexivity.
Qed.
Lemma pixel_list_In g p : In p (pixel_list g) <-> is_pixel g p.
Proof.
  unfold pixel_list, is_pixel. rewrite in_flat_map. destruct p as (x, y). cbn [fst snd]. split.
  - intros (y' & I & J). apply in_map_iff in J as (x' & E & J). injection E as -> ->. apply zrange_In in I, J. lia.
  - intros (X & Y). exists y. split; [apply zrange_In; lia|]. apply in_map_iff. exists x. split; auto. apply zrange_In. lia.
Qed.
Lemma NoDup_app_l {A} (l1 l2 : list A) : NoDup l1 -> NoDup l2 -> (forall x, In x l1 -> ~ In x l2) -> NoDup (l1 ++ l2).
Proof.
  intros N1 N2 D. induction N1 as [|a l N _ IH]; cbn [app]; auto. constructor.
  - rewrite in_app_iff. intros [H|H]; auto. apply (D a); [left|]; auto.
  - apply IH. intros x I. apply D. right; auto.
Qed.
Lemma pixel_list_NoDup g : NoDup (pixel_list g).
Proof.
  unfold pixel_list. pose proof (zrange_NoDup (g_yoff g) (g_ny g - 1)) as N. induction N as [|y l NI N IH]; cbn [flat_map]; [constructor|]. apply NoDup_app_l; auto.
  - apply FinFun.Injective_map_NoDup; [|apply zrange_NoDup]. intros a b E. congruence.
  - intros p I J. apply in_map_iff in I as (x & <- & _). apply in_flat_map in J as (y' & J & K). apply in_map_iff in K as (x' & E & _). congruence.
Qed.

(** ** What one pixel adds *)
Definition framedb (g : granule) (b : box) (p : Z * Z) : bool :=
  match at_block g (g_lon g) p, at_block g (g_lat g) p with
  | Some lon, Some lat => Rleb (b_w b) lon && Rleb lon (b_e b) && (Rleb lat (b_n b) && Rleb (b_s b) lat)
  | _, _ => false
  end.
Lemma framed_b g b p : framedb g b p = true <-> framed g b p.
Proof.
  unfold framedb, framed, in_box. split.
  - destruct (at_block g (g_lon g) p) as [lon|]; [|discriminate]. destruct (at_block g (g_lat g) p) as [lat|]; [|discriminate]. rewrite !andb_true_iff, !Rleb_true. intros. exists lon, lat. intuition.
  - intros (lon & lat & -> & -> & B). rewrite !andb_true_iff, !Rleb_true. intuition.
Qed.
Definition valueb (g : granule) (p : Z * Z) : option R :=
  match at_pixel g (g_pw g) p, at_pixel g (g_cld g) p with
  | Some pw, Some cld => if negb (pw =? g_fill g) && Z.testbit cld 2 && Z.testbit cld 4 then Some (g_scl g * (IZR pw - g_off g))%R else None
  | _, _ => None
  end.
Lemma value_b g p v : valueb g p = Some v <-> value g p v.
Proof.
  unfold valueb, value. split.
  - destruct (at_pixel g (g_pw g) p) as [pw|]; [|discriminate]. destruct (at_pixel g (g_cld g) p) as [cld|]; [|discriminate].
    destruct (negb (pw =? g_fill g) && Z.testbit cld 2 && Z.testbit cld 4) eqn:E; [|discriminate]. rewrite !andb_true_iff in E. intros [= <-]. exists pw, cld. repeat split; try tauto. lia.
  - intros (pw & cld & -> & -> & N & B2 & B4 & ->). rewrite B2, B4. destruct (pw =? g_fill g) eqn:E; [lia|]. reflexivity.
Qed.
Definition add (g : granule) (b : box) (a : acc) (p : Z * Z) : acc :=
  if framedb g b p then match valueb g p with Some v => mkAcc (a_sum a + v)%R (a_used a + 1) (a_all a + 1) | None => mkAcc (a_sum a) (a_used a) (a_all a + 1) end else a.
Lemma pixel_ok g b a p : sized g -> fits g -> is_pixel g p -> on_pixel g b a p = Ret (add g b a p).
Proof.
  intros (NX & NY & NXC & NYC & XO & YO & LP & LC & LA & LO & FC) (F1 & F2) (X & Y). destruct p as (x, y). cbn [fst snd] in X, Y.
  unfold on_pixel, pixel, add, framedb, valueb, at_block, at_pixel. cbn [fst snd].
  set (cx := (x - g_xoff g) / 5). set (cy := (y - g_yoff g) / 5).
  assert (CX : 0 <= cx < g_nxc g) by (unfold cx; lia). assert (CY : 0 <= cy < g_nyc g) by (unfold cy; lia). clearbody cx cy.
  replace ((cx <? g_nxc g) && (cy <? g_nyc g)) with true by (symmetry; apply andb_true_intro; split; lia).
  destruct (get_at_some (g_lon g) (g_nxc g * cy + cx)) as (lon & ->); [nia|]. destruct (get_at_some (g_lat g) (g_nxc g * cy + cx)) as (lat & ->); [nia|].
  assert (P : 0 <= g_nx g * y + x < g_nx g * g_ny g) by nia.
  destruct (get_at_some (g_pw g) (g_nx g * y + x)) as (pw & ->); [lia|]. destruct (get_at_some (g_cld g) (g_nx g * y + x)) as (cld & GC); [lia|]. rewrite GC. cbn [of_option bind].
  assert (C : 0 <= cld). { rewrite Forall_forall in FC. specialize (FC cld (get_at_In _ _ _ GC)). lia. }
  destruct (Rleb (b_w b) lon && Rleb lon (b_e b)); [|reflexivity]. destruct (Rleb lat (b_n b) && Rleb (b_s b) lat); [|reflexivity]. cbn [andb].
  destruct (pw =? g_fill g); [reflexivity|]. rewrite !int2bit_nth by (auto; lia). change (Z.of_nat 2) with 2. change (Z.of_nat 4) with 4. cbn [negb andb].
  destruct (Z.testbit cld 2 && Z.testbit cld 4); reflexivity.
Qed.
Lemma pixels_ok g b : sized g -> fits g -> forall l a, (forall p, In p l -> is_pixel g p) -> ofold (on_pixel g b) l a = Ret (fold_left (add g b) l a).
Proof. intros S F. induction l as [|p l IH]; intros a H; cbn [ofold fold_left]; auto. rewrite pixel_ok by (auto; apply H; left; auto). cbn [bind]. apply IH. intros; apply H; right; auto. Qed.

(** ** Counting *)
Definition opts (ps : list (granule * (Z * Z))) : list R := flat_map (fun q => match valueb (fst q) (snd q) with Some v => [v] | None => [] end) ps.
Lemma opts_values : forall ps, values ps (opts ps).
Proof.
  induction ps as [|(g & p) r IH]; [constructor|]. unfold opts. cbn [flat_map fst snd]. fold (opts r). destruct (valueb g p) as [v|] eqn:E.
  - constructor; auto. apply value_b. exact E.
  - cbn [app]. apply vs_skip; auto. intros (v & V). apply value_b in V. congruence.
Qed.
Definition shows (a : acc) (ps : list (granule * (Z * Z))) : Prop := a_sum a = sum (fun x => x) (opts ps) /\ a_used a = zlen (opts ps) /\ a_all a = zlen ps.
Lemma sum_app l1 l2 : sum (fun x : R => x) (l1 ++ l2) = (sum (fun x => x) l1 + sum (fun x => x) l2)%R.
Proof. induction l1 as [|x t IH]; cbn [app sum]; [lra|]. rewrite IH. lra. Qed.
Lemma zlen_app' {A} (l1 l2 : list A) : zlen (l1 ++ l2) = zlen l1 + zlen l2.
Proof. unfold zlen. rewrite app_length. lia. Qed.
Lemma add_shows g b : forall l a ps, shows a ps -> shows (fold_left (add g b) l a) (ps ++ map (fun p => (g, p)) (filter (framedb g b) l)).
Proof.
  induction l as [|p l IH]; intros a ps H; cbn [fold_left filter map]; [rewrite app_nil_r; auto|]. unfold add at 2. destruct (framedb g b p) eqn:F.
  - cbn [map]. replace (ps ++ (g, p) :: map (fun p0 => (g, p0)) (filter (framedb g b) l)) with ((ps ++ [(g, p)]) ++ map (fun p0 => (g, p0)) (filter (framedb g b) l)) by (rewrite <- app_assoc; reflexivity).
    apply IH. destruct H as (H1 & H2 & H3). unfold shows, opts. rewrite flat_map_app. fold (opts ps). cbn [flat_map fst snd].
    destruct (valueb g p) as [v|]; cbn [a_sum a_used a_all app]; rewrite ?app_nil_r, ?sum_app, ?zlen_app', H1, H2, H3; cbn [sum]; (split; [lra|split; unfold zlen; cbn [length]; lia]).
  - apply IH. exact H.
Qed.
Lemma gather_ok b : forall gs a ps, Forall (fun g => sized g /\ fits g) gs -> shows a ps ->
  exists a' ll, ofold (fun a g => r <- image g b a ;; Ret (fst r)) gs a = Ret a' /\ shows a' (ps ++ concat ll) /\
    Forall2 (fun g l => map fst l = map (fun _ => g) l /\ NoDup l /\ forall p, In (g, p) l <-> is_pixel g p /\ framed g b p) gs ll.
Proof.
  induction gs as [|g gs IH]; intros a ps F H; cbn [ofold].
  - exists a, []. cbn [concat]. rewrite app_nil_r. auto.
  - inversion F as [|? ? (S & T) F']; subst. rewrite image_flat, pixels_ok by (auto; intros; apply pixel_list_In; auto). cbn [bind fst].
    pose proof (add_shows g b (pixel_list g) a ps H) as H'. destruct (IH _ _ F' H') as (a' & ll & E & Sh & L). exists a', (map (fun p => (g, p)) (filter (framedb g b) (pixel_list g)) :: ll).
    split; [exact E|]. split; [cbn [concat]; rewrite app_assoc; exact Sh|]. constructor; auto. split; [rewrite !map_map; reflexivity|]. split.
    + apply FinFun.Injective_map_NoDup; [intros u v Q; congruence|]. apply NoDup_filter, pixel_list_NoDup.
    + intros p. rewrite in_map_iff. split.
      * intros (q & Q & I). injection Q as ->. apply filter_In in I as (I & B). apply pixel_list_In in I. apply framed_b in B. auto.
      * intros (I & B). exists p. split; auto. apply filter_In. split; [apply pixel_list_In; auto|apply framed_b; auto].
Qed.

(** ** Reads behind the array *)
Lemma ofold_UB {A S} (f : S -> A -> outcome S) l : (forall a s, f s a <> Exit) -> (exists a, In a l /\ forall s, f s a = UB) -> forall s, ofold f l s = UB.
Proof.
  intros NE. induction l as [|x t IH]; intros (a & I & U) s; [contradiction|]. cbn [ofold]. destruct I as [->|I].
  - rewrite U. reflexivity.
  - destruct (f s x) as [s'| |] eqn:E; cbn [bind]; auto. { apply IH. eauto. } exfalso. apply (NE x s). exact E.
Qed.
Lemma pixel_no_exit g b y yc x xc a : pixel g b y yc x xc a <> Exit.
Proof.
  unfold pixel. destruct (get_at (g_lon g) _); cbn [of_option bind]; [|discriminate]. destruct (_ && _); [|discriminate]. destruct (get_at (g_lat g) _); cbn [of_option bind]; [|discriminate].
  destruct (_ && _); [|discriminate]. destruct (get_at (g_pw g) _); cbn [of_option bind]; [|discriminate]. destruct (_ =? _); [discriminate|]. destruct (get_at (g_cld g) _); cbn [of_option bind]; [|discriminate].
  destruct (_ && _); discriminate.
Qed.
Lemma image_UB g b a x y : is_pixel g (x, y) -> zlen (g_lon g) <= g_nxc g * ((y - g_yoff g) / 5) + (x - g_xoff g) / 5 -> image g b a = UB.
Proof.
  intros P L. rewrite image_flat. rewrite ofold_UB; [reflexivity| |].
  - intros p s. apply pixel_no_exit.
  - exists (x, y). split; [apply pixel_list_In; auto|]. intros s. unfold on_pixel, pixel. cbn [fst snd]. rewrite (proj2 (get_at_none (g_lon g) _)) by lia. reflexivity.
Qed.
