(** Proofs about the displacement index. *)
From Coq Require Import Reals Lra Lia ZifyBool.
From Flocq Require Import Core.
From Verif Require Import Base BaseFacts Loops LoopsFacts RoundModel RoundFacts StatsModel StatsSpec StatsProofs CldModel CldGrow ReadProofs ImgSpec CdiModel CdiSpec.
#[local] Open Scope Z_scope.

Lemma Reqb_t a b : Reqb a b = true <-> a = b.
Proof. unfold Reqb. destruct (Req_EM_T a b); split; intros; auto; discriminate. Qed.
Lemma Reqb_f a b : Reqb a b = false <-> a <> b.
Proof. unfold Reqb. destruct (Req_EM_T a b); split; intros; auto; try discriminate; contradiction. Qed.
Lemma Rltb_t a b : Rltb a b = true <-> (a < b)%R.
Proof. unfold Rltb. destruct (Rlt_dec a b); split; intros; auto; discriminate. Qed.
Lemma Rltb_f a b : Rltb a b = false <-> (b <= a)%R.
Proof. unfold Rltb. destruct (Rlt_dec a b); split; intros; auto; try discriminate; lra. Qed.
Lemma Rleb_t a b : Rleb a b = true <-> (a <= b)%R.
Proof. unfold Rleb. destruct (Rle_dec a b); split; intros; auto; discriminate. Qed.

(** ** Windows *)
Lemma offsets_In r d : In d (offsets r) <-> Z.abs (fst d) <= r /\ Z.abs (snd d) <= r.
Proof.
  unfold offsets. rewrite in_flat_map. destruct d as (a, b). cbn [fst snd]. split.
  - intros (x & I & J). apply in_map_iff in J as (y & E & J). injection E as -> ->. rewrite zrange_In in *. lia.
  - intros (A & B). exists a. rewrite zrange_In. split; [lia|]. apply in_map_iff. exists b. rewrite zrange_In. split; auto. lia.
Qed.
Lemma offsets_nodup r : NoDup (offsets r).
Proof. apply product_nodup; apply zrange_NoDup. Qed.
Definition shift (c d : Z * Z) : Z * Z := (fst c + fst d, snd c + snd d).
Lemma shift_inj c d e : shift c d = shift c e -> d = e.
Proof. unfold shift. destruct c, d, e. cbn [fst snd]. intros E. injection E as E1 E2. f_equal; lia. Qed.
Definition inb (nx ny : Z) (c : Z * Z) : bool := negb (outside nx ny (fst c) (snd c)).
Lemma inb_iff nx ny c : inb nx ny c = true <-> in_image nx ny c.
Proof. unfold inb, outside, in_image. lia. Qed.
Lemma close_iff r nx ny c e : close r nx ny c e <-> exists d, In d (offsets r) /\ e = shift c d /\ inb nx ny e = true.
Proof.
  unfold close. split.
  - intros (I & A & B). apply inb_iff in I. exists (fst e - fst c, snd e - snd c). rewrite offsets_In. cbn [fst snd]. split; [lia|]. split; auto. unfold shift. destruct e, c. cbn [fst snd]. f_equal; lia.
  - intros (d & I & -> & J). rewrite offsets_In in I. split; [apply inb_iff; exact J|]. unfold shift. cbn [fst snd]. lia.
Qed.
Lemma in_range nx ny c : in_image nx ny c -> 0 <= fst c * nx + snd c < nx * ny.
Proof. intros (A & B). split; nia. Qed.
Definition val {A} (l : list A) (nx : Z) (z : A) (c : Z * Z) : A := nth (Z.to_nat (fst c * nx + snd c)) l z.
Lemma at_val {A} (l : list A) nx ny z c : zlen l = nx * ny -> in_image nx ny c -> get_at l (fst c * nx + snd c) = Some (val l nx z c).
Proof. intros L I. apply (in_range nx ny) in I. rewrite <- L in I. destruct (get_at_some l _ I) as (v & E). rewrite E. f_equal. unfold val. unfold get_at in E. destruct (_ <? 0); [discriminate|]. symmetry. apply nth_error_nth. exact E. Qed.

Lemma NoDup_map_shift c l : NoDup l -> NoDup (map (shift c) l).
Proof. apply FinFun.Injective_map_NoDup. intros d e. apply shift_inj. Qed.

Section Image.
Context (r0 r1 : list R) (nx ny : Z) (L0 : zlen r0 = nx * ny) (L1 : zlen r1 = nx * ny).
Definition taking (c d : Z * Z) : bool := inb nx ny (shift c d) && negb (Reqb (val r0 nx 0%R (shift c d)) 0).
Definition members (r : Z) (c : Z * Z) : list (Z * Z) := map (shift c) (filter (taking c) (offsets r)).
Definition pair_of (c : Z * Z) : R * R := (val r0 nx 0%R c, val r1 nx 0%R c).

Lemma members_part r c e : In e (members r c) <-> part r0 r nx ny c e.
Proof.
  unfold members, part, at_cell. rewrite in_map_iff. rewrite close_iff. split.
  - intros (d & <- & I). apply filter_In in I as (I & T). unfold taking in T. apply andb_prop in T as (A & B). split; [eauto|]. exists (val r0 nx 0%R (shift c d)). split; [apply (at_val r0 nx ny); auto; apply inb_iff; exact A|]. apply negb_true_iff, Reqb_f in B. exact B.
  - intros ((d & I & -> & A) & x & G & N). exists d. split; auto. apply filter_In. split; auto. unfold taking. rewrite A. cbn [andb]. apply negb_true_iff, Reqb_f. rewrite (at_val r0 nx ny 0%R) in G; auto; [|apply inb_iff; exact A]. injection G as ->. exact N.
Qed.
Lemma members_nodup r c : NoDup (members r c).
Proof. apply NoDup_map_shift. apply NoDup_filter. apply offsets_nodup. Qed.
Lemma members_in r c e : In e (members r c) -> in_image nx ny e.
Proof. intros I. apply members_part in I. apply I. Qed.
Lemma members_pairs r c : pairs_around r0 r1 r nx ny c (map pair_of (members r c)).
Proof.
  exists (members r c). split; [apply members_nodup|]. split; [apply members_part|].
  assert (H : forall l, (forall e, In e l -> in_image nx ny e) -> Forall2 (fun d p => at_cell r0 nx d (fst p) /\ at_cell r1 nx d (snd p)) l (map pair_of l)).
  { induction l as [|e l IH]; intros K; cbn [map]; constructor; [|apply IH; intros; apply K; now right]. unfold at_cell, pair_of. cbn [fst snd]. split; apply (at_val _ nx ny); auto; apply K; now left. }
  apply H. intros e. apply members_in.
Qed.

(** ** The sums *)
Definition state_of (l : list (R * R)) : Z * covar := (zlen l, run_covar l).
Lemma run_covar_snoc l p : run_covar (l ++ [p]) = covar_recurrence (fst p) (snd p) (run_covar l) (IZR (zlen l + 1)).
Proof. unfold run_covar. rewrite feed_snoc. f_equal. cbn [Nat.add]. unfold zlen. rewrite plus_IZR, <- INR_IZR_INZ. reflexivity. Qed.
Lemma feed_step c d (pre : list (Z * Z)) : feed_cell r0 r1 nx ny (fst c) (snd c) (state_of (map pair_of (map (shift c) (filter (taking c) pre)))) d = Ret (state_of (map pair_of (map (shift c) (filter (taking c) (pre ++ [d]))))).
Proof.
  rewrite filter_app, !map_app. cbn [filter]. unfold feed_cell. change (fst c + fst d) with (fst (shift c d)). change (snd c + snd d) with (snd (shift c d)). change (taking c d) with (negb (outside nx ny (fst (shift c d)) (snd (shift c d))) && negb (Reqb (val r0 nx 0%R (shift c d)) 0)). cbv zeta. destruct (outside nx ny (fst (shift c d)) (snd (shift c d))) eqn:O; cbn [negb andb map]. { rewrite app_nil_r. reflexivity. }
  assert (I : in_image nx ny (shift c d)) by (apply inb_iff; unfold inb; rewrite O; reflexivity). rewrite (at_val r0 nx ny 0%R _ L0 I), (at_val r1 nx ny 0%R _ L1 I). cbn [of_option bind]. destruct (Reqb (val r0 nx 0%R (shift c d)) 0) eqn:E; cbn [negb map]. { rewrite app_nil_r. reflexivity. }
  set (l := map pair_of (map (shift c) (filter (taking c) pre))). unfold state_of. cbn [fst snd]. f_equal. f_equal. { unfold zlen. rewrite app_length. cbn [length]. lia. }
  rewrite run_covar_snoc. unfold pair_of. cbn [fst snd]. destruct l as [|q t] eqn:El.
  - cbn. unfold covar_recurrence. cbn. unfold run_covar. cbn. f_equal; field.
  - replace (zlen (q :: t) + 1 =? 1) with false by (unfold zlen; cbn [length]; lia). reflexivity.
Qed.
Lemma feed_all c l : forall pre, ofold (feed_cell r0 r1 nx ny (fst c) (snd c)) l (state_of (map pair_of (map (shift c) (filter (taking c) pre)))) = Ret (state_of (map pair_of (map (shift c) (filter (taking c) (pre ++ l))))).
Proof.
  induction l as [|d l IH]; intros pre; cbn [ofold]. { rewrite app_nil_r. reflexivity. } rewrite feed_step. cbn [bind]. rewrite IH. rewrite <- app_assoc. reflexivity.
Qed.
Lemma dev2_nonneg (l : list R) : (0 <= dev 2 l)%R.
Proof. unfold dev. generalize (mean l). intros m. induction l as [|x l IH]; cbn [sum]; [lra|]. pose proof (pow2_ge_0 (x - m)). lra. Qed.
Lemma variances (l : list (R * R)) : 3 <= zlen l ->
  variance (c_vx (run_covar l)) (IZR (zlen l)) = (dev 2 (map fst l) / (IZR (zlen l) - 1))%R /\ variance (c_vy (run_covar l)) (IZR (zlen l)) = (dev 2 (map snd l) / (IZR (zlen l) - 1))%R.
Proof. intros H. assert (N : l <> []) by (intros ->; cbn in H; lia). destruct (run_covar_spec l N) as (_ & _ & -> & -> & _). split; reflexivity. Qed.
Lemma cdi_at_is c : in_image nx ny c -> exists v, cdi_at r0 r1 nx ny (fst c) (snd c) = Ret v /\ index_is r0 r1 nx ny c v.
Proof.
  intros I. unfold cdi_at. pose proof (at_val r0 nx ny 0%R c L0 I) as G. rewrite G. cbn [of_option bind]. destruct (Reqb (val r0 nx 0%R c) 0) eqn:E.
  { apply Reqb_t in E. exists Nodata. split; auto. left. unfold at_cell. rewrite G, E. auto. }
  apply Reqb_f in E. pose proof (feed_all c (offsets 3) []) as F. cbn [filter map app] in F. change (state_of []) with (0, mkCovar 0 0 0 0 0) in F. rewrite F. cbn [bind]. clear F. change (map (shift c) (filter (taking c) (offsets 3))) with (members 3 c). pose proof (members_pairs 3 c) as P. set (l := map pair_of (members 3 c)) in *. unfold state_of. cbn [fst snd].
  destruct (Z.gtb_spec (zlen l) 2) as [K|K].
  - destruct (variances l ltac:(lia)) as (-> & ->). set (n := (IZR (zlen l) - 1)%R). assert (N : (2 <= n)%R) by (unfold n; assert (3 <= IZR (zlen l))%R by (apply IZR_le; lia); lra). pose proof (dev2_nonneg (map fst l)) as X. pose proof (dev2_nonneg (map snd l)) as Y.
    assert (S : (dev 2 (map fst l) / n + dev 2 (map snd l) / n)%R = ((dev 2 (map fst l) + dev 2 (map snd l)) / n)%R) by (field; lra).
    destruct (Reqb (dev 2 (map fst l) / n + dev 2 (map snd l) / n) 0) eqn:Z.
    + apply Reqb_t in Z. exists Nan. split; auto. right. exists (val r0 nx 0%R c), l. split; auto. split; auto. split; auto. right. left. split; [lia|]. split; auto. rewrite S in Z. apply Rmult_integral in Z as [Z|Z]; auto. exfalso. apply (Rinv_neq_0_compat n); auto; lra.
    + apply Reqb_f in Z. eexists. split; [reflexivity|]. right. exists (val r0 nx 0%R c), l. split; auto. split; auto. split; auto. right. right. split; [lia|]. assert (D : (dev 2 (map fst l) + dev 2 (map snd l) <> 0)%R). { intros D. apply Z. rewrite S, D. unfold Rdiv. apply Rmult_0_l. } split; auto.
      f_equal. f_equal. unfold contrast. cbv zeta. field. lra.
  - exists Nodata. split; auto. right. exists (val r0 nx 0%R c), l. split; [exact G|]. split; [exact E|]. split; [exact P|]. left. split; [lia|reflexivity].
Qed.
End Image.

(** ** The smallest probability *)
Section Least.
Context (r0 var2 : list R) (nx ny : Z) (L0 : zlen r0 = nx * ny) (L2 : zlen var2 = nx * ny) (SM : forall v, In v var2 -> (v < 2147483647)%R).
Definition low (l : list (Z * Z)) (m : option R) : Prop :=
  match m with None => l = [] | Some v => (exists d, In d l /\ val var2 nx 0%R d = v) /\ forall d, In d l -> (v <= val var2 nx 0%R d)%R end.
Lemma least_step c d (pre : list (Z * Z)) m : low (map (shift c) (filter (taking r0 nx ny c) pre)) m -> exists m', least r0 var2 nx ny (fst c) (snd c) m d = Ret m' /\ low (map (shift c) (filter (taking r0 nx ny c) (pre ++ [d]))) m'.
Proof.
  intros H. rewrite filter_app, !map_app. cbn [filter]. unfold least. change (fst c + fst d) with (fst (shift c d)). change (snd c + snd d) with (snd (shift c d)). change (taking r0 nx ny c d) with (negb (outside nx ny (fst (shift c d)) (snd (shift c d))) && negb (Reqb (val r0 nx 0%R (shift c d)) 0)). cbv zeta. destruct (outside nx ny (fst (shift c d)) (snd (shift c d))) eqn:O; cbn [negb andb map]. { rewrite app_nil_r. eauto. }
  assert (I : in_image nx ny (shift c d)) by (apply inb_iff; unfold inb; rewrite O; reflexivity). rewrite (at_val r0 nx ny 0%R _ L0 I). pose proof (at_val var2 nx ny 0%R _ L2 I) as GV. rewrite GV. cbn [of_option bind]. destruct (Reqb (val r0 nx 0%R (shift c d)) 0) eqn:E; cbn [negb map]. { rewrite app_nil_r. eauto. }
  set (v := val var2 nx 0%R (shift c d)) in *. set (l := map (shift c) (filter (taking r0 nx ny c) pre)) in *. clearbody l. eexists. split; [reflexivity|]. assert (SV : (v < 2147483647)%R) by (apply SM; eapply get_at_In; exact GV). destruct m as [w|]; cbn [low] in *.
  - destruct H as ((e & Ie & Ev) & H). destruct (Rltb v w) eqn:Q.
    + apply Rltb_t in Q. split; [exists (shift c d); split; [apply in_app_iff; right; left; reflexivity|reflexivity]|]. intros x J. apply in_app_iff in J as [J|[<-|[]]]; [specialize (H x J); lra|fold v; lra].
    + apply Rltb_f in Q. split; [exists e; split; [apply in_app_iff; auto|exact Ev]|]. intros x J. apply in_app_iff in J as [J|[<-|[]]]; [auto|exact Q].
  - rewrite (proj2 (Rltb_t v _) SV). subst l. cbn [app]. split; [exists (shift c d); split; [left; reflexivity|reflexivity]|]. intros x [<-|[]]. fold v. lra.
Qed.
Lemma least_all c l : forall pre m, low (map (shift c) (filter (taking r0 nx ny c) pre)) m -> exists m', ofold (least r0 var2 nx ny (fst c) (snd c)) l m = Ret m' /\ low (map (shift c) (filter (taking r0 nx ny c) (pre ++ l))) m'.
Proof.
  induction l as [|d l IH]; intros pre m H; cbn [ofold]. { rewrite app_nil_r. eauto. } destruct (least_step c d pre m H) as (m' & -> & H'). cbn [bind]. destruct (IH (pre ++ [d]) m' H') as (m2 & E & H2). exists m2. split; auto. rewrite <- app_assoc in H2. exact H2.
Qed.
Lemma var3_at_is c : in_image nx ny c -> exists v, var3_at r0 var2 nx ny (fst c) (snd c) = Ret v /\ least_is r0 var2 nx ny c v.
Proof.
  intros I. unfold var3_at. pose proof (at_val r0 nx ny 0%R c L0 I) as G. rewrite G. cbn [of_option bind]. destruct (Reqb (val r0 nx 0%R c) 0) eqn:E.
  { apply Reqb_t in E. exists 0%R. split; auto. left. unfold at_cell. rewrite G, E. auto. }
  apply Reqb_f in E. destruct (least_all c (offsets 7) [] None eq_refl) as (m & -> & H). cbn [bind app] in *. change (map (shift c) (filter (taking r0 nx ny c) (offsets 7))) with (members r0 nx ny 7 c) in H. eexists. split; [reflexivity|]. right. split; [exists (val r0 nx 0%R c); auto|].
  assert (P : part r0 7 nx ny c c). { split; [split; auto; lia|]. exists (val r0 nx 0%R c). auto. } destruct m as [v|]; cbn [low] in H.
  - destruct H as ((d & J & <-) & H). split.
    + exists d. split; [apply members_part in J; auto|]. unfold at_cell. apply (at_val var2 nx ny); auto. apply (members_part r0 nx ny L0) in J. apply J.
    + clear J. intros e w J K. apply (members_part r0 nx ny L0) in J. specialize (H e J). unfold at_cell in K. rewrite (at_val var2 nx ny 0%R) in K; auto; [injection K as <-; exact H|]. apply (members_part r0 nx ny L0) in J. apply J.
  - apply (members_part r0 nx ny L0) in P. rewrite H in P. contradiction.
Qed.
End Least.

(** ** First clouds *)
Section Seeds.
Context (cdi : list idx) (var3 : list R) (nx ny : Z) (LC : zlen cdi = nx * ny) (LV : zlen var3 = nx * ny).
Definition fine (c : Z * Z) : bool := negb (spoils (val cdi nx Nodata c) (val var3 nx 0%R c)).
Lemma check_all c : forall l b, ofold (check_cell cdi var3 nx ny (fst c) (snd c)) l b = Ret (b && forallb (fun d => outside nx ny (fst (shift c d)) (snd (shift c d)) || fine (shift c d)) l).
Proof.
  induction l as [|d l IH]; intros b; cbn [ofold forallb]. { rewrite andb_true_r. reflexivity. } unfold check_cell at 1. cbv zeta. change (fst c + fst d) with (fst (shift c d)). change (snd c + snd d) with (snd (shift c d)). destruct (outside nx ny (fst (shift c d)) (snd (shift c d))) eqn:O; cbn [orb bind]. { rewrite IH. reflexivity. }
  assert (I : in_image nx ny (shift c d)) by (apply inb_iff; unfold inb; rewrite O; reflexivity). rewrite (at_val cdi nx ny Nodata _ LC I), (at_val var3 nx ny 0%R _ LV I). cbn [of_option bind]. rewrite IH. unfold fine. destruct (spoils _ _), b; reflexivity.
Qed.
Lemma seed_at_is c : in_image nx ny c -> exists b, seed_at cdi var3 nx ny (fst c) (snd c) = Ret b /\
  (b = true <-> first_cloud nx ny (at_cell cdi nx) (at_cell var3 nx) c).
Proof.
  intros I. unfold seed_at. pose proof (at_val cdi nx ny Nodata c LC I) as GC. pose proof (at_val var3 nx ny 0%R c LV I) as GV. rewrite GC, GV. cbn [of_option bind].
  assert (S : starts (val cdi nx Nodata c) (val var3 nx 0%R c) = true <-> exists x v, at_cell cdi nx c (Val x) /\ at_cell var3 nx c v /\ (x <= - (1 / 2) \/ x < 0 /\ rnd64 (8 / 10) < v)%R).
  { unfold at_cell. rewrite GC, GV. split.
    - unfold starts. destruct (val cdi nx Nodata c) as [| |x]; try discriminate. intros H. exists x, (val var3 nx 0%R c). split; auto. split; auto. apply orb_prop in H as [H|H]; [left; apply Rleb_t; exact H|]. apply andb_prop in H as (H1 & H2). apply Rltb_t in H1, H2. right. split; auto.
    - intros (x & v & E & F & H). injection E as ->. injection F as ->. unfold starts. apply orb_true_iff. destruct H as [H|(H1 & H2)]; [left; apply Rleb_t; exact H|right]. apply andb_true_iff. split; apply Rltb_t; auto. }
  assert (T : forallb (fun d => outside nx ny (fst (shift c d)) (snd (shift c d)) || fine (shift c d)) (offsets 1) = true <-> forall d, close 1 nx ny c d -> ~ at_cell cdi nx d Nodata /\ forall x v, at_cell cdi nx d (Val x) -> at_cell var3 nx d v -> (x <= - (1 / 2) \/ rnd64 (8 / 10) <= v)%R).
  { rewrite forallb_forall. assert (FI : forall d, in_image nx ny d -> fine d = true <-> ~ at_cell cdi nx d Nodata /\ forall x v, at_cell cdi nx d (Val x) -> at_cell var3 nx d v -> (x <= - (1 / 2) \/ rnd64 (8 / 10) <= v)%R).
    { intros d J. unfold at_cell, fine. rewrite (at_val cdi nx ny Nodata d LC J), (at_val var3 nx ny 0%R d LV J). unfold spoils. destruct (val cdi nx Nodata d) as [| |x]; cbn [negb].
      - split; [discriminate|]. intros (N & _). exfalso. apply N. reflexivity.
      - split; auto. intros _. split; [discriminate|]. intros; discriminate.
      - rewrite negb_true_iff, andb_false_iff, !Rltb_f. unfold eight_tenths. split.
        + intros H. split; [discriminate|]. intros y v E F. injection E as <-. injection F as <-. exact H.
        + intros (_ & H). apply (H x _ eq_refl eq_refl). }
    split.
    - intros H d C. apply close_iff in C as (o & Io & -> & B). specialize (H o Io). unfold inb in B. apply negb_true_iff in B. rewrite B in H. cbn [orb] in H. apply FI; auto. apply inb_iff. unfold inb. rewrite B. reflexivity.
    - intros H o Io. destruct (outside nx ny (fst (shift c o)) (snd (shift c o))) eqn:O; auto. cbn [orb]. assert (J : inb nx ny (shift c o) = true) by (unfold inb; rewrite O; reflexivity). apply FI; [apply inb_iff; exact J|]. apply H. apply close_iff. eauto. }
  unfold first_cloud. destruct (starts _ _).
  - rewrite check_all. eexists. split; [reflexivity|]. cbn [andb]. split.
    + intros H. split; [apply S; reflexivity|apply T; exact H].
    + intros (_ & H). apply T. exact H.
  - exists false. split; auto. split; [discriminate|]. intros (X & _). apply S in X. discriminate.
Qed.
End Seeds.

(** ** Arrays *)
Lemma get_cells nx ny c : in_image nx ny c -> get_at (cells nx ny) (fst c * nx + snd c) = Some c.
Proof.
  intros (A & B). unfold cells. rewrite (ImpSeason.get_flat (fun i => map (fun j => (i, j)) (zupto nx)) nx (zupto ny) (fst c) (fst c) (snd c)); auto.
  - unfold get_at. replace (snd c <? 0) with false by lia. rewrite nth_error_map. unfold zupto. rewrite nth_error_map, (nth_error_nth' _ 0%nat) by (rewrite seq_length; lia). rewrite seq_nth by lia. cbn. rewrite Z2Nat.id by lia. destruct c; reflexivity.
  - intros x. unfold zlen. rewrite map_length, zupto_length. lia.
  - unfold get_at. replace (fst c <? 0) with false by lia. unfold zupto. rewrite nth_error_map, (nth_error_nth' _ 0%nat) by (rewrite seq_length; lia). rewrite seq_nth by lia. cbn. rewrite Z2Nat.id by lia. reflexivity.
Qed.
Lemma cells_length nx ny : 0 <= nx -> 0 <= ny -> zlen (cells nx ny) = nx * ny.
Proof.
  intros X Y. unfold cells, zlen. assert (H : forall l : list Z, Z.of_nat (length (flat_map (fun i => map (fun j => (i, j)) (zupto nx)) l)) = nx * Z.of_nat (length l)).
  { induction l as [|a l IH]; cbn [flat_map length]; [lia|]. rewrite app_length, map_length, zupto_length. lia. } rewrite H, zupto_length. lia.
Qed.
Lemma cells_in nx ny c : In c (cells nx ny) -> in_image nx ny c.
Proof. destruct c as (i, j). rewrite cells_In. auto. Qed.
Lemma Forall2_get {A B} (P : A -> B -> Prop) l m : Forall2 P l m -> forall k a, get_at l k = Some a -> exists b, get_at m k = Some b /\ P a b.
Proof.
  unfold get_at. intros F k a. destruct (k <? 0); [discriminate|]. revert F. generalize (Z.to_nat k). intros n F. revert n. induction F as [|x y l m H F IH]; intros n E; destruct n; cbn in *; try discriminate; auto. injection E as <-. eauto.
Qed.
Lemma omap_cells {B} nx ny (f : Z * Z -> outcome B) (P : Z * Z -> B -> Prop) : 0 <= nx -> 0 <= ny -> (forall c, in_image nx ny c -> exists b, f c = Ret b /\ P c b) ->
  exists r, omap f (cells nx ny) = Ret r /\ zlen r = nx * ny /\ forall c, in_image nx ny c -> exists b, at_cell r nx c b /\ P c b.
Proof.
  intros X Y H. destruct (omap_spec f P (cells nx ny)) as (r & E & F). { intros c I. apply H. apply cells_in. exact I. } exists r. split; auto. split.
  - rewrite <- (cells_length nx ny X Y). unfold zlen. clear - F. induction F; cbn [length]; lia.
  - intros c I. apply (Forall2_get _ _ _ F). apply get_cells. exact I.
Qed.
Lemma contrast_bounds l : (dev 2 (map fst l) + dev 2 (map snd l) <> 0)%R -> (-1 <= contrast l <= 1)%R.
Proof.
  intros N. unfold contrast. cbv zeta. pose proof (dev2_nonneg (map fst l)) as X. pose proof (dev2_nonneg (map snd l)) as Y. set (x := dev 2 (map fst l)) in *. set (y := dev 2 (map snd l)) in *. clearbody x y. assert (P : (0 < x + y)%R) by lra.
  split; apply Rmult_le_reg_r with (x + y)%R; auto; unfold Rdiv; rewrite Rmult_assoc, Rinv_l by lra; lra.
Qed.
