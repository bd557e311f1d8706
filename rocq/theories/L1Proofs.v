(** Proofs about the masks of Level 1 images. *)
From Coq Require Import Reals Lra Lia Sorted.
From Flocq Require Import Core.
From Verif Require Import Base BaseFacts Loops LoopsFacts RoundModel QaiModel QaiSpec QaiProofs StatsModel StatsSpec StatsProofs
  ImgSpec ImgFacts BufferModel BufferProofs BufferProps ChunkProofs ParamProofs BapCor BapComposite CldProofs L1Model L1Spec.
#[local] Open Scope Z_scope.

(** ** One pixel *)
Lemma cons_cases {A} (d : A) r k x : get_at (d :: r) k = Some x -> (k = 0 /\ x = d) \/ (0 < k /\ get_at r (k - 1) = Some x).
Proof.
  intros H. pose proof (get_at_inv _ _ _ H) as R. destruct (Z.eq_dec k 0) as [-> | N].
  - left. rewrite get_cons_0 in H. inversion H. auto.
  - right. split; [lia|]. rewrite get_cons_S in H by lia. exact H.
Qed.
Lemma cons_get {A} (d : A) r k x : 0 <= k -> get_at r k = Some x -> get_at (d :: r) (k + 1) = Some x.
Proof. intros K H. rewrite get_cons_S by lia. replace (k + 1 - 1) with k by lia. exact H. Qed.
Lemma get_nn {A} (r : list A) k x : get_at r k = Some x -> 0 <= k.
Proof. intros H. apply get_at_inv in H. lia. Qed.

Section Scan.
Context (btemp bcir sat : Z).
Let V (c : list Z) (b : Z) : Prop := exists k, get_at c k = Some 0 /\ b + k <> bcir.
Let S (c : list Z) (b : Z) : Prop := exists k d, get_at c k = Some d /\ b + k <> btemp /\ sat <= d.
Let F (c : list Z) (b : Z) : Prop := exists k, get_at c k = Some 0 /\ b + k <> bcir /\
  forall m e, 0 <= m < k -> get_at c m = Some e -> b + m = btemp \/ e < sat.

Lemma scan_off c : forall b, fst (fst (scan btemp bcir sat c b)) = true <-> F c b.
Proof.
  induction c as [|d r IH]; intros b; cbn [scan].
  - split; [discriminate|]. intros (k & G & _). apply get_at_inv in G. unfold zlen in G. cbn in G. lia.
  - destruct (negb (b =? bcir) && (d =? 0)) eqn:C1.
    + cbn. split; [intros _|auto]. exists 0. rewrite get_cons_0. split; [f_equal; lia|]. split; [lia|]. lia.
    + destruct (negb (b =? btemp) && (sat <=? d)) eqn:C2.
      * cbn. split; [discriminate|]. intros (k & G & N & B). destruct (cons_cases _ _ _ _ G) as [(-> & E) | (K & G')]; [lia|].
        destruct (B 0 d) as [Q | Q]; try lia. apply get_cons_0.
      * cbn [fst snd]. rewrite IH. split.
        -- intros (k & G & N & B). pose proof (get_nn _ _ _ G). exists (k + 1). split; [apply cons_get; auto|]. split; [lia|].
           intros m e M GM. destruct (cons_cases _ _ _ _ GM) as [(-> & ->) | (K & GM')]; [lia|].
           destruct (B (m - 1) e) as [Q | Q]; try lia; auto.
        -- intros (k & G & N & B). destruct (cons_cases _ _ _ _ G) as [(-> & E) | (K & G')]; [lia|].
           exists (k - 1). split; [auto|]. split; [lia|]. intros m e M GM.
           destruct (B (m + 1) e) as [Q | Q]; try lia. apply cons_get; auto; lia.
Qed.
Lemma F_V c b : F c b -> V c b.
Proof. intros (k & G & N & _). exists k. auto. Qed.
Lemma V_F c b : V c b -> ~ S c b -> F c b.
Proof.
  intros (k & G & N) NS. exists k. split; auto. split; auto. intros m e M GM.
  destruct (Z.eq_dec (b + m) btemp); [left; auto|]. right. destruct (Z_lt_dec e sat); auto.
  exfalso. apply NS. exists m, e. split; auto. split; auto. lia.
Qed.
Lemma scan_sat c : forall b, fst (fst (scan btemp bcir sat c b)) = false -> (snd (fst (scan btemp bcir sat c b)) = true <-> S c b).
Proof.
  induction c as [|d r IH]; intros b; cbn [scan].
  - intros _. split; [discriminate|]. intros (k & e & G & _). apply get_at_inv in G. unfold zlen in G. cbn in G. lia.
  - destruct (negb (b =? bcir) && (d =? 0)) eqn:C1; [discriminate|].
    destruct (negb (b =? btemp) && (sat <=? d)) eqn:C2.
    + intros _. cbn. split; [intros _|auto]. exists 0, d. rewrite get_cons_0. split; [auto|]. split; lia.
    + cbn [fst snd]. intros O. rewrite (IH _ O). split.
      * intros (k & e & G & N & L). pose proof (get_nn _ _ _ G). exists (k + 1), e. split; [apply cons_get; auto|]. split; [lia|auto].
      * intros (k & e & G & N & L). destruct (cons_cases _ _ _ _ G) as [(-> & ->) | (K & G')]; [lia|].
        exists (k - 1), e. split; auto. split; [lia|auto].
Qed.
(** The temperature is counted only where it is not zero, and where nothing is void or saturated. *)
Lemma scan_temp c : forall b, snd (scan btemp bcir sat c b) = true -> exists d, get_at c (btemp - b) = Some d /\ (d = 0 -> btemp = bcir).
Proof.
  induction c as [|d r IH]; intros b; cbn [scan]; [discriminate|].
  destruct (negb (b =? bcir) && (d =? 0)) eqn:C1; [discriminate|].
  destruct (negb (b =? btemp) && (sat <=? d)) eqn:C2; [discriminate|]. cbn [snd].
  destruct (b =? btemp) eqn:E.
  - intros _. exists d. replace (btemp - b) with 0 by lia. rewrite get_cons_0. split; auto. lia.
  - cbn [orb]. intros H. destruct (IH _ H) as (e & G & Q). exists e. split; auto. pose proof (get_nn _ _ _ G).
    replace (btemp - b) with (btemp - (b + 1) + 1) by lia. apply cons_get; auto.
Qed.
Lemma scan_counts c : forall b, ~ V c b -> ~ S c b -> 0 <= btemp - b < zlen c -> snd (scan btemp bcir sat c b) = true.
Proof.
  induction c as [|d r IH]; intros b NV NS B; cbn [scan]; [unfold zlen in B; cbn in B; lia|].
  destruct (negb (b =? bcir) && (d =? 0)) eqn:C1.
  { exfalso. apply NV. exists 0. rewrite get_cons_0. split; [f_equal; lia|lia]. }
  destruct (negb (b =? btemp) && (sat <=? d)) eqn:C2.
  { exfalso. apply NS. exists 0, d. rewrite get_cons_0. split; auto. lia. }
  cbn [snd]. destruct (b =? btemp) eqn:E; auto. cbn [orb]. apply IH.
  - intros (k & G & N). apply NV. exists (k + 1). split; [apply cons_get; eauto using get_nn|lia].
  - intros (k & e & G & N & L). apply NS. exists (k + 1), e. split; [apply cons_get; eauto using get_nn|]. split; [lia|auto].
  - unfold zlen in *. cbn [length] in B. lia.
Qed.
End Scan.

Lemma column_ok bands nx ny p : level1 bands nx ny -> 0 <= p < nx * ny -> exists c, column bands p = Ret c /\ zlen c = zlen bands /\
  forall b v, get_at c b = Some v <-> dn_at bands b p v.
Proof.
  intros (_ & _ & _ & L) P. unfold column.
  assert (exists c, omap (fun d => of_option (get_at d p)) bands = Ret c /\ Forall2 (fun d v => get_at d p = Some v) bands c) as (c & E & F).
  { assert (forall d, In d bands -> zlen d = nx * ny) as L' by (intros d I; apply L; auto). clear L.
    induction bands as [|d r IH]; cbn [omap]; [exists []; auto|].
    destruct (get_at_some d p) as (v & G); [rewrite L' by (left; auto); lia|]. rewrite G. cbn [of_option bind].
    destruct IH as (c & -> & F); [intros; apply L'; right; auto|]. cbn [bind]. exists (v :: c). auto. }
  exists c. split; auto.
  assert (forall b v, get_at c b = Some v <-> dn_at bands b p v) as G.
  { clear E L P. induction F as [|d v bs c H F IH]; intros b x; split.
    - intros K. apply get_at_inv in K. unfold zlen in K. cbn in K. lia.
    - intros (d & K & _). apply get_at_inv in K. unfold zlen in K. cbn in K. lia.
    - intros K. destruct (cons_cases _ _ _ _ K) as [(-> & ->) | (B & K')].
      + exists d. split; [apply get_cons_0|auto].
      + apply IH in K'. destruct K' as (e & K1 & K2). exists e. split; auto. pose proof (get_nn _ _ _ K1).
        replace b with (b - 1 + 1) by lia. apply cons_get; auto.
    - intros (e & K & Q). destruct (cons_cases _ _ _ _ K) as [(-> & ->) | (B & K')].
      + rewrite get_cons_0. congruence.
      + assert (get_at c (b - 1) = Some x) as K2 by (apply IH; exists e; auto). pose proof (get_nn _ _ _ K2).
        replace b with (b - 1 + 1) by lia. apply cons_get; auto. }
  split; auto. unfold zlen. f_equal. clear -F. induction F; cbn; congruence.
Qed.

Definition marks (l : l1par) (bands : list (list Z)) (nx ny : Z) (s : list (bool * bool * bool)) : Prop :=
  zlen s = nx * ny /\ forall p, 0 <= p < nx * ny -> exists c x, column bands p = Ret c /\ get_at s p = Some x /\
    x = scan (b_temp l) (b_cirrus l) (m_sat l) c 0.
Lemma scan_image_ok l bands nx ny : level1 bands nx ny ->
  exists s, scan_image bands (b_temp l) (b_cirrus l) (m_sat l) (nx * ny) = Ret s /\ marks l bands nx ny s.
Proof.
  intros L. assert (0 <= nx * ny) as NN by (destruct L as (? & ? & _); lia). unfold scan_image.
  destruct (omap_get (fun p => c <- column bands p ;; Ret (scan (b_temp l) (b_cirrus l) (m_sat l) c 0))
    (fun p x => exists c, column bands p = Ret c /\ x = scan (b_temp l) (b_cirrus l) (m_sat l) c 0) (zupto (nx * ny))) as (s & E & LS & G).
  { intros i a Gi. pose proof (get_at_inv _ _ _ Gi) as I. unfold zlen in I. rewrite zupto_length in I.
    rewrite get_zupto in Gi by lia. inversion Gi; subst a.
    destruct (column_ok bands nx ny i L ltac:(lia)) as (c & -> & _). cbn [bind]. eauto. }
  exists s. split; auto. unfold zlen at 2 in LS. rewrite zupto_length in LS. split; [lia|].
  intros p P. destruct (G p p) as (x & Gx & c & EC & EX); [apply get_zupto; lia|]. exists c, x. auto.
Qed.

(** ** The words of an image *)
Definition off_marks (l : l1par) (nx ny : Z) (s : list (bool * bool * bool)) (off : list bool) : Prop :=
  if p_buffer l then buffer (map (fun x => fst (fst x)) s) nx ny 1 = Ret off else off = map (fun x => fst (fst x)) s.
Lemma bounds_ok l bands nx ny : level1 bands nx ny -> exists s off q, marks l bands nx ny s /\ off_marks l nx ny s off /\ zlen off = nx * ny /\
  bounds_level1 l bands nx ny = (if (0 <=? b_temp l) && negb (existsb snd s) then Ret (FAILURE, q) else impulse_noise l bands nx ny q) /\
  zlen q = nx * ny /\ Forall in_short q /\
  forall p x o w, get_at s p = Some x -> get_at off p = Some o -> get_at q p = Some w ->
    flag_value Off w = b2z o /\ flag_value Saturation w = b2z (snd (fst x)) /\ forall f, f <> Off -> f <> Saturation -> flag_value f w = 0.
Proof.
  intros L. destruct (scan_image_ok l bands nx ny L) as (s & ES & M). pose proof (proj1 M) as LS.
  unfold bounds_level1. rewrite ES. cbn [bind].
  assert (in_short 0) as Z0 by (unfold in_short; lia).
  assert (forall f, flag_value f 0 = 0) as FZ by (intros []; reflexivity).
  destruct (omap_get (fun x : bool * bool * bool => if snd (fst x) then set_flag Saturation 0 1 else Ret 0)
    (fun x w => in_short w /\ flag_value Saturation w = b2z (snd (fst x)) /\ forall f, f <> Saturation -> flag_value f w = 0) s) as (q0 & E0 & L0 & G0).
  { intros i ((o, t), c) _. cbn [fst snd]. destruct t.
    - destruct (set_value Saturation 0 1 Z0) as (w & E & W & A & B); [vm_compute; intuition discriminate|].
      exists w. split; [exact E|]. split; [exact W|]. split; [exact A|]. intros f N. rewrite (B f N). apply FZ.
    - exists 0. split; [reflexivity|]. split; [exact Z0|]. split; [apply FZ|]. intros; apply FZ. }
  rewrite E0. cbn [bind].
  assert (exists off, (if p_buffer l then buffer (map (fun x => fst (fst x)) s) nx ny 1 else Ret (map (fun x => fst (fst x)) s)) = Ret off /\
    off_marks l nx ny s off /\ zlen off = nx * ny) as (off & EO & OM & LO).
  { unfold off_marks. destruct (p_buffer l).
    - destruct (C35_safe_partial (map (fun x => fst (fst x)) s) nx ny 1) as (off & E & LO).
      { destruct L as (A & B & C & _). split; auto. split; auto. split; auto. rewrite zlen_map. auto. }
      exists off. auto.
    - eexists. split; [reflexivity|]. split; auto. rewrite zlen_map. auto. }
  rewrite EO. cbn [bind].
  destruct (omap_get (fun x => set_flag Off (fst x) (b2z (snd x)))
    (fun x w => in_short w /\ flag_value Off w = b2z (snd x) /\ forall f, f <> Off -> flag_value f w = flag_value f (fst x)) (combine q0 off)) as (q & E & LQ & G).
  { intros i (w, o) GI. rewrite get_combine in GI. destruct (get_at q0 i) as [w'|] eqn:GW; [|discriminate].
    destruct (get_at off i) as [o'|] eqn:GO; [|discriminate]. inversion GI; subst w' o'. cbn [fst snd].
    destruct (get_at_some s i) as (x & GX); [apply get_at_inv in GW; lia|]. destruct (G0 i x GX) as (w' & GW' & W & _).
    assert (w' = w) by congruence. subst w'.
    destruct (set_value Off w (b2z o) W) as (v & E & V & A & B); [destruct o; vm_compute; intuition discriminate|]. exists v. auto. }
  rewrite E. cbn [bind]. exists s, off, q. split; auto. split; auto. split; auto. split; auto.
  rewrite zlen_combine in LQ by lia.
  assert (forall p x o w, get_at s p = Some x -> get_at off p = Some o -> get_at q p = Some w -> in_short w /\
    flag_value Off w = b2z o /\ flag_value Saturation w = b2z (snd (fst x)) /\ forall f, f <> Off -> f <> Saturation -> flag_value f w = 0) as K.
  { intros p x o w GX GO GW. destruct (G0 p x GX) as (w0 & G1 & _ & S1 & O1).
    destruct (G p (w0, o)) as (w' & G2 & W & A & B); [rewrite get_combine, G1, GO; auto|].
    assert (w' = w) by congruence. subst w'. cbn [fst snd] in *. split; auto. split; auto. split.
    - rewrite B by discriminate. auto.
    - intros f N1 N2. rewrite B by auto. auto. }
  split; [lia|]. split.
  - apply Forall_forall. intros w I. apply In_get_at in I. destruct I as (p & _ & GW). pose proof (get_at_inv _ _ _ GW) as R.
    destruct (get_at_some s p) as (x & GX); [lia|]. destruct (get_at_some off p) as (o & GO); [lia|].
    exact (proj1 (K p x o w GX GO GW)).
  - intros p x o w GX GO GW. apply (K p x o w GX GO GW).
Qed.

(** What the marks say, in terms of the image. *)
Lemma marks_off l bands nx ny s p x : level1 bands nx ny -> marks l bands nx ny s -> get_at s p = Some x ->
  (fst (fst x) = true <-> exists b, void_in bands (b_cirrus l) b p /\ forall b', b' < b -> ~ sat_in bands (b_temp l) (m_sat l) b' p) /\
  (fst (fst x) = false -> (snd (fst x) = true <-> saturated bands (b_temp l) (m_sat l) p)).
Proof.
  intros L (LS & M) G. pose proof (get_at_inv _ _ _ G) as R. destruct (M p ltac:(lia)) as (c & y & EC & G' & EY).
  assert (y = x) as YX by congruence. rewrite YX in EY. clear YX G'. destruct (column_ok bands nx ny p L ltac:(lia)) as (c' & EC' & LC & CC).
  assert (c' = c) by congruence. subst c'. split.
  - rewrite EY, scan_off. split.
    + intros (k & GK & N & B). exists k. split; [split; [lia|apply CC; auto]|]. intros b' LB (N' & v & D & SV).
      apply CC in D. pose proof (get_nn _ _ _ D). destruct (B b' v) as [Q | Q]; try lia; auto.
    + intros (k & (N & D) & B). apply CC in D. exists k. split; auto. split; [lia|]. intros m e ME GM.
      destruct (Z.eq_dec (0 + m) (b_temp l)); [left; auto|]. right. destruct (Z_lt_dec e (m_sat l)); auto.
      exfalso. apply (B m ltac:(lia)). split; [lia|]. exists e. split; [apply CC; auto|lia].
  - intros O. rewrite EY in O |- *. rewrite scan_sat by auto. split.
    + intros (k & d & GK & N & SV). exists k. split; [lia|]. exists d. split; [apply CC; auto|auto].
    + intros (k & N & d & D & SV). apply CC in D. exists k, d. split; [auto|]. split; [lia|auto].
Qed.
Lemma marks_temp l bands nx ny s : level1 bands nx ny -> marks l bands nx ny s ->
  (existsb snd s = true -> exists p v, dn_at bands (b_temp l) p v /\ (v = 0 -> b_temp l = b_cirrus l)) /\
  (0 <= b_temp l < zlen bands -> (exists p, 0 <= p < nx * ny /\ ~ void bands (b_cirrus l) p /\ ~ saturated bands (b_temp l) (m_sat l) p) -> existsb snd s = true).
Proof.
  intros L (LS & M). split.
  - intros H. apply existsb_exists in H. destruct H as (x & I & T). apply In_get_at in I. destruct I as (p & _ & G).
    pose proof (get_at_inv _ _ _ G) as R. destruct (M p ltac:(lia)) as (c & y & EC & G' & EY).
    assert (y = x) as YX by congruence. rewrite YX in EY. clear YX G'. destruct (column_ok bands nx ny p L ltac:(lia)) as (c' & EC' & LC & CC).
    assert (c' = c) by congruence. subst c'. rewrite EY in T. apply scan_temp in T. destruct T as (d & GD & Q).
    rewrite Z.sub_0_r in GD. exists p, d. split; auto. apply CC. auto.
  - intros B (p & P & NV & NS). destruct (M p P) as (c & x & EC & G & EX).
    destruct (column_ok bands nx ny p L P) as (c' & EC' & LC & CC). assert (c' = c) by congruence. subst c'.
    apply existsb_exists. exists x. split; [eapply get_at_In; eauto|]. rewrite EX. apply scan_counts.
    + intros (k & GK & N). apply NV. exists k. split; [lia|apply CC; auto].
    + intros (k & d & GK & N & SV). apply NS. exists k. split; [lia|]. exists d. split; [apply CC; auto|auto].
    + lia.
Qed.

(** ** Impulse noise *)
Definition valid_at (qai : list Z) (q : Z) : bool := match get_at qai q with Some w => negb (off_word w) | None => false end.
Lemma keep_valid_ok qai : forall qs, (forall q, In q qs -> 0 <= q < zlen qai) -> keep_valid qai qs = Ret (filter (valid_at qai) qs).
Proof.
  induction qs as [|q qs IH]; intros H; cbn [keep_valid filter]; auto.
  destruct (get_at_some qai q) as (w & G); [apply H; left; auto|]. rewrite G. cbn [of_option bind].
  rewrite IH by (intros; apply H; right; auto). cbn [bind]. unfold valid_at. rewrite G. destruct (off_word w); auto.
Qed.
Lemma first_then_run l : l <> [] -> r_vx (first_then l) = dev 2 l.
Proof.
  intros N. destruct (run_var_spec l N) as (_ & E). cbv zeta in E. rewrite <- E. f_equal. destruct l as [|x t]; [congruence|].
  unfold first_then, run_var. cbn [feed]. f_equal. unfold var_recurrence. cbn [r_mx r_vx INR]. f_equal; field.
Qed.
Lemma sd_ok band qs : qs <> [] -> (forall q, In q qs -> 0 <= q < zlen band) ->
  exists l, sd_of band qs = Ret (spread l) /\ Forall2 (fun q x => exists v, get_at band q = Some v /\ x = IZR v) qs l.
Proof.
  intros N H. unfold sd_of.
  assert (exists v, omap (fun q => of_option (get_at band q)) qs = Ret v /\ Forall2 (fun q x => get_at band q = Some x) qs v) as (v & E & F).
  { clear N. induction qs as [|q r IH]; cbn [omap]; [exists []; auto|].
    destruct (get_at_some band q) as (x & G); [apply H; left; auto|]. rewrite G. cbn [of_option bind].
    destruct IH as (v & -> & F); [intros; apply H; right; auto|]. cbn [bind]. exists (x :: v). auto. }
  rewrite E. cbn [bind]. exists (map IZR v). assert (length qs = length v) as LL by (clear -F; induction F; cbn; congruence).
  split.
  - f_equal. unfold standdev, variance, spread. rewrite first_then_run.
    + unfold size. rewrite map_length, LL. auto.
    + destruct v; [|discriminate]. destruct qs; [congruence|discriminate].
  - clear -F. induction F; cbn [map]; constructor; eauto.
Qed.
Lemma near_in nx i j q : In q (near nx i j) <-> in_window nx i j q.
Proof.
  unfold near, in_window. rewrite in_flat_map. split.
  - intros (a & IA & I). apply in_map_iff in I. destruct I as (b & E & IB). exists a, b. cbn in IA, IB. lia.
  - intros (a & b & A & B & E). exists a. split; [cbn; lia|]. apply in_map_iff. exists b. split; [lia|cbn; lia].
Qed.
Lemma near_nodup nx i j : 3 <= nx -> NoDup (near nx i j).
Proof.
  intros N. unfold near. cbn [flat_map map app].
  replace (nx * (i + -1)) with (nx * i - nx) by ring. replace (nx * (i + 0)) with (nx * i) by ring. replace (nx * (i + 1)) with (nx * i + nx) by ring.
  generalize (nx * i). intros a.
  repeat (constructor; [cbn [In]; lia|]). constructor.
Qed.
(** The programmed rule for the spread in the blue, green and red band. *)
Definition noisy (b g r : R) : Prop :=
  (b < g /\ r <= g /\ g > b + 15 \/ b < g /\ g < r /\ r > g + 15 \/ g <= b /\ b < r /\ r > b + 15)%R.
Lemma excess_noisy b g r : Rlt_bool 15 (excess b g r) = true <-> noisy b g r.
Proof.
  unfold excess, noisy. destruct (Rlt_bool_spec b g); cbn [fst snd].
  - destruct (Rlt_bool_spec g r); cbn [fst snd]; match goal with |- Rlt_bool ?x ?y = true <-> _ => destruct (Rlt_bool_spec x y) end; split; intros; try lra; auto; discriminate.
  - destruct (Rlt_bool_spec b r); cbn [fst snd]; match goal with |- Rlt_bool ?x ?y = true <-> _ => destruct (Rlt_bool_spec x y) end; split; intros; try lra; auto; discriminate.
Qed.
Lemma noisy_rule b g r :
  ((g > b + 15 /\ g > r + 15 \/ r > b + 15 /\ r > g + 15)%R -> noisy b g r) /\
  (noisy b g r -> (g > b + 15 \/ r > b + 15)%R) /\
  (~ (g <= b /\ r <= b)%R -> ~ (b < r <= g)%R -> (noisy b g r <-> stands_out 15 b g r)).
Proof. unfold noisy, stands_out. repeat split; intros; lra. Qed.

Definition screened (blue green red : list Z) (nx : Z) (view : Z -> option Z) (ij : Z * Z) (w w' : Z) : Prop :=
  (nodata_word w -> w' = w) /\
  (~ nodata_word w -> (forall f, f <> Off -> flag_value f w' = flag_value f w) /\
    exists lb lg lr, window_values view nx (fst ij) (snd ij) blue lb /\ window_values view nx (fst ij) (snd ij) green lg /\
      window_values view nx (fst ij) (snd ij) red lr /\ (nodata_word w' <-> noisy (spread lb) (spread lg) (spread lr))).
Lemma window_ext v1 v2 nx i j band l : (forall q, v1 q = v2 q) -> window_values v1 nx i j band l -> window_values v2 nx i j band l.
Proof.
  intros E (qs & N & I & F). exists qs. split; auto. split; auto. intros q. rewrite I. rewrite E. tauto.
Qed.
Lemma screened_ext blue green red nx v1 v2 ij w w' : (forall q, v1 q = v2 q) -> screened blue green red nx v1 ij w w' -> screened blue green red nx v2 ij w w'.
Proof.
  intros E (A & B). split; auto. intros N. destruct (B N) as (C & lb & lg & lr & W1 & W2 & W3 & D). split; auto.
  exists lb, lg, lr. split; [eapply window_ext; eauto|]. split; [eapply window_ext; eauto|]. split; [eapply window_ext; eauto|]. exact D.
Qed.
Lemma off_iff w : in_short w -> (off_word w = true <-> nodata_word w).
Proof.
  intros W. unfold off_word, on, nodata_word. rewrite get_flag_value by auto. unfold flag_value, field. cbn [layout fst snd].
  pose proof (Z.mod_pos_bound (w / 2 ^ 0) (2 ^ 1)). lia.
Qed.
Lemma noise_step_ok blue green red nx ny s i j : zlen blue = nx * ny -> zlen green = nx * ny -> zlen red = nx * ny ->
  zlen s = nx * ny /\ Forall in_short s -> 1 <= i <= ny - 2 -> 1 <= j <= nx - 2 ->
  exists s' w w', noise_step red green blue nx s (i, j) = Ret s' /\ (zlen s' = nx * ny /\ Forall in_short s') /\
    get_at s (i * nx + j) = Some w /\ get_at s' (i * nx + j) = Some w' /\ (forall q, q <> i * nx + j -> get_at s' q = get_at s q) /\
    screened blue green red nx (get_at s) (i, j) w w'.
Proof.
  intros LB LG LR (LS & FS) I J. unfold noise_step. cbn [fst snd].
  assert (0 <= i * nx + j < nx * ny) as P by nia.
  destruct (get_at_some s (i * nx + j)) as (w & GW); [lia|]. rewrite GW. cbn [of_option bind].
  pose proof (Forall_get_at _ _ _ _ FS GW) as W.
  destruct (off_word w) eqn:O.
  { exists s, w, w. apply off_iff in O; auto. split; auto. split; auto. split; auto. split; auto. split; auto. split; auto. intros; contradiction. }
  assert (~ nodata_word w) as NW by (intros X; apply off_iff in X; congruence).
  assert (forall q, In q (near nx i j) -> 0 <= q < nx * ny) as NI.
  { intros q X. apply near_in in X. destruct X as (a & b & A & B & ->). nia. }
  rewrite keep_valid_ok by (intros; rewrite LS; auto). cbn [bind].
  set (qs := filter (valid_at s) (near nx i j)).
  assert (In (i * nx + j) qs) as IP.
  { apply filter_In. split; [apply near_in; exists 0, 0; split; [lia|]; split; [lia|]; lia|]. unfold valid_at. rewrite GW, O. auto. }
  assert (qs <> []) as NE by (intros X; rewrite X in IP; destruct IP).
  assert (zlen qs >? 0 = true) as -> by (unfold zlen; destruct qs; [congruence|cbn; lia]).
  assert (forall q, In q qs -> 0 <= q < nx * ny) as QI by (intros q X; apply filter_In in X; apply NI; tauto).
  assert (forall q, In q qs <-> in_window nx i j q /\ exists w, get_at s q = Some w /\ ~ nodata_word w) as QW.
  { intros q. unfold qs. rewrite filter_In, near_in. unfold valid_at. split; intros (X & Y); split; auto.
    - destruct (get_at s q) as [v|] eqn:G; [|discriminate]. exists v. split; auto. rewrite <- off_iff by (eapply Forall_get_at; eauto). destruct (off_word v); [discriminate|congruence].
    - destruct Y as (v & G & NV). rewrite G. rewrite <- off_iff in NV by (eapply Forall_get_at; eauto). destruct (off_word v); [congruence|reflexivity]. }
  assert (NoDup qs) as ND by (apply NoDup_filter, near_nodup; lia).
  destruct (sd_ok blue qs NE) as (lb & -> & F1); [intros; rewrite LB; auto|].
  destruct (sd_ok green qs NE) as (lg & -> & F2); [intros; rewrite LG; auto|].
  destruct (sd_ok red qs NE) as (lr & -> & F3); [intros; rewrite LR; auto|]. cbn [bind].
  destruct (Rlt_bool 15 (excess (spread lb) (spread lg) (spread lr))) eqn:X.
  - destruct (set_flag_at_spec Off s (i * nx + j) 1 FS) as (s' & E & L' & F' & V & K); [lia|vm_compute; intuition discriminate|].
    destruct (get_at_some s' (i * nx + j)) as (w' & GW'); [lia|]. destruct (V w w' GW GW') as (V1 & V2).
    pose proof (Forall_get_at _ _ _ _ F' GW') as W'. rewrite get_flag_value in V1 by auto.
    exists s', w, w'. split; auto. split; [split; [lia|auto]|]. split; auto. split; auto. split; auto. split; [intros; contradiction|].
    intros _. split; [intros f N; rewrite <- !get_flag_value by auto; auto|]. exists lb, lg, lr.
    split; [exists qs; auto|]. split; [exists qs; auto|]. split; [exists qs; auto|]. rewrite <- excess_noisy. unfold nodata_word. tauto.
  - exists s, w, w. split; auto. split; auto. split; auto. split; auto. split; auto. split; [auto|]. intros _. split; auto. exists lb, lg, lr.
    split; [exists qs; auto|]. split; [exists qs; auto|]. split; [exists qs; auto|]. rewrite <- excess_noisy, X. split; [contradiction|discriminate].
Qed.

(** A pass over strictly increasing positions that works in place. *)
Inductive rising {A} (pos : A -> Z) : list A -> Prop :=
| rising_nil : rising pos []
| rising_cons a l : (forall b, In b l -> pos a < pos b) -> rising pos l -> rising pos (a :: l).
Lemma rising_app {A} (pos : A -> Z) l1 l2 : rising pos l1 -> rising pos l2 -> (forall a b, In a l1 -> In b l2 -> pos a < pos b) -> rising pos (l1 ++ l2).
Proof.
  induction 1 as [|a l H R IH]; intros R2 B; cbn [app]; auto. constructor.
  - intros b I. apply in_app_or in I. destruct I; auto. apply B; auto. left; auto.
  - apply IH; auto. intros; apply B; auto. right; auto.
Qed.
Lemma in_order {A} (f : list Z -> A -> outcome (list Z)) (pos : A -> Z) (Rel : (Z -> option Z) -> A -> Z -> Z -> Prop) (Inv : list Z -> Prop) :
  forall l, (forall s a, In a l -> Inv s -> exists s' w w', f s a = Ret s' /\ Inv s' /\ get_at s (pos a) = Some w /\ get_at s' (pos a) = Some w' /\
     (forall q, q <> pos a -> get_at s' q = get_at s q) /\ Rel (get_at s) a w w') -> rising pos l ->
  forall s, Inv s -> exists out, ofold f l s = Ret out /\ Inv out /\ (forall q, (forall a, In a l -> q <> pos a) -> get_at out q = get_at s q) /\
    forall a, In a l -> exists view w w', (forall q, view q = seen s out (pos a) q) /\ get_at s (pos a) = Some w /\ get_at out (pos a) = Some w' /\ Rel view a w w'.
Proof.
  induction l as [|a l IH]; intros ST RI s I; cbn [ofold].
  - exists s. split; auto. split; auto. split; auto. intros a [].
  - inversion RI as [|? ? H R]; subst.
    destruct (ST s a) as (s1 & w & w' & E & I1 & G & G1 & K & RL); [left; auto|auto|]. rewrite E. cbn [bind].
    destruct (IH ltac:(intros; apply ST; auto; right; auto) R s1 I1) as (out & EO & IO & SO & V).
    exists out. split; auto. split; auto. split.
    { intros q N. rewrite SO by (intros; apply N; right; auto). apply K. apply N. left; auto. }
    intros b [-> | IB].
    + exists (get_at s), w, w'. split.
      { intros q. unfold seen. destruct (Z.ltb_spec q (pos b)); auto. rewrite SO by (intros c IC; specialize (H c IC); lia). symmetry. apply K. lia. }
      split; auto. split; auto. rewrite SO; auto. intros c IC. specialize (H c IC). lia.
    + destruct (V b IB) as (view & v & v' & EV & GV & GV' & RV). specialize (H b IB). exists view, v, v'. split.
      { intros q. rewrite EV. unfold seen. destruct (Z.ltb_spec q (pos b)); auto. apply K. lia. }
      split; [rewrite <- K by lia; auto|]. auto.
Qed.
Lemma rising_sorted {A} (pos : A -> Z) (h : Z -> A) (Q : Z -> Prop) l : (forall x y, Q x -> Q y -> x < y -> pos (h x) < pos (h y)) ->
  (forall x, In x l -> Q x) -> StronglySorted Z.lt l -> rising pos (map h l).
Proof.
  intros M QI. induction 1 as [|a l S IH F]; cbn [map]; constructor.
  - intros b I. apply in_map_iff in I. destruct I as (y & <- & I). rewrite Forall_forall in F.
    apply M; [apply QI; left; auto|apply QI; right; auto|auto].
  - apply IH. intros; apply QI; right; auto.
Qed.
Lemma inner_rising nx ny : rising (fun ij => fst ij * nx + snd ij) (inner nx ny).
Proof.
  unfold inner. pose proof (zrange_sorted 1 (ny - 2)) as S.
  induction S as [|i l S IH F]; cbn [flat_map]; [constructor|]. apply rising_app; auto.
  - apply (rising_sorted _ (fun j => (i, j)) (fun _ => True)); auto using zrange_sorted. cbn [fst snd]. intros; lia.
  - intros (a, b) (c, d) I1 I2. apply in_map_iff in I1. destruct I1 as (b' & E & I1). inversion E; subst a b'. apply zrange_In in I1.
    apply in_flat_map in I2. destruct I2 as (i' & I2 & I3). apply in_map_iff in I3. destruct I3 as (d' & E' & I3). inversion E'; subst c d'.
    apply zrange_In in I3. rewrite Forall_forall in F. specialize (F i' I2). cbn [fst snd]. nia.
Qed.
Lemma inner_In nx ny i j : In (i, j) (inner nx ny) <-> 1 <= i <= ny - 2 /\ 1 <= j <= nx - 2.
Proof.
  unfold inner. rewrite in_flat_map. split.
  - intros (i' & I & J). apply in_map_iff in J. destruct J as (j' & E & J). inversion E; subst. apply zrange_In in I, J. auto.
  - intros (I & J). exists i. split; [apply zrange_In; auto|]. apply in_map_iff. exists j. split; auto. apply zrange_In; auto.
Qed.
Lemma noise_ok l bands nx ny q blue green red : level1 bands nx ny -> zlen q = nx * ny -> Forall in_short q ->
  m_dtype l = 8 -> p_impulse l = true -> get_at bands (b_blue l) = Some blue -> get_at bands (b_green l) = Some green -> get_at bands (b_red l) = Some red ->
  exists out, impulse_noise l bands nx ny q = Ret (SUCCESS, out) /\ zlen out = nx * ny /\ Forall in_short out /\
    (forall i j, 0 <= i < ny -> 0 <= j < nx -> i = 0 \/ i = ny - 1 \/ j = 0 \/ j = nx - 1 -> get_at out (i * nx + j) = get_at q (i * nx + j)) /\
    (forall i j, 1 <= i <= ny - 2 -> 1 <= j <= nx - 2 -> exists w w', get_at q (i * nx + j) = Some w /\ get_at out (i * nx + j) = Some w' /\
       screened blue green red nx (seen q out (i * nx + j)) (i, j) w w').
Proof.
  intros L LQ FQ D P GB GG GR. unfold impulse_noise. rewrite D, P. cbn [Z.eqb negb].
  pose proof (get_nn _ _ _ GB). pose proof (get_nn _ _ _ GG). pose proof (get_nn _ _ _ GR).
  replace (8 =? 8) with true by reflexivity. cbn [negb].
  replace ((b_blue l <? 0) || (b_green l <? 0) || (b_red l <? 0)) with false by lia.
  rewrite GB, GG, GR. cbn [of_option bind].
  assert (forall d b, get_at bands b = Some d -> zlen d = nx * ny) as LD by (intros d b G; destruct L as (_ & _ & _ & L); apply L; eapply get_at_In; eauto).
  destruct (in_order (noise_step red green blue nx) (fun ij => fst ij * nx + snd ij) (screened blue green red nx)
    (fun s => zlen s = nx * ny /\ Forall in_short s) (inner nx ny)) with (s := q) as (out & E & (L1 & F1) & K & V); auto using inner_rising.
  { intros s (i, j) I IV. apply inner_In in I. cbn [fst snd]. apply noise_step_ok with (ny := ny); eauto; tauto. }
  rewrite E. cbn [bind]. exists out. split; auto. split; auto. split; auto. split.
  - intros i j I J B. apply K. intros (i', j') I'. apply inner_In in I'. cbn [fst snd]. intros EQ.
    assert (i = i'); [|subst i'; lia]. destruct (Z.lt_trichotomy i i') as [Q | [Q | Q]]; auto; exfalso; clear - Q EQ I I' J; nia.
  - intros i j I J. destruct (V (i, j)) as (view & w & w' & EV & G & G' & S); [apply inner_In; auto|]. cbn [fst snd] in *.
    exists w, w'. split; auto. split; auto. eapply screened_ext; [|exact S]. exact EV.
Qed.
