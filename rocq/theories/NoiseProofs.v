From Coq Require Import Lia.
From Flocq Require Import Core IEEE754.BinarySingleNaN.
From Verif Require Import Base BaseFacts Loops LoopsFacts Float FloatSign NoiseModel NoiseSpec.
#[local] Open Scope Z_scope.
Ltac Zify.zify_post_hook ::= Z.div_mod_to_equations.

(** The neighbour searches. *)
Definition scanned msk t0 t_mid t s :=
  (if vl s then clear msk (nl s) /\ t0 <= nl s < t_mid /\ (forall u, clear msk u -> nl s < u -> u < t_mid -> t <= u)
   else nl s = t0 /\ forall u, clear msk u -> t0 <= u -> u < t_mid -> t <= u) /\
  (if vr s then clear msk (nr s) /\ t_mid < nr s /\ (forall u, clear msk u -> t_mid < u -> nr s <= u)
   else forall u, clear msk u -> t_mid < u -> t <= u).

Definition found msk t0 t_mid s :=
  (if vl s then clear msk (nl s) /\ t0 <= nl s < t_mid /\ (forall u, clear msk u -> u <= nl s \/ t_mid <= u)
   else nl s = t0 /\ forall u, clear msk u -> u < t0 \/ t_mid <= u) /\
  (if vr s then clear msk (nr s) /\ t_mid < nr s /\ (forall u, clear msk u -> u <= t_mid \/ nr s <= u)
   else forall u, clear msk u -> u <= t_mid).

Lemma clear_range msk t : clear msk t -> 0 <= t < zlen msk.
Proof. apply get_at_inv. Qed.

Lemma scanned_found msk t0 t_mid t s : scanned msk t0 t_mid t s ->
  zlen msk <= t \/ (t_mid < t /\ vr s = true) -> found msk t0 t_mid s.
Proof.
  intros (HL & HR) HT. split.
  - destruct (vl s).
    + destruct HL as (A & B & C). repeat split; try tauto; try lia. intros u Hu. pose proof (clear_range _ _ Hu).
      destruct (Z_le_gt_dec u (nl s)); [tauto|]. destruct (Z_le_gt_dec t_mid u); [tauto|].
      specialize (C u Hu ltac:(lia) ltac:(lia)). lia.
    + destruct HL as (A & C). split; [exact A|]. intros u Hu. pose proof (clear_range _ _ Hu).
      destruct (Z_lt_ge_dec u t0); [tauto|]. destruct (Z_le_gt_dec t_mid u); [tauto|].
      specialize (C u Hu ltac:(lia) ltac:(lia)). lia.
  - destruct (vr s).
    + destruct HR as (A & B & C). repeat split; try tauto. intros u Hu.
      destruct (Z_le_gt_dec u t_mid); [tauto|]. specialize (C u Hu ltac:(lia)). lia.
    + intros u Hu. pose proof (clear_range _ _ Hu).
      destruct (Z_le_gt_dec u t_mid); [lia|]. specialize (HR u Hu ltac:(lia)). destruct HT as [|[_ X]]; [lia|discriminate].
Qed.

Lemma skipn_tl {A} : forall k (l : list A), skipn (S k) l = tl (skipn k l).
Proof. induction k; destruct l as [|a l]; cbn [skipn tl]; auto. rewrite <- IHk. reflexivity. Qed.

Lemma skipn_head {A} (l : list A) t b r : 0 <= t -> skipn (Z.to_nat t) l = b :: r ->
  get_at l t = Some b /\ skipn (Z.to_nat (t + 1)) l = r.
Proof.
  intros Ht H. split.
  - rewrite <- (Z2Nat.id t) by lia. rewrite get_at_nat.
    rewrite <- (firstn_skipn (Z.to_nat t) l), H, nth_error_app2; rewrite firstn_length_le;
      try (rewrite Nat.sub_diag; reflexivity); try lia.
    all: pose proof (skipn_length (Z.to_nat t) l) as L; rewrite H in L; cbn in L; lia.
  - replace (Z.to_nat (t + 1)) with (S (Z.to_nat t)) by lia. now rewrite skipn_tl, H.
Qed.

Lemma skipn_nil_len {A} (l : list A) t : 0 <= t -> skipn (Z.to_nat t) l = [] -> zlen l <= t.
Proof. intros Ht H. apply (f_equal (@length A)) in H. rewrite skipn_length in H. cbn in H. unfold zlen. lia. Qed.

Lemma scanned_skip msk t0 t_mid t s : scanned msk t0 t_mid t s -> ~ clear msk t -> scanned msk t0 t_mid (t + 1) s.
Proof.
  intros (HL & HR) HN. split.
  - destruct (vl s).
    + destruct HL as (A & B & C). repeat split; auto; try lia. intros u Hu ? ?.
      assert (u <> t) by congruence. specialize (C u Hu ltac:(lia) ltac:(lia)). lia.
    + destruct HL as (A & C). split; auto. intros u Hu ? ?.
      assert (u <> t) by congruence. specialize (C u Hu ltac:(lia) ltac:(lia)). lia.
  - destruct (vr s); auto. intros u Hu ?. assert (u <> t) by congruence. specialize (HR u Hu ltac:(lia)). lia.
Qed.

Lemma scanned_left msk t0 t_mid t s n1 n2 : scanned msk t0 t_mid t s -> clear msk t -> t0 <= t < t_mid ->
  scanned msk t0 t_mid (t + 1) (mkNear t (nr s) n1 n2 true (vr s)).
Proof.
  intros (HL & HR) HC HT. split; cbn [vl nl vr nr].
  - repeat split; auto; lia.
  - destruct (vr s); auto. intros. lia.
Qed.

Lemma search_found msk t0 t_mid : forall m t s, t0 <= t -> 0 <= t -> skipn (Z.to_nat t) msk = m ->
  scanned msk t0 t_mid t s -> found msk t0 t_mid (search t t_mid m s).
Proof.
  induction m as [|b m IH]; intros t s Ht0 Ht Hm HS.
  - cbn. apply (scanned_found msk t0 t_mid t); [exact HS|]. left. now apply skipn_nil_len.
  - destruct (skipn_head _ _ _ _ Ht Hm) as (HB & HM). cbn [search].
    destruct b; cbn [negb].
    + destruct (Z.ltb_spec t t_mid) as [C|C].
      * apply IH; auto; try lia. apply (scanned_left msk t0 t_mid t s); auto; lia.
      * destruct (Z.eqb_spec t t_mid) as [->|C'].
        -- apply IH; auto; try lia. destruct HS as (HL & HR). split.
           ++ destruct (vl s); [destruct HL as (A & B & B2)|destruct HL as (A & B2)]; repeat split; try assumption; try lia;
                intros u Hu ? ?; specialize (B2 u Hu); lia.
           ++ destruct (vr s); auto. intros; lia.
        -- destruct (vr s) eqn:V; cbn [negb].
           ++ apply (scanned_found msk t0 t_mid t); [|right; split; [lia|reflexivity]].
              destruct HS as (HL & HR). split; cbn [vl nl vr nr]; auto. rewrite V in HR. exact HR.
           ++ apply IH; auto; try lia. destruct HS as (HL & HR). rewrite V in HR. split; cbn [vl nl vr nr].
              ** destruct (vl s); [destruct HL as (A & B & B2)|destruct HL as (A & B2)]; repeat split; try assumption; try lia;
                intros u Hu ? ?; specialize (B2 u Hu); lia.
              ** repeat split; auto; lia.
    + apply IH; auto; try lia. apply scanned_skip; auto. unfold clear. rewrite HB. discriminate.
Qed.

Lemma search2_found msk t0 t_mid : forall m t s, t0 <= t -> 0 <= t -> skipn (Z.to_nat t) msk = m -> vr s = false ->
  scanned msk t0 t_mid t s -> found msk t0 t_mid (search2 t t_mid m s).
Proof.
  induction m as [|b m IH]; intros t s Ht0 Ht Hm V HS.
  - cbn. apply (scanned_found msk t0 t_mid t); [exact HS|]. left. now apply skipn_nil_len.
  - destruct (skipn_head _ _ _ _ Ht Hm) as (HB & HM). cbn [search2].
    destruct b; cbn [negb].
    + destruct (Z.ltb_spec t t_mid) as [C|C].
      * apply IH; auto; try lia. apply (scanned_left msk t0 t_mid t s); auto; lia.
      * destruct (Z.eqb_spec t t_mid) as [->|C'].
        -- apply IH; auto; try lia. destruct HS as (HL & HR). split.
           ++ destruct (vl s); [destruct HL as (A & B & B2)|destruct HL as (A & B2)]; repeat split; try assumption; try lia;
                intros u Hu ? ?; specialize (B2 u Hu); lia.
           ++ destruct (vr s); auto. intros; lia.
        -- apply (scanned_found msk t0 t_mid (t + 1)); [|right; split; [lia|reflexivity]].
           destruct HS as (HL & HR). rewrite V in HR. split; cbn [vl nl vr nr].
           ** destruct (vl s); [destruct HL as (A & B & B2)|destruct HL as (A & B2)]; repeat split; try assumption; try lia;
                intros u Hu ? ?; specialize (B2 u Hu); lia.
           ** repeat split; auto; lia.
    + apply IH; auto; try lia. apply scanned_skip; auto. unfold clear. rewrite HB. discriminate.
Qed.

Lemma search_from_found msk t0 t_mid : 0 <= t0 < t_mid -> found msk t0 t_mid (search_from msk t0 t_mid).
Proof.
  intros H. apply search_found; [lia|lia|reflexivity|]. split; cbn [vl nl vr nr].
  all: repeat split; intros; lia.
Qed.

Lemma search2_from_found msk t0 t_mid : 0 <= t0 < t_mid -> found msk t0 t_mid (search2_from msk t0 t_mid).
Proof.
  intros H. apply search2_found; [lia|lia|reflexivity|reflexivity|]. split; cbn [vl nl vr nr].
  all: repeat split; intros; lia.
Qed.

Lemma found_bracket msk t0 m s : found msk t0 m s -> vl s = true -> vr s = true -> bracket msk (nl s) m (nr s).
Proof.
  intros (HL & HR) L R. rewrite L in HL. rewrite R in HR. destruct HL as (A & B & C), HR as (D & E & F).
  split; [exact A|split; [exact D|split; [lia|]]]. intros u Hu. specialize (C u Hu). specialize (F u Hu). lia.
Qed.

Lemma slope_bound d w v : 0 < w -> 0 <= v <= w -> Z.abs (Z.quot d w * v) <= Z.abs d.
Proof.
  intros W V. rewrite Z.abs_mul, <- Z.quot_abs by lia. rewrite (Z.abs_eq w), (Z.abs_eq v) by lia.
  pose proof (Z.abs_nonneg d) as D.
  assert (0 <= Z.quot (Z.abs d) w) by (apply Z.quot_pos; assumption).
  pose proof (Z.mul_quot_le (Z.abs d) w D ltac:(lia)) as M.
  apply Z.le_trans with (w * Z.quot (Z.abs d) w); [|apply M]. rewrite Z.mul_comm. apply Z.mul_le_mono_nonneg_r; [assumption|apply V].
Qed.

(** The residual exists and has no minus sign. *)
Section Series.
Context (dat ce : list Z) (n : Z).
Hypothesis Ld : zlen dat = n.
Hypothesis Lc : zlen ce = n.
Hypothesis Hd : Forall in_short dat.
Hypothesis Hc : nondecreasing ce.

Lemma residual_ok l m r : 0 <= l < m -> m < r < n -> exists y, residual dat ce l m r = Ret y /\ plus_sign y.
Proof.
  intros A B. unfold residual.
  destruct (get_at_some dat l ltac:(lia)) as (yl & El). destruct (get_at_some dat m ltac:(lia)) as (ym & Em).
  destruct (get_at_some dat r ltac:(lia)) as (yr & Er).
  destruct (get_at_some ce l ltac:(lia)) as (cl & Cl). destruct (get_at_some ce m ltac:(lia)) as (cm & Cm).
  destruct (get_at_some ce r ltac:(lia)) as (cr & Cr).
  rewrite El, Em, Er, Cl, Cm, Cr. cbn [of_option bind].
  pose proof (Hc l m cl cm ltac:(lia) Cl Cm) as H1. pose proof (Hc m r cm cr ltac:(lia) Cm Cr) as H2.
  pose proof (Forall_get_at _ _ _ _ Hd El) as Sl. pose proof (Forall_get_at _ _ _ _ Hd Em) as Sm.
  pose proof (Forall_get_at _ _ _ _ Hd Er) as Sr. unfold in_short in *.
  destruct (Z.eqb_spec cr cl) as [E|E].
  - eexists; split; [reflexivity|]. apply plus_sign_div; apply plus_sign_of_Z; lia.
  - assert (Q : Z.abs (Z.quot (yr - yl) (cr - cl) * (cm - cl)) <= Z.abs (yr - yl)).
    { clear -H1 H2 E. apply slope_bound; lia. }
    rewrite chk_int_ok by (unfold in_int; lia). cbn [bind]. eexists; split; [reflexivity|]. apply plus_sign_of_Z. lia.
Qed.
End Series.

(** Counting clear observations. *)
Lemma nclear_app a b : nclear (a ++ b) = nclear a + nclear b.
Proof. unfold nclear. rewrite filter_app. unfold zlen. rewrite app_length. lia. Qed.
Lemma nclear_nonneg m : 0 <= nclear m.
Proof. apply zlen_nonneg. Qed.
Lemma nclear_le m : nclear m <= zlen m.
Proof. induction m as [|b m IH]; [reflexivity|]. unfold nclear, zlen in *. destruct b; cbn; lia. Qed.

Definition upto (m : list bool) (k : Z) : Z := nclear (firstn (Z.to_nat k) m).

Lemma firstn_S_nth {A} : forall k (l : list A) a, nth_error l k = Some a -> firstn (S k) l = firstn k l ++ [a].
Proof. induction k; destruct l; cbn; intros a0 H; try discriminate; [now injection H as ->|now rewrite <- (IHk _ _ H)]. Qed.

Lemma upto_step m k b : get_at m k = Some b -> upto m (k + 1) = upto m k + (if b then 1 else 0).
Proof.
  intros H. pose proof (get_at_inv _ _ _ H). unfold upto.
  replace (Z.to_nat (k + 1)) with (S (Z.to_nat k)) by lia.
  rewrite (firstn_S_nth (Z.to_nat k) m b).
  - rewrite nclear_app. now destruct b.
  - rewrite <- get_at_nat, Z2Nat.id by lia. exact H.
Qed.

Lemma upto_all m k : zlen m <= k -> upto m k = nclear m.
Proof. intros H. unfold upto. rewrite firstn_all2; auto. unfold zlen in H. lia. Qed.

Lemma upto_mono m j k : 0 <= j <= k -> upto m j <= upto m k.
Proof.
  intros H. unfold upto. replace (Z.to_nat k) with (Z.to_nat j + (Z.to_nat k - Z.to_nat j))%nat by lia.
  rewrite <- (firstn_skipn (Z.to_nat j) m) at 2.
  destruct (le_gt_dec (length m) (Z.to_nat j)) as [L|L].
  - rewrite !(firstn_all2 m) by lia. rewrite skipn_all2 by lia. rewrite app_nil_r, firstn_all2 by lia. lia.
  - rewrite firstn_app, firstn_length_le by lia. rewrite firstn_firstn, Nat.min_r by lia.
    rewrite nclear_app. pose proof (nclear_nonneg (firstn (Z.to_nat j + (Z.to_nat k - Z.to_nat j) - Z.to_nat j) (skipn (Z.to_nat j) m))). lia.
Qed.

Lemma upto_clear m u k : clear m u -> u < k -> upto m u + 1 <= upto m k.
Proof.
  intros H Hk. pose proof (clear_range _ _ H). rewrite <- (upto_step m u true H). apply upto_mono. lia.
Qed.

Lemma upto_nonneg m k : 0 <= upto m k.
Proof. apply nclear_nonneg. Qed.

Lemma upto_none m k : 0 <= k -> (forall u, clear m u -> k <= u) -> upto m k = 0.
Proof.
  intros Hk H. rewrite <- (Z2Nat.id k) in * by lia. induction (Z.to_nat k) as [|j IH]; [reflexivity|].
  rewrite Nat2Z.inj_succ in *. unfold Z.succ in *.
  assert (IH' : upto m (Z.of_nat j) = 0) by (apply IH; [lia|intros u Hu; specialize (H u Hu); lia]).
  destruct (get_at m (Z.of_nat j)) as [b|] eqn:E.
  - rewrite (upto_step m _ b E), IH'. destruct b; [|lia]. specialize (H _ E). lia.
  - apply get_at_none in E. rewrite upto_all by lia. rewrite upto_all in IH' by lia. exact IH'.
Qed.

Lemma upto_rest m k : 0 <= k -> (forall u, clear m u -> u < k) -> upto m k = nclear m.
Proof.
  intros Hk H. rewrite <- (upto_all m (Z.max k (zlen m))) by lia.
  assert (G : forall d, 0 <= d -> upto m (k + d) = upto m k).
  { intros d Hd. rewrite <- (Z2Nat.id d) by lia. induction (Z.to_nat d) as [|j IH]; [f_equal; lia|].
    rewrite Nat2Z.inj_succ. replace (k + Z.succ (Z.of_nat j)) with (k + Z.of_nat j + 1) by lia.
    destruct (get_at m (k + Z.of_nat j)) as [b|] eqn:E.
    - rewrite (upto_step m _ b E). destruct b; [|lia]. specialize (H _ E). lia.
    - apply get_at_none in E. rewrite <- IH. rewrite !upto_all by lia. reflexivity. }
  rewrite <- (G (Z.max k (zlen m) - k)) by lia. f_equal. lia.
Qed.

Lemma Ret_inj {A} (x y : A) : Ret x = Ret y -> x = y.
Proof. congruence. Qed.

Lemma residual_sign dat ce l u r y : residual dat ce l u r = Ret y -> plus_sign y.
Proof.
  unfold residual. intros RES.
  destruct (get_at dat l); [|discriminate RES]. destruct (get_at dat u); [|discriminate RES]. destruct (get_at dat r); [|discriminate RES].
  destruct (get_at ce l); [|discriminate RES]. destruct (get_at ce u); [|discriminate RES]. destruct (get_at ce r); [|discriminate RES].
  cbn [of_option bind] in RES. destruct (_ =? _).
  - apply Ret_inj in RES. rewrite <- RES. apply plus_sign_div; apply plus_sign_of_Z; lia.
  - unfold chk_int in RES. destruct (in_intb _); [|discriminate RES]. cbn [bind] in RES. apply Ret_inj in RES. rewrite <- RES. apply plus_sign_of_Z; lia.
Qed.

(** One pass over the series. *)
Section Pass.
Context (dat ce : list Z) (n : Z).
Hypothesis Ld : zlen dat = n.
Hypothesis Lc : zlen ce = n.
Hypothesis Hd : Forall in_short dat.
Hypothesis Hc : nondecreasing ce.
Hypothesis Hn : 3 <= n.

Definition blamed (msk : list bool) (y : f32) (t : Z) : Prop :=
  exists l m r, bracket msk l m r /\ clear msk m /\ residual dat ce l m r = Ret y /\ (t = l \/ t = m \/ t = r).

Definition winv (msk : list bool) (k : Z) (w : walk) : Prop :=
  (0 <= w_left w < k /\ (w_left w = 0 \/ clear msk (w_left w))) /\
  w_n w = Z.max 0 (Z.min (upto msk k) (nclear msk - 1) - 1) /\
  (plus_sign (w_maxr w) /\ plus_sign (w_ssqr w)) /\
  (w_maxr w = zero32 \/ blamed msk (w_maxr w) (w_t w)).

Lemma suspect_ok msk s m : bracket msk (nl s) m (nr s) -> zlen msk = n ->
  exists t, suspect dat s m = Ret t /\ (t = nl s \/ t = m \/ t = nr s).
Proof.
  intros (A & B & C & _) L. pose proof (clear_range _ _ A). pose proof (clear_range _ _ B). unfold suspect.
  destruct (get_at_some dat (nl s) ltac:(lia)) as (yl & ->). destruct (get_at_some dat m ltac:(lia)) as (ym & ->).
  destruct (get_at_some dat (nr s) ltac:(lia)) as (yr & ->). cbn [of_option bind].
  eexists; split; [reflexivity|]. destruct (_ && _); [tauto|]. destruct (_ && _); tauto.
Qed.

Lemma walk_step_ok msk k w : zlen msk = n -> 1 <= k <= n - 2 -> winv msk k w ->
  exists w', walk_step msk dat ce w k = Ret w' /\ winv msk (k + 1) w'.
Proof.
  intros L Hk ((HL & HL2) & HN & (HM & HS) & HT). unfold walk_step.
  destruct (get_at_some msk k ltac:(lia)) as (b & Eb). rewrite Eb. cbn [of_option bind].
  pose proof (upto_step _ _ _ Eb) as US.
  destruct b; cbn [negb].
  2: { eexists; split; [reflexivity|]. unfold winv. split; [split; [lia|exact HL2]|split; [rewrite US, HN; lia|auto]]. }
  pose proof (search_from_found msk (w_left w) k HL) as F.
  set (s := search_from msk (w_left w) k) in *.
  assert (LV : vl s = false -> upto msk k = 0).
  { intros V. apply upto_none; [lia|]. destruct F as (F & _). rewrite V in F. destruct F as (_ & F).
    intros u Hu. destruct (F u Hu) as [X|X]; [|exact X]. destruct HL2 as [E0|C0].
    - pose proof (clear_range _ _ Hu). lia.
    - specialize (F _ C0). lia. }
  assert (RV : vr s = false -> upto msk (k + 1) = nclear msk).
  { intros V. apply upto_rest; [lia|]. destruct F as (_ & F). rewrite V in F. intros u Hu. specialize (F u Hu). lia. }
  assert (UL : upto msk (k + 1) <= nclear msk).
  { rewrite <- (upto_all msk n) by lia. apply upto_mono. lia. }
  pose proof (upto_nonneg msk k) as UP.
  assert (NL : 0 <= nl s < k + 1 /\ (nl s = 0 \/ clear msk (nl s))).
  { destruct F as (F & _). destruct (vl s).
    - destruct F as (A & B & _). split; [lia|right; exact A].
    - destruct F as (-> & _). split; [lia|exact HL2]. }
  destruct (vl s) eqn:VL; [destruct (vr s) eqn:VR|]; cbn [negb orb].
  - pose proof (found_bracket _ _ _ _ F VL VR) as BR.
    assert (A : clear msk (nl s)) by apply BR. assert (B : clear msk (nr s)) by apply BR.
    assert (C : nl s < k < nr s) by apply BR.
    pose proof (clear_range _ _ A). pose proof (clear_range _ _ B).
    destruct (residual_ok dat ce n Ld Lc Hd Hc (nl s) k (nr s) ltac:(lia) ltac:(lia)) as (y & Ey & Py).
    destruct (suspect_ok _ _ _ BR L) as (t & Et & Tt). rewrite Ey, Et. cbn [bind].
    eexists; split; [reflexivity|]. unfold winv; cbn [w_left w_n w_maxr w_ssqr w_t].
    assert (1 <= upto msk k). { rewrite <- (Z.add_0_l 1). pose proof (upto_clear _ _ k A ltac:(lia)). pose proof (upto_nonneg msk (nl s)). lia. }
    assert (upto msk (k + 1) + 1 <= nclear msk).
    { rewrite <- (upto_all msk n) by lia. pose proof (upto_clear _ _ n B ltac:(lia)). pose proof (upto_mono msk (k + 1) (nr s) ltac:(lia)). lia. }
    split; [exact NL|]. split; [rewrite HN; lia|]. split.
    + split; [destruct (flt _ _); auto|]. apply plus_sign_add; auto. now apply plus_sign_mul.
    + destruct (flt _ _); [|exact HT]. right. exists (nl s), k, (nr s). split; [exact BR|]. split; [exact Eb|]. split; [exact Ey|exact Tt].
  - eexists; split; [reflexivity|]. unfold winv; cbn [w_left w_n w_maxr w_ssqr w_t].
    split; [exact NL|]. split; [|auto]. specialize (RV eq_refl). rewrite HN. lia.
  - eexists; split; [reflexivity|]. unfold winv; cbn [w_left w_n w_maxr w_ssqr w_t].
    split; [exact NL|]. split; [|auto]. specialize (LV eq_refl). rewrite HN. lia.
Qed.

Definition pass (msk : list bool) : outcome walk :=
  ofold (walk_step msk dat ce) (zrange 1 (zlen msk - 2)) (mkWalk 0 0 zero32 zero32 0).

Lemma pass_ok msk : zlen msk = n -> exists w, pass msk = Ret w /\
  w_n w = Z.max 0 (nclear msk - 2) /\ plus_sign (w_maxr w) /\ plus_sign (w_ssqr w) /\
  (w_maxr w = zero32 \/ blamed msk (w_maxr w) (w_t w)).
Proof.
  intros L. unfold pass.
  destruct (ofold_zrange (walk_step msk dat ce) (winv msk) 1 (zlen msk - 2) (mkWalk 0 0 zero32 zero32 0)) as (w & E & I).
  - lia.
  - unfold winv; cbn [w_left w_n w_maxr w_ssqr w_t]. split; [split; [lia|auto]|]. split; [|split; [split; reflexivity|auto]].
    destruct (get_at_some msk 0 ltac:(lia)) as (b & Eb). pose proof (upto_step _ _ _ Eb) as U.
    change (0 + 1) with 1 in U. rewrite U. change (upto msk 0) with 0. destruct b; lia.
  - intros k st Hk. apply walk_step_ok; lia.
  - exists w. split; [exact E|]. destruct I as (_ & HN & (HM & HS) & HT). split; [|auto].
    replace (zlen msk - 2 + 1) with (n - 1) in HN by lia.
    destruct (get_at_some msk (n - 1) ltac:(lia)) as (b & Eb). pose proof (upto_step _ _ _ Eb) as U.
    replace (n - 1 + 1) with n in U by lia. rewrite (upto_all msk n) in U by lia. rewrite HN. destruct b; lia.
Qed.

(** The decision after a pass: None: stop, Some t: drop observation t. *)
Definition noise_of (w : walk) : f32 := f32_sqrt (f32_div (w_ssqr w) (f32_of_Z (w_n w))).
Definition rel_of (w : walk) : f32 := f32_div (w_maxr w) (noise_of w).

Lemma noise_sign w : 0 <= w_n w -> plus_sign (w_ssqr w) -> plus_sign (noise_of w).
Proof. intros A B. apply plus_sign_sqrt. apply plus_sign_div; [exact B|]. apply plus_sign_of_Z. exact A. Qed.

Lemma rel_blamed msk w above : flt above zero32 = false -> (w_maxr w = zero32 \/ blamed msk (w_maxr w) (w_t w)) ->
  flt above (rel_of w) = true -> w_maxr w <> zero32 /\ blamed msk (w_maxr w) (w_t w).
Proof.
  intros HA B HR. assert (NZ : w_maxr w <> zero32); [|destruct B; tauto]. clear B. intros E. unfold rel_of in HR. rewrite E in HR. unfold f32_div in HR.
  change zero32 with (@B754_zero 24 128 false) in *. rewrite (zero_div_not_above 24 128 _ _ above (noise_of w) false false HA) in HR. discriminate.
Qed.

Lemma blamed_clear msk y t : blamed msk y t -> clear msk t.
Proof. intros (l & m & r & (A & B & _) & C & _ & [->|[->| ->]]); auto. Qed.

Lemma nclear_set m t m' : clear m t -> set_at m t false = Some m' -> nclear m' = nclear m - 1.
Proof.
  intros C E. pose proof (clear_range _ _ C) as R.
  assert (G : forall k, 0 <= k <= zlen m -> upto m' k = upto m k - (if t <? k then 1 else 0)).
  { intros k Hk. rewrite <- (Z2Nat.id k) by lia. assert (Hk' : Z.of_nat (Z.to_nat k) <= zlen m) by lia. revert Hk'.
    induction (Z.to_nat k) as [|j IH]; intros Hj.
    - change (upto m' (Z.of_nat 0)) with 0. change (upto m (Z.of_nat 0)) with 0. destruct (Z.ltb_spec t (Z.of_nat 0)); lia.
    - rewrite Nat2Z.inj_succ in *. unfold Z.succ in *. specialize (IH ltac:(lia)).
      destruct (get_at_some m (Z.of_nat j) ltac:(lia)) as (b & Eb). rewrite (upto_step _ _ _ Eb).
      destruct (Z.eq_dec (Z.of_nat j) t) as [Et|Nt].
      + rewrite <- Et in *. rewrite (upto_step m' _ false) by (now apply (get_set_same m)). rewrite C in Eb. injection Eb as <-.
        rewrite IH. destruct (Z.ltb_spec (Z.of_nat j) (Z.of_nat j)); [lia|]. destruct (Z.ltb_spec (Z.of_nat j) (Z.of_nat j + 1)); lia.
      + rewrite (upto_step m' _ b) by (now rewrite (get_set_other m m' t (Z.of_nat j) false E) by auto).
        rewrite IH. destruct (Z.ltb_spec t (Z.of_nat j)); destruct (Z.ltb_spec t (Z.of_nat j + 1)); lia. }
  specialize (G (zlen m) ltac:(lia)). rewrite (upto_all m) in G by lia.
  rewrite (upto_all m') in G by (rewrite (set_at_length m m' t false E); lia).
  destruct (Z.ltb_spec t (zlen m)); lia.
Qed.
End Pass.

Lemma subset_refl m : subset m m. Proof. intros t H; exact H. Qed.
Lemma subset_trans a b c : subset a b -> subset b c -> subset a c. Proof. intros H1 H2 t H. auto. Qed.

Lemma clear_set m t m' b u : set_at m t b = Some m' -> (clear m' u <-> if Z.eq_dec u t then b = true else clear m u).
Proof.
  intros E. unfold clear. destruct (Z.eq_dec u t) as [->|N].
  - rewrite (get_set_same m m' t b E). split; congruence.
  - rewrite (get_set_other m m' t u b E) by auto. tauto.
Qed.

Section Loop.
Context (dat ce : list Z) (n : Z) (above : f32).
Hypothesis Ld : zlen dat = n.
Hypothesis Lc : zlen ce = n.
Hypothesis Hd : Forall in_short dat.
Hypothesis Hc : nondecreasing ce.
Hypothesis Hn : 3 <= n.
Hypothesis Ha : flt above zero32 = false.

(** A pass over [msk] would drop nothing. *)
Definition settled (msk : list bool) : Prop :=
  exists w, pass dat ce msk = Ret w /\ (w_n w < 2 \/ flt above (rel_of w) = false).

(** [t] was dropped on the way from [m] to a smaller mask. *)
Definition justified (m : list bool) (t : Z) : Prop :=
  exists m1 y, subset m1 m /\ blamed dat ce m1 y t /\ 4 <= nclear m1 /\ y <> zero32.

Lemma loop_ok : forall fuel msk removed rel noise k, zlen msk = n -> zlen removed = n ->
  nclear msk < Z.of_nat fuel -> plus_sign noise ->
  exists msk' removed' noise', screen_loop fuel dat ce above msk removed rel noise k = Some (Ret (msk', removed', noise')) /\
    zlen msk' = n /\ zlen removed' = n /\ subset msk' msk /\ plus_sign noise' /\
    (msk' = msk \/ 3 <= nclear msk') /\
    (forall t, clear msk t -> clear msk' t \/ justified msk t) /\
    (forall t, clear removed' t <-> clear removed t \/ clear msk t /\ ~ clear msk' t) /\
    ((flt above rel && (2 <? k) = false /\ msk' = msk) \/ settled msk').
Proof.
  induction fuel as [|f IH]; intros msk removed rel noise k L1 L2 HF HS.
  { pose proof (nclear_nonneg msk). lia. }
  cbn [screen_loop]. destruct (flt above rel && (2 <? k)) eqn:G; cbn [negb].
  2: { exists msk, removed, noise. split; [reflexivity|]. split; [exact L1|]. split; [exact L2|]. split; [apply subset_refl|].
       split; [exact HS|]. split; [auto|]. split; [auto|]. split; [intros t; tauto|]. left; auto. }
  destruct (pass_ok dat ce n Ld Lc Hd Hc Hn msk L1) as (w & Ew & Wn & Wm & Ws & Wt).
  unfold pass in Ew. rewrite Ew.
  destruct (Z.ltb_spec (w_n w) 2) as [Small|Big].
  - exists msk, removed, noise. split.
    { destruct f; cbn [screen_loop]; destruct (Z.ltb_spec 2 (w_n w)); try lia; rewrite andb_false_r; reflexivity. }
    split; [exact L1|]. split; [exact L2|]. split; [apply subset_refl|].
    split; [exact HS|]. split; [auto|]. split; [auto|]. split; [intros t; tauto|]. right. exists w. split; [exact Ew|lia].
  - fold (noise_of w). fold (rel_of w).
    pose proof (noise_sign w ltac:(lia) Ws) as NS.
    destruct (flt above (rel_of w)) eqn:FR.
    + pose proof (rel_blamed dat ce msk w above Ha Wt FR) as (NZ & BL). pose proof (blamed_clear _ _ _ _ _ BL) as CL.
      pose proof (clear_range _ _ CL) as RL.
      assert (Es : set_at msk (w_t w) false = Some (list_set msk (Z.to_nat (w_t w)) false)) by (apply set_at_some; lia).
      assert (Er : set_at removed (w_t w) true = Some (list_set removed (Z.to_nat (w_t w)) true)) by (apply set_at_some; lia).
      rewrite Es, Er.
      set (m1 := list_set msk (Z.to_nat (w_t w)) false) in *. set (r1 := list_set removed (Z.to_nat (w_t w)) true) in *.
      pose proof (set_at_length _ _ _ _ Es) as Lm. pose proof (set_at_length _ _ _ _ Er) as Lr.
      pose proof (nclear_set _ _ _ CL Es) as NC.
      destruct (IH m1 r1 (rel_of w) (noise_of w) (w_n w) ltac:(lia) ltac:(lia) ltac:(lia) NS)
        as (m2 & r2 & nz & E & A1 & A2 & A3 & A4 & A5 & A6 & A7 & A8).
      assert (S1 : subset m1 msk).
      { intros u Hu. apply (clear_set _ _ _ _ u Es) in Hu. destruct (Z.eq_dec u (w_t w)); [discriminate|exact Hu]. }
      exists m2, r2, nz. split; [exact E|]. split; [exact A1|]. split; [exact A2|]. split; [now apply (subset_trans _ m1)|].
      split; [exact A4|]. split; [right; destruct A5 as [->|]; lia|]. split; [|split].
      * intros t Ct. destruct (Z.eq_dec t (w_t w)) as [->|Nt].
        -- right. exists msk, (w_maxr w). split; [apply subset_refl|]. split; [exact BL|split; [lia|exact NZ]].
        -- assert (C1 : clear m1 t) by (apply (clear_set _ _ _ _ t Es); destruct (Z.eq_dec t (w_t w)); tauto).
           destruct (A6 t C1) as [|(m' & y & P1 & P2 & P3)]; [auto|]. right. exists m', y. split; [now apply (subset_trans _ m1)|auto].
      * intros t. rewrite A7. rewrite (clear_set _ _ _ _ t Er). rewrite (clear_set _ _ _ _ t Es).
        destruct (Z.eq_dec t (w_t w)) as [->|Nt].
        -- split; [|auto]. intros _. right. split; [exact CL|]. intros X. apply A3 in X. apply (clear_set _ _ _ _ _ Es) in X.
           destruct (Z.eq_dec (w_t w) (w_t w)); [discriminate|tauto].
        -- tauto.
      * right. destruct A8 as [(G' & ->)|]; [|auto]. rewrite FR in G'. cbn [andb] in G'.
        destruct (Z.ltb_spec 2 (w_n w)); [discriminate|].
        destruct (pass_ok dat ce n Ld Lc Hd Hc Hn m1 ltac:(lia)) as (w1 & Ew1 & Wn1 & _). exists w1. split; [exact Ew1|left; lia].
    + exists msk, removed, (noise_of w). split.
      { destruct f; cbn [screen_loop]; rewrite FR; reflexivity. }
      split; [exact L1|]. split; [exact L2|]. split; [apply subset_refl|].
      split; [exact NS|]. split; [auto|]. split; [auto|]. split; [intros t; tauto|]. right. exists w. auto.
Qed.

Lemma loop_settled fuel msk removed rel noise k msk' removed' noise' : settled msk ->
  screen_loop fuel dat ce above msk removed rel noise k = Some (Ret (msk', removed', noise')) -> msk' = msk.
Proof.
  intros (w & Ew & HW). destruct fuel as [|f]; cbn [screen_loop].
  - destruct (flt above rel && (2 <? k)); cbn [negb]; [discriminate|congruence].
  - destruct (flt above rel && (2 <? k)) eqn:G; cbn [negb]; [|congruence].
    unfold pass in Ew. rewrite Ew. destruct (Z.ltb_spec (w_n w) 2) as [Small|Big].
    + destruct f; cbn [screen_loop]; destruct (Z.ltb_spec 2 (w_n w)); try lia; rewrite andb_false_r; cbn [negb]; congruence.
    + fold (noise_of w). fold (rel_of w). destruct HW as [|HW]; [lia|]. rewrite HW.
      destruct f; cbn [screen_loop]; rewrite HW; cbn [andb negb]; congruence.
Qed.

(** The second pass only adds. *)
Section Second.
Context (nodata : Z) (below noise : f32) (removed m0 : list bool).
Hypothesis Lr : zlen removed = n.
Hypothesis Lm : zlen m0 = n.

Definition restored (t : Z) : Prop :=
  ~ clear removed t /\ (exists y, get_at dat t = Some y /\ y <> nodata) /\
  exists m1 l r y, subset m0 m1 /\ bracket m1 l t r /\ residual dat ce l t r = Ret y /\ flt (f32_div y noise) below = true.

Definition rinv (k : Z) (st : list bool * Z) : Prop :=
  zlen (fst st) = n /\ (0 <= snd st < k /\ (snd st = 0 \/ clear (fst st) (snd st))) /\ subset m0 (fst st) /\
  (forall t, clear (fst st) t -> clear m0 t \/ restored t).

Lemma restore_ok : exists m t, ofold (restore_step dat ce nodata below noise removed) (zrange 1 (zlen m0 - 2)) (m0, 0) = Ret (m, t) /\
  zlen m = n /\ subset m0 m /\ (forall t, clear m t -> clear m0 t \/ restored t).
Proof.
  destruct (ofold_zrange (restore_step dat ce nodata below noise removed) rinv 1 (zlen m0 - 2) (m0, 0)) as ((m & t) & E & I).
  - lia.
  - unfold rinv; cbn [fst snd]. split; [exact Lm|]. split; [split; [lia|auto]|]. split; [apply subset_refl|auto].
  - intros k (m & tl) Hk (L & (HL & HL2) & HS & HC). cbn [fst snd] in *. unfold restore_step.
    destruct (get_at_some m k ltac:(lia)) as (b & Eb). destruct (get_at_some dat k ltac:(lia)) as (yk & Ey).
    destruct (get_at_some removed k ltac:(lia)) as (rm & Erm). rewrite Eb, Ey, Erm. cbn [of_option bind].
    destruct (b || (yk =? nodata) || rm) eqn:SK.
    { eexists; split; [reflexivity|]. unfold rinv; cbn [fst snd]. split; [exact L|]. split; [split; [lia|exact HL2]|auto]. }
    apply orb_false_iff in SK. destruct SK as (SK & ->). apply orb_false_iff in SK. destruct SK as (-> & SK). apply Z.eqb_neq in SK.
    pose proof (search2_from_found m tl k HL) as F. set (s := search2_from m tl k) in *.
    assert (NL : 0 <= nl s < k + 1 /\ (nl s = 0 \/ clear m (nl s))).
    { destruct F as (F & _). destruct (vl s).
      - destruct F as (A & B & _). split; [lia|right; exact A].
      - destruct F as (-> & _). split; [lia|exact HL2]. }
    destruct (negb (vl s) || negb (vr s)) eqn:V.
    { eexists; split; [reflexivity|]. unfold rinv; cbn [fst snd]. auto. }
    apply orb_false_iff in V. destruct V as (V1 & V2). apply negb_false_iff in V1, V2.
    pose proof (found_bracket _ _ _ _ F V1 V2) as BR. pose proof BR as (A & B & C & D).
    pose proof (clear_range _ _ A). pose proof (clear_range _ _ B).
    destruct (residual_ok dat ce n Ld Lc Hd Hc (nl s) k (nr s) ltac:(lia) ltac:(lia)) as (y & Er & Py). rewrite Er. cbn [bind].
    destruct (flt (f32_div y noise) below) eqn:FB.
    2: { eexists; split; [reflexivity|]. unfold rinv; cbn [fst snd]. auto. }
    assert (Es : set_at m k true = Some (list_set m (Z.to_nat k) true)) by (apply set_at_some; lia).
    rewrite Es. cbn [of_option bind]. eexists; split; [reflexivity|]. unfold rinv; cbn [fst snd].
    pose proof (set_at_length _ _ _ _ Es).
    assert (S1 : subset m (list_set m (Z.to_nat k) true)).
    { intros u Hu. apply (clear_set _ _ _ _ u Es). destruct (Z.eq_dec u k); auto. }
    split; [lia|]. split; [split; [lia|]|split].
    + destruct NL as (_ & [|]); auto.
    + now apply (subset_trans _ m).
    + intros u Hu. apply (clear_set _ _ _ _ u Es) in Hu. destruct (Z.eq_dec u k) as [->|]; [|auto]. right.
      split; [unfold clear; rewrite Erm; discriminate|]. split; [eauto|]. exists m, (nl s), (nr s), y. auto.
  - exists m, t. split; [exact E|]. destruct I as (A & _ & B & C). auto.
Qed.
End Second.

(** The whole function. *)
Lemma clear_falses {A} (m : list A) t : ~ clear (map (fun _ => false) m) t.
Proof.
  unfold clear. intros H. apply get_at_In in H. apply in_map_iff in H. destruct H as (x & X & _). discriminate.
Qed.

Theorem screen_ok fuel below nodata masked msk : zlen msk = n -> zlen msk < Z.of_nat fuel ->
  exists m, screen_noise fuel above below nodata masked msk dat ce = Some (Ret m) /\ zlen m = n /\
    (subset msk m \/ 3 <= nclear m) /\
    (forall t, clear msk t -> clear m t \/ justified msk t) /\
    (forall t, clear m t -> clear msk t \/ exists noise r0 m0, plus_sign noise /\ restored nodata below noise r0 m0 t) /\
    (forall t, clear m t -> ~ clear msk t -> feq below zero32 = false).
Proof.
  intros L HF. unfold screen_noise.
  assert (TRIV : exists m, Some (Ret msk) = Some (Ret m) /\ zlen m = n /\ (subset msk m \/ 3 <= nclear m) /\
    (forall t, clear msk t -> clear m t \/ justified msk t) /\
    (forall t, clear m t -> clear msk t \/ exists noise r0 m0, plus_sign noise /\ restored nodata below noise r0 m0 t) /\
    (forall t, clear m t -> ~ clear msk t -> feq below zero32 = false)).
  { exists msk. split; [reflexivity|]. split; [exact L|]. split; [left; apply subset_refl|]. split; [auto|]. split; [auto|]. intros t A B. contradiction. }
  destruct (feq above zero32 && feq below zero32); [exact TRIV|]. destruct (zlen msk <? 3); [exact TRIV|].
  destruct masked; [exact TRIV|]. clear TRIV.
  set (R0 := map (fun _ => false) msk).
  assert (LR : zlen R0 = n) by (unfold R0, zlen; rewrite map_length; exact L).
  destruct (loop_ok fuel msk R0 max32 max32 (zlen msk) L LR) as (m1 & r1 & nz & E & A1 & A2 & A3 & A4 & A5 & A6 & A7 & _).
  { pose proof (nclear_le msk). lia. }
  { reflexivity. }
  rewrite E. destruct (feq nz max32).
  - exists m1. split; [reflexivity|]. split; [exact A1|]. split; [destruct A5 as [->|]; [left; apply subset_refl|auto]|].
    split; [auto|]. split; [auto|]. intros t P Q. exfalso. auto.
  - destruct (restore_ok nodata below nz r1 m1 A2 A1) as (m & t & E2 & B1 & B2 & B3). rewrite E2. cbn [bind fst].
    exists m. split; [reflexivity|]. split; [exact B1|]. split.
    { destruct A5 as [->|A5]; [auto|]. right. transitivity (nclear m1); [exact A5|].
      assert (G : forall k, 0 <= k -> upto m1 k <= upto m k).
      { intros k Hk. rewrite <- (Z2Nat.id k) by lia. induction (Z.to_nat k) as [|j IH]; [apply Z.le_refl|].
        rewrite Nat2Z.inj_succ. unfold Z.succ. destruct (Z_lt_ge_dec (Z.of_nat j) n) as [Hj|Hj].
        - destruct (get_at_some m1 (Z.of_nat j) ltac:(lia)) as (b & Eb). destruct (get_at_some m (Z.of_nat j) ltac:(lia)) as (b' & Eb').
          rewrite (upto_step _ _ _ Eb), (upto_step _ _ _ Eb'). destruct b; [specialize (B2 _ Eb); unfold clear in B2; rewrite Eb' in B2; injection B2 as ->; lia|].
          destruct b'; lia.
        - rewrite !(upto_all _ (Z.of_nat j)) in IH by lia. rewrite !upto_all by lia. exact IH. }
      specialize (G n ltac:(lia)). rewrite !upto_all in G by lia. exact G. }
    split. { intros u Hu. destruct (A6 u Hu); auto. }
    split. { intros u Hu. destruct (B3 u Hu); [auto|]. right. exists nz, r1, m1. auto. }
    intros u Hu Nu. destruct (B3 u Hu) as [X|X]; [exfalso; auto|].
    destruct X as (_ & _ & (mm & l & r & y & _ & BB & RES & FB)).
    destruct (feq below zero32) eqn:FE; [|reflexivity]. exfalso.
    assert (PY : plus_sign y).
    { exact (residual_sign _ _ _ _ _ _ RES). }
    assert (Z0 : exists sg, below = B754_zero sg).
    { clear - FE. destruct below as [sg|[]| |[] mm1 ex BB1]; cbn in FE; try discriminate FE. eauto. }
    destruct Z0 as (sg & ->). rewrite plus_sign_flt in FB; [discriminate|]. now apply plus_sign_div.
Qed.

Theorem screen_idempotent fuel below nodata masked msk m m' : zlen msk = n -> zlen msk < Z.of_nat fuel -> feq below zero32 = true ->
  screen_noise fuel above below nodata masked msk dat ce = Some (Ret m) ->
  screen_noise fuel above below nodata masked m dat ce = Some (Ret m') -> m' = m.
Proof.
  intros L HF HB E1 E2.
  destruct (screen_ok fuel below nodata masked msk L HF) as (m0 & E0 & Lm & _ & _ & _ & S0). rewrite E1 in E0. injection E0 as <-.
  destruct (screen_ok fuel below nodata masked m Lm ltac:(lia)) as (m0 & E0 & Lm' & _ & _ & _ & S1). rewrite E2 in E0. injection E0 as <-.
  unfold screen_noise in E1, E2.
  destruct (feq above zero32 && feq below zero32); [congruence|]. rewrite Lm in E2. rewrite L in E1.
  destruct (n <? 3); [congruence|]. destruct masked; [congruence|].
  set (R0 := map (fun _ => false) msk) in *. set (R1 := map (fun _ => false) m) in *.
  assert (LR0 : zlen R0 = n) by (unfold R0, zlen; rewrite map_length; exact L).
  assert (LR1 : zlen R1 = n) by (unfold R1, zlen; rewrite map_length; exact Lm).
  destruct (loop_ok fuel msk R0 max32 max32 n L LR0) as (m1 & r1 & nz & E & A1 & A2 & A3 & A4 & A5 & A6 & A7 & A8).
  { pose proof (nclear_le msk). lia. } { reflexivity. }
  rewrite E in E1.
  (* the second pass adds nothing *)
  assert (M1 : m1 = m).
  { destruct (feq nz max32); [congruence|].
    destruct (restore_ok nodata below nz r1 m1 A2 A1) as (mm & t & E3 & B1 & B2 & B3). rewrite E3 in E1. cbn [bind fst] in E1.
    injection E1 as <-. apply get_at_ext; [lia|]. intros i Hi.
    destruct (get_at_some m1 i ltac:(lia)) as (b & Eb). destruct (get_at_some mm i ltac:(lia)) as (b' & Eb'). rewrite Eb, Eb'.
    destruct b.
    - specialize (B2 i Eb). unfold clear in B2. congruence.
    - destruct b'; [|reflexivity]. exfalso.
      destruct (get_at_some msk i ltac:(lia)) as ([|] & Em).
      + assert (RR : clear r1 i) by (apply A7; right; split; [exact Em|unfold clear; rewrite Eb; discriminate]).
        destruct (B3 i Eb') as [X|X]; [unfold clear in X; congruence|]. destruct X as (X & _). auto.
      + specialize (S0 i Eb'). unfold clear in S0. rewrite S0 in HB; [discriminate|]. rewrite Em. discriminate. }
  subst m1.
  destruct (loop_ok fuel m R1 max32 max32 n Lm LR1) as (m2 & r2 & nz2 & E' & C1 & C2 & C3 & C4 & C5 & C6 & C7 & _).
  { pose proof (nclear_le m). lia. } { reflexivity. }
  assert (M2 : m2 = m).
  { destruct A8 as [(G & _)|ST].
    - destruct fuel; cbn [screen_loop] in E'; rewrite G in E'; cbn [negb] in E'; congruence.
    - exact (loop_settled _ _ _ _ _ _ _ _ _ ST E'). }
  subst m2. rewrite E' in E2. destruct (feq nz2 max32); [congruence|].
  destruct (restore_ok nodata below nz2 r2 m C2 Lm) as (mm & t & E3 & B1 & B2 & B3). rewrite E3 in E2. cbn [bind fst] in E2.
  injection E2 as <-. apply get_at_ext; [lia|]. intros i Hi.
  destruct (get_at_some m i ltac:(lia)) as (b & Eb). destruct (get_at_some mm i ltac:(lia)) as (b' & Eb'). rewrite Eb, Eb'.
  destruct b, b'; auto.
  - specialize (B2 i Eb). unfold clear in B2. congruence.
  - specialize (S1 i Eb'). unfold clear in S1. rewrite S1 in HB; [discriminate|]. rewrite Eb. discriminate.
Qed.
End Loop.
