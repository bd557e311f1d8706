(** The events of a season. *)
From Coq Require Import Reals Lra.
From Flocq Require Import Core IEEE754.BinarySingleNaN.
From Verif Require Import Base BaseFacts Float FloatFacts FloatInt RoundModel RoundFacts PolModel PolSpec PolFloat PolCum.
#[local] Open Scope Z_scope.

(** The loop over the entries of one season; [prev] is the entry before, [nxt] the one after them. *)
Fixpoint walk (k : pol_par) (prev : option polar) (seg : list polar) (nxt : option polar) (st : season_st) : season_st :=
  match seg with
  | [] => st
  | p :: r => walk k (Some p) r nxt (season_step k prev p (match head r with Some q => Some q | None => nxt end) st)
  end.
Fixpoint walk_int (k : pol_par) (green base : f32) (prev : option polar) (seg : list polar) (a : integrals) : integrals :=
  match seg with [] => a | p :: r => walk_int k green base (Some p) r (integral_step k green base prev p a) end.
Fixpoint last_of (prev : option polar) (l : list polar) : option polar :=
  match l with [] => prev | p :: r => last_of (Some p) r end.

Lemma last_of_app a b prev : last_of prev (a ++ b) = last_of (last_of prev a) b.
Proof. revert prev. induction a as [|p r IH]; intros prev; cbn; auto. Qed.

Lemma pass_split k s A seg B prev st :
  Forall (fun p => p_season p < s) A -> Forall (fun p => p_season p = s) seg -> Forall (fun p => s < p_season p) B ->
  season_pass k s prev (A ++ seg ++ B) st = walk k (last_of prev A) seg (head B) st.
Proof.
  intros FA FS FB. revert prev st. induction FA as [|a A Ha FA IH]; intros prev st.
  - cbn [app last_of]. revert prev st. induction FS as [|p r Hp FS IH]; intros prev st.
    + cbn [app walk]. destruct B as [|b B]; cbn [season_pass head]; [reflexivity|]. inversion FB; subst.
      replace (p_season b <? s) with false by lia. replace (s <? p_season b) with true by lia. reflexivity.
    + cbn [app season_pass walk]. rewrite Hp, Z.ltb_irrefl. rewrite IH.
      destruct r as [|q r]; reflexivity.
  - cbn [app season_pass last_of]. replace (p_season a <? s) with true by lia. apply IH.
Qed.
Lemma int_split k s A seg B green base prev st :
  Forall (fun p => p_season p < s) A -> Forall (fun p => p_season p = s) seg -> Forall (fun p => s < p_season p) B ->
  integral_pass k s green base prev (A ++ seg ++ B) st =
  (walk_int k green base (last_of prev A) seg st,
   match B with [] => None | _ => Some (last_of prev (A ++ seg), B) end).
Proof.
  intros FA FS FB. revert prev st. induction FA as [|a A Ha FA IH]; intros prev st.
  - cbn [app last_of]. revert prev st. induction FS as [|p r Hp FS IH]; intros prev st.
    + cbn [app walk_int last_of]. destruct B as [|b B]; cbn [integral_pass]; [reflexivity|]. inversion FB; subst.
      replace (p_season b <? s) with false by lia. replace (s <? p_season b) with true by lia. reflexivity.
    + cbn [app integral_pass walk_int last_of]. rewrite Hp, Z.ltb_irrefl. rewrite IH. reflexivity.
  - cbn [app integral_pass last_of]. replace (p_season a <? s) with true by lia. rewrite IH. reflexivity.
Qed.

(** Events found first. *)
Lemma walk_first k (g : season_st -> polar) (f : polar -> bool) :
  (forall prev p next st, g (season_step k prev p next st) = first_hit (g st) (f p) p) ->
  forall seg, (forall p, In p seg -> f p = true -> feq (p_cum p) zero32 = false) ->
  forall prev nxt st,
  g (walk k prev seg nxt st) =
  if feq (p_cum (g st)) zero32 then match find f seg with Some p => p | None => g st end else g st.
Proof.
  intros G. induction seg as [|p r IH]; intros H prev nxt st; cbn [walk find].
  - destruct (feq (p_cum (g st)) zero32); reflexivity.
  - rewrite IH by (intros q Q; apply H; right; auto). rewrite G. unfold first_hit.
    destruct (feq (p_cum (g st)) zero32) eqn:E; [|rewrite andb_false_r, E; reflexivity].
    rewrite andb_true_r. destruct (f p) eqn:F; [|rewrite E; reflexivity].
    rewrite (H p) by (auto; left; auto). reflexivity.
Qed.

(** The peak: the first largest value of the growing season. *)
Definition in_season (k : pol_par) (p : polar) : bool := within p (k_start k) (k_end k).
Fixpoint peak_of (k : pol_par) (t : polar) (l : list polar) : polar :=
  match l with [] => t | p :: r => peak_of k (if in_season k p && flt (p_val t) (p_val p) then p else t) r end.
Lemma walk_peak k seg : forall prev nxt st, t_peak (walk k prev seg nxt st) = peak_of k (t_peak st) seg.
Proof. induction seg as [|p r IH]; intros prev nxt st; cbn [walk peak_of]; [reflexivity|]. rewrite IH. reflexivity. Qed.

Lemma walk_app k l1 l2 : forall prev nxt st, walk k prev (l1 ++ l2) nxt st =
  walk k (last_of prev l1) l2 nxt (walk k prev l1 (match head l2 with Some q => Some q | None => nxt end) st).
Proof.
  induction l1 as [|p r IH]; intros prev nxt st; cbn [walk app last_of]; [reflexivity|]. rewrite IH. f_equal. f_equal.
  f_equal. destruct r; reflexivity.
Qed.
Lemma walk_right k l p prev nxt st : feq (p_cum p) (f32_of_Z 1) = true ->
  t_right (walk k prev (l ++ [p]) nxt st) = match nxt with Some q => q | None => p end.
Proof. intros E. rewrite walk_app. cbn [walk head]. cbn [season_step t_right]. rewrite E. reflexivity. Qed.

(** Counts of the windows. *)
Fixpoint count {A} (f : A -> bool) (l : list A) : Z :=
  match l with [] => 0 | a :: r => (if f a then 1 else 0) + count f r end.
Lemma walk_counts k seg : forall prev nxt st,
  n_grow (walk k prev seg nxt st) = n_grow st + count (fun p => within p (k_start k) (k_end k)) seg /\
  n_early (walk k prev seg nxt st) = n_early st + count (fun p => within p (k_start k) (k_mid k)) seg /\
  n_late (walk k prev seg nxt st) = n_late st + count (fun p => within p (k_mid k) (k_end k)) seg.
Proof.
  induction seg as [|p r IH]; intros prev nxt st; cbn [walk count]; [lia|].
  destruct (IH (Some p) nxt (season_step k prev p (match head r with Some q => Some q | None => nxt end) st)) as (A & B & C).
  rewrite A, B, C. cbn [season_step n_grow n_early n_late].
  destruct (within p (k_start k) (k_end k)), (within p (k_start k) (k_mid k)), (within p (k_mid k) (k_end k)); lia.
Qed.
Lemma count_nonneg {A} (f : A -> bool) l : 0 <= count f l.
Proof. induction l as [|a r IH]; cbn [count]; [lia|]. destruct (f a); lia. Qed.
Lemma count_0 {A} (f : A -> bool) l : count f l = 0 <-> (forall a, In a l -> f a = false).
Proof.
  induction l as [|a r IH]; cbn [count]; split; intros H; auto; try lia.
  - intros b []. 
  - pose proof (count_nonneg f r). intros b [<-|B]; [destruct (f a); auto; lia|].
    apply IH; auto. destruct (f a); lia.
  - rewrite (H a) by (left; auto). apply IH. intros b B. apply H. right. auto.
Qed.
Lemma count_pos {A} (f : A -> bool) l : 0 < count f l -> exists a, In a l /\ f a = true.
Proof.
  intros H. destruct (existsb f l) eqn:E; [apply existsb_exists in E; auto|].
  exfalso. enough (count f l = 0) by lia. apply count_0. intros a Ia.
  destruct (f a) eqn:F; auto. rewrite <- E. symmetry. apply existsb_exists. eauto.
Qed.

(** find in lists of ascending dates and shares. *)
Fixpoint asc (l : list Z) : Prop := match l with [] => True | a :: r => Forall (fun b => a <= b) r /\ asc r end.
Lemma find_in {A} (f : A -> bool) l a : find f l = Some a -> In a l /\ f a = true.
Proof. intros H. split; [eapply find_some; eauto|eapply find_some; eauto]. Qed.
Lemma find_exists {A} (f : A -> bool) l a : In a l -> f a = true -> exists b, find f l = Some b.
Proof.
  intros I F. destruct (find f l) as [b|] eqn:E; [eauto|]. exfalso. pose proof (find_none f l E a I). congruence.
Qed.
Lemma find_earlier (f : polar -> bool) l a b : find f l = Some a -> In b l -> f b = true -> asc (map p_ce l) -> p_ce a <= p_ce b.
Proof.
  induction l as [|p r IH]; [discriminate|]. cbn [find map asc]. intros E I F [S1 S2].
  destruct (f p) eqn:Fp.
  - injection E as <-. destruct I as [<-|I]; [lia|]. rewrite Forall_forall in S1. apply S1. apply in_map. auto.
  - destruct I as [<-|I]; [congruence|]. apply IH; auto.
Qed.

#[local] Open Scope R_scope.
Lemma find_earlier_share (f : polar -> bool) l a b : find f l = Some a -> In b l -> f b = true -> rising (map p_cum l) ->
  B2R (p_cum a) <= B2R (p_cum b).
Proof.
  induction l as [|p r IH]; [discriminate|]. cbn [find map rising]. intros E I F [S1 S2].
  destruct (f p) eqn:Fp.
  - injection E as <-. destruct I as [<-|I]; [lra|]. rewrite Forall_forall in S1. apply S1. apply in_map. auto.
  - destruct I as [<-|I]; [congruence|]. apply IH; auto.
Qed.

(** The thresholds of a legal parameterization. *)
(** Where the value is 0 the share does not change; [c] is the share before. *)
Fixpoint flat (c : R) (l : list polar) : Prop :=
  match l with [] => True | p :: r => (B2R (p_val p) = 0 -> B2R (p_cum p) = c) /\ flat (B2R (p_cum p)) r end.

(** A season with shares. *)
Definition shared (seg : list polar) : Prop :=
  seg <> [] /\ Forall (fun p => val_ok (p_val p)) seg /\ share_list (map p_cum seg) /\ flat 0 seg.

Lemma shared_put seg : seg <> [] -> Forall (fun p => val_ok (p_val p)) seg -> (exists p, In p seg /\ 0 < B2R (p_val p)) ->
  shared (put seg (shares_of seg)).
Proof.
  intros N V P.
  assert (length (shares_of seg) = length seg) as Ls by (unfold shares_of; rewrite map_length, sums_length, map_length; auto).
  split; [apply put_nil; auto|]. split; [|split].
  - pose proof (put_fields seg _ Ls) as F. clear - V F. induction F; inversion V; subst; constructor; auto.
    rewrite (same_val _ _ H). auto.
  - assert (forall l cs, length cs = length l -> map p_cum (put l cs) = cs) as M.
    { clear. induction l as [|p r IH]; intros [|c cs] E; cbn in E; try discriminate; [reflexivity|].
      unfold put in *. cbn [combine map fst snd p_cum with_cum]. f_equal. apply IH. lia. }
    rewrite M by auto. apply shares_of_ok; auto.
  - unfold shares_of in *.
    assert (Forall val_ok (map p_val seg)) as V' by (apply Forall_map; exact V).
    assert (map p_val seg <> []) as N' by (destruct seg; [congruence|discriminate]).
    destruct (sums_ok _ N' V') as (S1 & S2 & S3 & _ & S5 & _).
    set (t := last (sums (map p_val seg)) zero32) in *.
    assert (0 < B2R t) as T by (destruct P as (p & I & P); pose proof (S5 (p_val p) (in_map _ _ _ I)); lra).
    assert (forall c l, sum_ok c -> Forall val_ok (map p_val l) -> Forall sum_ok (run_sums c (map p_val l)) ->
      Forall (fun x => B2R x <= B2R t) (run_sums c (map p_val l)) -> B2R c <= B2R t ->
      flat (B2R (f32_div c t)) (put l (map (fun x => f32_div x t) (run_sums c (map p_val l))))) as G.
    { intros c l. revert c. induction l as [|p r IH]; intros c C W R1 R2 R3; [exact I|].
      cbn [map run_sums] in *. unfold put. cbn [combine map flat fst snd p_val p_cum with_cum].
      inversion W; inversion R1; inversion R2; subst. split.
      - intros Z. destruct (add32_R c (p_val p) (proj1 C)) as [_ E];
          [match goal with H : val_ok (p_val p) |- _ => apply H end| |].
        + rewrite Z, Rplus_0_r, rnd32_B2R. destruct C as [_ C]. rewrite top41_val in C. rewrite Rabs_pos_eq by lra.
          pose proof bpow128_big. lra.
        + assert (B2R (f32_add c (p_val p)) = B2R c) as Q by (rewrite E; unfold fadd; rewrite Z, Rplus_0_r; apply rnd32_B2R).
          destruct (share_ok (f32_add c (p_val p)) t) as (_ & _ & E1); auto.
          destruct (share_ok c t) as (_ & _ & E2); auto. rewrite E1, E2, Q. reflexivity.
      - apply IH; auto. }
    destruct seg as [|p r]; [congruence|]. cbn [map sums] in *. unfold put. cbn [combine map flat fst snd p_val p_cum with_cum].
    inversion V'; inversion S1; inversion S3; subst. split.
    + intros Z. destruct (share_ok (p_val p) t) as (_ & _ & E1); auto. rewrite E1, Z. unfold fdiv, Rdiv. rewrite Rmult_0_l. apply rnd32_0.
    + apply (G (p_val p) r); auto.
Qed.

Lemma shared_share seg p : shared seg -> In p seg -> fin (p_cum p) /\ 0 <= B2R (p_cum p) <= 1.
Proof.
  intros (_ & _ & (S & _) & _) I. rewrite Forall_forall in S. apply S. apply in_map. auto.
Qed.
Lemma shared_last seg : shared seg -> exists l p, seg = l ++ [p] /\ B2R (p_cum p) = 1.
Proof.
  intros (N & _ & (_ & _ & L) & _). destruct (exists_last N) as (l & p & ->). exists l, p. split; auto.
  rewrite map_app in L. cbn [map] in L. rewrite last_last in L. exact L.
Qed.
Lemma reached_R seg p t : shared seg -> In p seg -> fin t -> reached p t = true <-> B2R t <= B2R (p_cum p).
Proof. intros S I F. unfold reached. apply fle_R; auto. apply (shared_share seg); auto. Qed.
Lemma within_R seg p a b : shared seg -> In p seg -> fin a -> fin b ->
  within p a b = true <-> B2R a <= B2R (p_cum p) < B2R b.
Proof.
  intros S I Fa Fb. unfold within. rewrite andb_true_iff, (reached_R seg) by auto.
  rewrite flt_R by (auto; apply (shared_share seg); auto). tauto.
Qed.
Lemma above_R seg p : shared seg -> In p seg -> flt zero32 (p_cum p) = true <-> 0 < B2R (p_cum p).
Proof. intros S I. rewrite flt_R; [reflexivity|reflexivity|apply (shared_share seg); auto]. Qed.
Lemma nonzero_R seg p : shared seg -> In p seg -> 0 < B2R (p_cum p) -> feq (p_cum p) zero32 = false.
Proof.
  intros S I H. destruct (feq (p_cum p) zero32) eqn:E; auto. apply feq_R in E; [|apply (shared_share seg); auto|reflexivity].
  cbn in E. lra.
Qed.

(** The peak. *)
Lemma peak_of_max k l : forall t, val_ok (p_val t) -> Forall (fun p => val_ok (p_val p)) l ->
  let q := peak_of k t l in
  B2R (p_val t) <= B2R (p_val q) /\ (forall p, In p l -> in_season k p = true -> B2R (p_val p) <= B2R (p_val q)) /\
  (q = t \/ In q l /\ in_season k q = true /\ B2R (p_val t) < B2R (p_val q)).
Proof.
  induction l as [|p r IH]; intros t T F; cbn [peak_of].
  { split; [lra|]. split; [intros p []|auto]. }
  inversion F as [|? ? Fp Fr]; subst.
  destruct (in_season k p) eqn:E1; cbn [andb].
  - destruct (flt (p_val t) (p_val p)) eqn:E2.
    + apply flt_R in E2; [|apply T|apply Fp]. destruct (IH p Fp Fr) as (I1 & I2 & I3). cbv zeta.
      split; [lra|]. split.
      * intros q [<-|Q] S; [lra|auto].
      * right. destruct I3 as [I3|(I3 & I4 & I5)]; [rewrite I3; repeat split; auto; left; auto|].
        repeat split; auto; [right; auto|lra].
    + destruct (IH t T Fr) as (I1 & I2 & I3). cbv zeta. split; auto. split.
      * intros q [<-|Q] S; [|auto]. destruct (Rle_lt_dec (B2R (p_val p)) (B2R (p_val t))) as [H|H]; [lra|].
        apply flt_R in H; [congruence|apply T|apply Fp].
      * destruct I3 as [I3|(I3 & I4 & I5)]; auto. right. repeat split; auto. right; auto.
  - destruct (IH t T Fr) as (I1 & I2 & I3). cbv zeta. split; auto. split.
    + intros q [<-|Q] S; [congruence|auto].
    + destruct I3 as [I3|(I3 & I4 & I5)]; auto. right. repeat split; auto. right; auto.
Qed.

(** Values are positive where the share rises. *)
Lemma rising_value c l t p : flat c l -> c < B2R t -> (forall q, In q l -> fin (p_cum q)) -> fin t ->
  find (fun q => reached q t) l = Some p -> Forall (fun p => val_ok (p_val p)) l -> 0 < B2R (p_val p).
Proof.
  revert c. induction l as [|x r IH]; intros c Fl C Fi Ft E V; [discriminate|].
  cbn [flat] in Fl. destruct Fl as [F1 F2]. inversion V as [|? ? Vx Vr]; subst. cbn [find] in E.
  destruct (reached x t) eqn:R.
  - injection E as <-. apply fle_R in R; [|auto|apply Fi; left; auto].
    destruct (Rle_lt_or_eq_dec 0 (B2R (p_val x)) ltac:(apply Vx)) as [H|H]; auto. symmetry in H. apply F1 in H. lra.
  - apply (IH (B2R (p_cum x))); auto; [|intros q Q; apply Fi; right; auto].
    destruct (Rle_lt_dec (B2R t) (B2R (p_cum x))) as [H|H]; auto. apply fle_R in H; [unfold reached in R; congruence|auto|apply Fi; left; auto].
Qed.

(** All events of a season with at least one entry in each part of the growing season. *)
Record events (k : pol_par) (seg : list polar) (nxt : option polar) (st : season_st) : Prop := {
  ev_left : find (fun p => flt zero32 (p_cum p)) seg = Some (t_left st);
  ev_start : find (fun p => reached p (k_start k)) seg = Some (t_start st);
  ev_mid : find (fun p => reached p (k_mid k)) seg = Some (t_mid st);
  ev_end : find (fun p => reached p (k_end k)) seg = Some (t_end st);
  ev_right : t_right st = match nxt with Some q => q | None => last seg polar0 end }.

Lemma walk_events k prev seg nxt : thresholds_ok k -> shared seg -> events k seg nxt (walk k prev seg nxt season_st0).
Proof.
  intros (F1 & F2 & F3 & T1 & T2 & T3 & T4) S.
  destruct (shared_last seg S) as (l & e & Es & E1).
  assert (In e seg) as Ie by (rewrite Es; apply in_or_app; right; left; auto).
  assert (forall t, fin t -> 0 < B2R t -> forall p, In p seg -> reached p t = true -> feq (p_cum p) zero32 = false) as NZ.
  { intros t Ft Pt p I R. apply (nonzero_R seg); auto. apply (reached_R seg) in R; auto. lra. }
  assert (forall t, fin t -> B2R t <= 1 -> exists p, find (fun p => reached p t) seg = Some p) as EX.
  { intros t Ft Pt. apply (find_exists _ _ e); auto. apply (reached_R seg); auto. lra. }
  assert (feq (p_cum polar0) zero32 = true) as Z0 by reflexivity.
  constructor.
  - rewrite (walk_first k t_left (fun p => flt zero32 (p_cum p))); [|reflexivity|].
    + cbn [season_st0 t_left]. rewrite Z0.
      destruct (find_exists (fun p => flt zero32 (p_cum p)) seg e Ie) as (p & Ep); [apply (above_R seg); auto; lra|].
      rewrite Ep. reflexivity.
    + intros p I R. apply (nonzero_R seg); auto. apply (above_R seg) in R; auto.
  - rewrite (walk_first k t_start (fun p => reached p (k_start k))); [|reflexivity|apply NZ; auto].
    cbn [season_st0 t_start]. rewrite Z0. destruct (EX (k_start k) F1 ltac:(lra)) as (p & Ep). rewrite Ep. reflexivity.
  - rewrite (walk_first k t_mid (fun p => reached p (k_mid k))); [|reflexivity|apply NZ; auto; lra].
    cbn [season_st0 t_mid]. rewrite Z0. destruct (EX (k_mid k) F2 ltac:(lra)) as (p & Ep). rewrite Ep. reflexivity.
  - rewrite (walk_first k t_end (fun p => reached p (k_end k))); [|reflexivity|apply NZ; auto; lra].
    cbn [season_st0 t_end]. rewrite Z0. destruct (EX (k_end k) F3 ltac:(lra)) as (p & Ep). rewrite Ep. reflexivity.
  - rewrite Es, walk_right, last_last; [reflexivity|].
    apply feq_R; [apply (shared_share seg); auto|apply one32|]. rewrite (proj2 one32). auto.
Qed.

(** The order of the dates. *)
Lemma events_order k seg nxt st : thresholds_ok k -> shared seg -> events k seg nxt st -> asc (map p_ce seg) ->
  (forall q p, nxt = Some q -> In p seg -> (p_ce p <= p_ce q)%Z) ->
  (p_ce (t_left st) <= p_ce (t_start st) <= p_ce (t_mid st))%Z /\
  (p_ce (t_mid st) <= p_ce (t_end st) <= p_ce (t_right st))%Z /\
  (forall p, In p seg -> in_season k p = true -> (p_ce (t_start st) <= p_ce p <= p_ce (t_end st))%Z).
Proof.
  intros (F1 & F2 & F3 & T1 & T2 & T3 & T4) S [EL ES EM EE ER] A N.
  destruct (find_in _ _ _ ES) as [IS HS]. destruct (find_in _ _ _ EM) as [IM HM]. destruct (find_in _ _ _ EE) as [IE HE].
  pose proof HS as RS. apply (reached_R seg) in RS; auto.
  pose proof HM as RM. apply (reached_R seg) in RM; auto.
  pose proof HE as RE. apply (reached_R seg) in RE; auto.
  assert (p_ce (t_left st) <= p_ce (t_start st))%Z.
  { apply (find_earlier _ _ _ _ EL IS); auto. apply (above_R seg); auto. lra. }
  assert (p_ce (t_start st) <= p_ce (t_mid st))%Z.
  { apply (find_earlier _ _ _ _ ES IM); auto. apply (reached_R seg); auto. lra. }
  assert (p_ce (t_mid st) <= p_ce (t_end st))%Z.
  { apply (find_earlier _ _ _ _ EM IE); auto. apply (reached_R seg); auto. lra. }
  assert (p_ce (t_end st) <= p_ce (t_right st))%Z.
  { rewrite ER. destruct nxt as [q|]; [apply (N q); auto|].
    destruct (shared_last seg S) as (l & e & Es & E1). rewrite Es, last_last.
    apply (find_earlier _ _ _ _ EE); auto; [rewrite Es; apply in_or_app; right; left; auto|].
    apply (reached_R seg); auto; [rewrite Es; apply in_or_app; right; left; auto|lra]. }
  split; [lia|]. split; [lia|]. intros p I W. unfold in_season in W. pose proof W as W'.
  apply (within_R seg) in W; auto. split.
  - apply (find_earlier _ _ _ _ ES I); auto. apply (reached_R seg); auto. tauto.
  - destruct (Z.le_gt_cases (p_ce p) (p_ce (t_end st))) as [L|L]; auto. exfalso.
    assert (B2R (p_cum (t_end st)) <= B2R (p_cum p)); [|lra].
    destruct S as (_ & _ & (_ & R & _) & _). clear - A R I IE L. generalize dependent (t_end st). intros e IE L. clear st.
    induction seg as [|x r IH]; [destruct I|]. cbn [map asc rising] in A, R. destruct A as [A1 A2], R as [R1 R2].
    rewrite Forall_forall in A1, R1.
    destruct IE as [IE|IE], I as [I|I].
    + subst. lia.
    + subst. apply R1, in_map; auto.
    + subst. exfalso. pose proof (A1 _ (in_map p_ce _ _ IE)). lia.
    + apply IH; auto.
Qed.

(** The peak lies in the growing season and is its largest value, if the growing season has an entry. *)
Lemma walk_peak_spec k prev seg nxt : thresholds_ok k -> shared seg ->
  (exists p, In p seg /\ in_season k p = true) ->
  let q := t_peak (walk k prev seg nxt season_st0) in
  In q seg /\ in_season k q = true /\ 0 < B2R (p_val q) /\
  (forall p, In p seg -> in_season k p = true -> B2R (p_val p) <= B2R (p_val q)).
Proof.
  intros T S (p & I & W). pose proof (walk_events k prev seg nxt T S) as [_ ES _ _ _].
  destruct T as (F1 & F2 & F3 & T1 & T2 & T3 & T4).
  set (b := t_start (walk k prev seg nxt season_st0)) in *.
  destruct (find_in _ _ _ ES) as [Ib Hb].
  assert (in_season k b = true) as Wb.
  { apply (within_R seg); auto. apply (within_R seg) in W; auto. apply (reached_R seg) in Hb; auto. split; auto.
    assert (reached p (k_start k) = true) as Rp by (apply (reached_R seg); auto; tauto).
    apply Rle_lt_trans with (B2R (p_cum p)); [|tauto]. apply (find_earlier_share _ _ _ p ES I Rp). apply S. }
  assert (0 < B2R (p_val b)) as Pb.
  { apply (rising_value 0 seg (k_start k)); auto; [apply S|intros q Q; apply (shared_share seg); auto|apply S]. }
  cbv zeta. rewrite walk_peak. cbn [season_st0 t_peak].
  destruct (peak_of_max k seg polar0) as (P1 & P2 & P3); [split; [reflexivity|cbn; lra]|apply S|].
  cbv zeta in P1, P2, P3. pose proof (P2 b Ib Wb) as Q.
  destruct P3 as [P3|(P3 & P4 & P5)].
  - exfalso. rewrite P3 in Q. cbn in Q. lra.
  - cbn in P5. auto.
Qed.
