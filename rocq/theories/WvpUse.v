(** Proofs about days, monthly means and the use of the tables. *)
From Coq Require Import Reals Lra Lia ZifyBool.
From Verif Require Import Base BaseFacts CStr Loops LoopsFacts RoundModel RoundFacts StatsModel StatsSpec StatsProofs L1Model L1Spec L1Proofs DateModel WvpModel WvpSpec WvpProofs.
#[local] Open Scope Z_scope.

(** ** The calendar *)
Lemma is_day_mlen y m d : is_day (y, m, d) <-> 1 <= m <= 12 /\ 1 <= d <= mlen y m.
Proof.
  split.
  - intros H. inversion H as [y' m' d' I D|y' m' d' I D|y' d' D|y' L]; subst.
    + cbn [In] in I. unfold mlen. repeat (destruct I as [<-|I]; [cbn; lia|]). contradiction.
    + cbn [In] in I. unfold mlen. repeat (destruct I as [<-|I]; [cbn; lia|]). contradiction.
    + unfold mlen. cbn [Z.eqb Pos.eqb]. destruct (_ && _); lia.
    + destruct L as (L1 & L2). unfold mlen. cbn [Z.eqb Pos.eqb]. destruct ((y mod 4 =? 0) && (negb (y mod 100 =? 0) || (y mod 400 =? 0))) eqn:E; [lia|]. clear -L1 L2 E. apply andb_false_iff in E as [E|E]; [lia|]. apply orb_false_iff in E as (E1 & E2). lia.
  - intros (M & D). unfold mlen in D. destruct (m =? 2) eqn:E2.
    + replace m with 2 in * by lia. destruct ((y mod 4 =? 0) && (negb (y mod 100 =? 0) || (y mod 400 =? 0))) eqn:E.
      * destruct (Z.eq_dec d 29) as [->|N]; [|apply day_28; lia]. apply day_29. apply andb_true_iff in E as (A & B). apply orb_true_iff in B. split; [lia|]. destruct B as [B|B]; [left|right]; lia.
      * apply day_28. lia.
    + destruct ((m =? 4) || (m =? 6) || (m =? 9) || (m =? 11)) eqn:E.
      * apply day_30; [|lia]. cbn [In]. lia.
      * apply day_31; [|lia]. cbn [In]. lia.
Qed.
Definition yearday (y : Z) : Z := 365 * y + y / 4 - y / 100 + y / 400.
Lemma yearday_mono a b : a <= b -> yearday a <= yearday b.
Proof.
  intros H. unfold yearday. assert (E : forall y, y / 100 = y / 4 / 25) by (intros; rewrite Z.div_div by lia; reflexivity). assert (E4 : forall y, y / 400 = y / 4 / 25 / 4) by (intros; rewrite !Z.div_div by lia; reflexivity).
  rewrite !E, !E4. assert (a / 4 <= b / 4) by (apply Z.div_le_mono; lia). set (p := a / 4) in *. set (q := b / 4) in *. clearbody p q. assert (p / 25 <= q / 25) by (apply Z.div_le_mono; lia).
  assert (p / 25 / 4 <= q / 25 / 4) by (apply Z.div_le_mono; lia). assert (p - p / 25 <= q - q / 25) by lia. lia.
Qed.
Lemma yearday_succ y : yearday (y + 1) = yearday y + 337 + mlen (y + 1) 2.
Proof.
  unfold yearday, mlen. cbn [Z.eqb Pos.eqb]. destruct (((y + 1) mod 4 =? 0) && (negb ((y + 1) mod 100 =? 0) || ((y + 1) mod 400 =? 0))) eqn:E.
  - apply andb_true_iff in E as (A & B). apply orb_true_iff in B. lia.
  - apply andb_false_iff in E. destruct E as [A|B]; [lia|]. apply orb_false_iff in B. lia.
Qed.
(** Years and months counted from March. *)
Definition myear (y m : Z) : Z := if m <=? 2 then y - 1 else y.
Definition mpos (m : Z) : Z := (m + 9) mod 12.
Lemma number_eq y m d : number (y, m, d) = yearday (myear y m) + (153 * mpos m + 2) / 5 + d.
Proof. reflexivity. Qed.
Lemma month_cases m : 1 <= m <= 12 -> m = 1 \/ m = 2 \/ m = 3 \/ m = 4 \/ m = 5 \/ m = 6 \/ m = 7 \/ m = 8 \/ m = 9 \/ m = 10 \/ m = 11 \/ m = 12.
Proof. lia. Qed.
Lemma month_step y m : 1 <= m <= 12 -> m <> 2 -> mpos m <= 10 /\ (153 * mpos m + 2) / 5 + mlen y m = (153 * (mpos m + 1) + 2) / 5.
Proof. intros M N. destruct (month_cases m M) as [->|[->|[->|[->|[->|[->|[->|[->|[->|[->|[->| ->]]]]]]]]]]]; try lia; (split; [cbv; congruence|reflexivity]). Qed.
Lemma mpos_succ m : 1 <= m <= 12 -> m <> 2 -> m <> 12 -> mpos (m + 1) = mpos m + 1.
Proof. intros M A B. destruct (month_cases m M) as [->|[->|[->|[->|[->|[->|[->|[->|[->|[->|[->| ->]]]]]]]]]]]; try lia; reflexivity. Qed.
Lemma mktime_id n y m d : (0 < n)%nat -> d <= mlen y m -> mktime n y m d = (y, m, d).
Proof. intros N D. destruct n; [lia|]. cbn [mktime]. replace (d <=? mlen y m) with true by lia. reflexivity. Qed.
Lemma mlen_pos y m : 28 <= mlen y m.
Proof. unfold mlen. repeat destruct (_ : bool); lia. Qed.
Lemma date_plus_ok t : is_day t -> is_day (date_plus t) /\ number (date_plus t) = number t + 1.
Proof.
  destruct t as ((y & m) & d). intros H. apply is_day_mlen in H as (M & D). unfold date_plus. rewrite (mktime_id 4 y m d) by lia. cbn [mktime].
  destruct (d + 1 <=? mlen y m) eqn:E. { split; [apply is_day_mlen; lia|]. rewrite !number_eq. lia. }
  assert (d = mlen y m) by lia. destruct (m =? 12) eqn:E12.
  - replace m with 12 in * by lia. replace (d + 1 - mlen y 12) with 1 by lia. pose proof (mlen_pos (y + 1) 1). replace (1 <=? mlen (y + 1) 1) with true by lia. split; [apply is_day_mlen; lia|].
    rewrite !number_eq. unfold myear. cbn [Z.leb Z.compare Pos.compare Pos.compare_cont]. replace (y + 1 - 1) with y by lia. pose proof (month_step y 12 ltac:(lia) ltac:(lia)) as (_ & S). change (mpos 12) with 9 in *. change (mpos 1) with 10. subst d. lia.
  - replace (d + 1 - mlen y m) with 1 by lia. pose proof (mlen_pos y (m + 1)). replace (1 <=? mlen y (m + 1)) with true by lia. split; [apply is_day_mlen; lia|]. rewrite !number_eq.
    destruct (Z.eq_dec m 2) as [->|N].
    + change (2 + 1) with 3. unfold myear. cbn [Z.leb Z.compare Pos.compare Pos.compare_cont]. change (mpos 3) with 0. change (mpos 2) with 11. pose proof (yearday_succ (y - 1)) as Y. replace (y - 1 + 1) with y in Y by lia. change ((153 * 0 + 2) / 5) with 0. change ((153 * 11 + 2) / 5) with 337. lia.
    + pose proof (month_step y m M N) as (_ & S). pose proof (mpos_succ m M N ltac:(lia)) as P. rewrite P. assert (Q : myear y (m + 1) = myear y m) by (unfold myear; destruct (m + 1 <=? 2) eqn:?, (m <=? 2) eqn:?; lia). rewrite Q. lia.
Qed.
Lemma in_year y m d : is_day (y, m, d) -> yearday (myear y m) < number (y, m, d) <= yearday (myear y m + 1).
Proof.
  intros H. apply is_day_mlen in H as (M & D). rewrite number_eq, yearday_succ. pose proof (mlen_pos (myear y m + 1) 2). assert (0 <= mpos m <= 11) by (unfold mpos; lia). split; [lia|].
  destruct (Z.eq_dec m 2) as [->|N].
  - unfold myear. cbn [Z.leb Z.compare Pos.compare Pos.compare_cont]. change (mpos 2) with 11. change ((153 * 11 + 2) / 5) with 337. replace (y - 1 + 1) with y by lia. lia.
  - pose proof (month_step y m M N) as (L & S). assert ((153 * (mpos m + 1) + 2) / 5 <= 337) by lia. lia.
Qed.
Lemma number_inj t e : is_day t -> is_day e -> number t = number e -> t = e.
Proof.
  destruct t as ((y & m) & d), e as ((y2 & m2) & d2). intros T E N. pose proof (in_year y m d T) as T1. pose proof (in_year y2 m2 d2 E) as E1.
  assert (Y : myear y m = myear y2 m2).
  { destruct (Z.lt_trichotomy (myear y m) (myear y2 m2)) as [L|[Q|L]]; auto.
    - pose proof (yearday_mono (myear y m + 1) (myear y2 m2) ltac:(lia)). lia.
    - pose proof (yearday_mono (myear y2 m2 + 1) (myear y m) ltac:(lia)). lia. }
  apply is_day_mlen in T as (M & D). apply is_day_mlen in E as (M2 & D2). rewrite !number_eq, Y in N.
  assert (P : mpos m = mpos m2).
  { destruct (Z.lt_trichotomy (mpos m) (mpos m2)) as [L|[Q|L]]; auto; exfalso.
    - assert (m <> 2). { intros ->. change (mpos 2) with 11 in L. unfold mpos in L. lia. } pose proof (month_step y m M H) as (_ & S). assert ((153 * (mpos m + 1) + 2) / 5 <= (153 * mpos m2 + 2) / 5) by (apply Z.div_le_mono; lia). lia.
    - assert (m2 <> 2). { intros ->. change (mpos 2) with 11 in L. unfold mpos in L. lia. } pose proof (month_step y2 m2 M2 H) as (_ & S). assert ((153 * (mpos m2 + 1) + 2) / 5 <= (153 * mpos m + 2) / 5) by (apply Z.div_le_mono; lia). lia. }
  assert (m = m2) by (unfold mpos in P; clear -P M M2; lia). subst m2. assert (y = y2) by (unfold myear in Y; destruct (m <=? 2); lia). subst y2. assert (d = d2) by lia. congruence.
Qed.
Lemma same_day_eq t e : same_day t e = true <-> t = e.
Proof. destruct t as ((y & m) & d), e as ((y2 & m2) & d2). unfold same_day. rewrite !andb_true_iff. split; [intros ((A & B) & C); repeat f_equal; lia|intros [= -> -> ->]; lia]. Qed.
Lemma days_ok e : is_day e -> forall n fuel t, is_day t -> number e = number t + Z.of_nat n -> (n < fuel)%nat ->
  exists l, days fuel t e = Some l /\ map number l = zrange (number t) (number e) /\ Forall is_day l.
Proof.
  intros E. induction n as [|n IH]; intros fuel t T N F; (destruct fuel as [|fuel]; [lia|]); cbn [days].
  - replace (same_day t e) with true. 2:{ symmetry. apply same_day_eq. apply number_inj; auto. lia. } exists [t]. split; auto. split; [|auto]. replace (number e) with (number t) by lia. rewrite zrange_cons, zrange_nil by lia. reflexivity.
  - destruct (same_day t e) eqn:S. { apply same_day_eq in S. subst. lia. }
    pose proof (date_plus_ok t T) as (D & M). destruct (IH fuel (date_plus t)) as (l & -> & L & A); auto; try lia. exists (t :: l). split; auto. split; [|auto]. cbn [map]. rewrite L, M. rewrite (zrange_cons (number t)) by lia. reflexivity.
Qed.
Lemma days_past fuel : forall t e, is_day t -> number e < number t -> days fuel t e = None.
Proof.
  induction fuel as [|k IH]; intros t e T L; cbn [days]; auto. destruct (same_day t e) eqn:S. { apply same_day_eq in S. subst. lia. }
  pose proof (date_plus_ok t T) as (D & M). rewrite IH; auto. lia.
Qed.
Lemma days_never fuel : forall t e, is_day t -> ~ is_day e -> days fuel t e = None.
Proof.
  induction fuel as [|k IH]; intros t e T N; cbn [days]; auto. destruct (same_day t e) eqn:S. { apply same_day_eq in S. congruence. }
  rewrite IH; auto. apply date_plus_ok; auto.
Qed.

(** ** Monthly means *)
Lemma first_then_mean l : l <> [] -> r_mx (first_then l) = mean l.
Proof.
  intros N. destruct (run_var_spec l N) as (E & _). rewrite <- E. f_equal. destruct l as [|x t]; [congruence|].
  unfold first_then, run_var. cbn [feed]. f_equal. unfold var_recurrence. cbn [r_mx r_vx INR]. f_equal; field.
Qed.
Lemma first_then_snoc l v : l <> [] -> first_then (l ++ [v]) = var_recurrence v (first_then l) (INR (S (length l))).
Proof.
  intros N. destruct l as [|x t]; [congruence|]. cbn [app first_then]. rewrite feed_snoc. f_equal.
Qed.
Lemma read_lut_ok : forall coo lut, matching coo lut -> exists w, read_lut coo lut = Ret w /\ forall c, (c < length coo)%nat -> exists x y v, nth_error lut c = Some (x, y, v) /\ nth_error w c = Some v.
Proof.
  induction coo as [|(cx & cy) r IH]; intros lut (L & M); cbn [read_lut]. { exists []. split; auto. cbn. intros; lia. }
  destruct lut as [|((x & y) & v) t]; [cbn in L; lia|]. destruct (M 0%nat cx cy x y v eq_refl eq_refl) as (A & B). cbn [fst snd].
  rewrite (proj2 (Rltb_false _ _) A), (proj2 (Rltb_false _ _) B). cbn [orb]. destruct (IH t) as (w & -> & W). { split; [cbn in L; lia|]. intros c. apply (M (S c)). }
  cbn [bind]. exists (v :: w). split; auto. intros [|c] C; [exists x, y, v; auto|]. apply W. cbn in C. lia.
Qed.
Definition is_state (n : nat) (s : var) (pre : list R) : Prop := n = length pre /\ (pre <> [] -> s = first_then pre).
Lemma gather_month_ok m c coo : (c < length coo)%nat -> forall l n s pre, Forall (fun q => match snd q with None => True | Some lut => matching coo lut end) l -> is_state n s pre ->
  exists vs s', month_values m c l vs /\ gather_month m c coo l n s = Ret (length (pre ++ vs), s') /\ is_state (length (pre ++ vs)) s' (pre ++ vs).
Proof.
  intros C. induction l as [|(t & [lut|]) r IH]; intros n s pre F H; cbn [gather_month].
  - exists [], s. rewrite app_nil_r. destruct H as (-> & H). split; [constructor|]. split; [reflexivity|]. split; auto.
  - inversion F as [|? ? F1 F2]; subst. cbn [snd] in F1. destruct (read_lut_ok coo lut F1) as (w & -> & W). cbn [bind]. destruct t as ((y & m') & d). unfold month_of. cbn [fst snd]. destruct (m' =? m) eqn:E.
    + replace m' with m in * by lia. destruct (W c C) as (x & z & v & G & ->). unfold is_9999. destruct (Req_EM_T v 9999) as [->|NV].
      * destruct (IH n s pre F2 H) as (vs & s' & V & E1 & E2). exists vs, s'. split; [|auto]. eapply mv_nodata; eauto.
      * destruct (IH (S n) (match n with O => mkVar v 0 | _ => var_recurrence v s (INR (S n)) end) (pre ++ [v]) F2) as (vs & s' & V & E1 & E2).
        { destruct H as (-> & H). split; [rewrite app_length; cbn; lia|]. intros _. destruct pre as [|p0 pre]; [reflexivity|]. rewrite first_then_snoc by discriminate. rewrite H by discriminate. reflexivity. }
        exists (v :: vs), s'. rewrite <- app_assoc in E1, E2. split; [eapply mv_take; eauto|]. split; auto.
    + destruct (IH n s pre F2 H) as (vs & s' & V & E1 & E2). exists vs, s'. split; [|auto]. apply mv_other; auto. lia.
  - inversion F as [|? ? F1 F2]; subst. destruct (IH n s pre F2 H) as (vs & s' & V & E1 & E2). exists vs, s'. split; [|auto]. apply mv_none; auto.
Qed.

(** ** The use of the tables *)
Lemma closest_gen cx cy w : forall lines done d v, no_blank lines ->
  (none_near cx cy done /\ d = 9223372036854775808%R /\ v = w) \/ (exists l1 x y l2, done = l1 ++ Some (x, y, v) :: l2 /\ d = dist cx cy x y /\ (d < 3 / 2)%R /\
    (forall x' y' v', In (Some (x', y', v')) l1 -> dist cx cy x y < dist cx cy x' y')%R /\ (forall x' y' v', In (Some (x', y', v')) l2 -> dist cx cy x y <= dist cx cy x' y')%R) ->
  exists d' v', ofold (fun s l => match l with None => UB | Some (x, y, v) => let d := dist cx cy x y in if Rltb d (fst s) && Rltb d (3 / 2) then Ret (d, v) else Ret s end) lines (d, v) = Ret (d', v') /\
    ((none_near cx cy (done ++ lines) /\ v' = w) \/ nearest cx cy (done ++ lines) v').
Proof.
  induction lines as [|[((x & y) & u)|] r IH]; intros done d v B H.
  - exists d, v. cbn [ofold]. rewrite app_nil_r. split; auto. destruct H as [(H & _ & ->)|(l1 & x & y & l2 & -> & -> & L & P & Q)]; [auto|]. right. exists l1, x, y, l2. auto.
  - cbn [ofold fst]. assert (B' : no_blank r) by (intros I; apply B; right; auto). replace (done ++ Some (x, y, u) :: r) with ((done ++ [Some (x, y, u)]) ++ r) by (rewrite <- app_assoc; reflexivity).
    destruct (Rltb (dist cx cy x y) d && Rltb (dist cx cy x y) (3 / 2)) eqn:E; cbn [bind]; apply IH; auto.
    + apply andb_true_iff in E as (E1 & E2). rewrite Rltb_true in E1, E2. right. exists done, x, y, []. split; auto. split; auto. split; auto. split; [|intros ? ? ? []].
      intros x' y' v' I. destruct H as [(H & _)|(l1 & x0 & y0 & l2 & -> & -> & L & P & Q)]. { specialize (H x' y' v' I). lra. }
      apply in_app_iff in I. destruct I as [I|[I|I]]; [specialize (P _ _ _ I); lra|congruence|specialize (Q _ _ _ I); lra].
    + apply andb_false_iff in E. rewrite !Rltb_false in E. destruct H as [(H & -> & ->)|(l1 & x0 & y0 & l2 & -> & -> & L & P & Q)].
      * left. split; auto. intros x' y' v' I. apply in_app_iff in I as [I|[I|[]]]; [eauto|]. injection I as <- <- <-. destruct E; lra.
      * right. exists l1, x0, y0, (l2 ++ [Some (x, y, u)]). split; [rewrite <- app_assoc; reflexivity|]. split; auto. split; auto. split; auto. intros x' y' v' I. apply in_app_iff in I as [I|[I|[]]]; [eauto|]. injection I as <- <- <-. destruct E; lra.
  - exfalso. apply B. left. reflexivity.
Qed.
Lemma closest_ok cx cy w lines : no_blank lines -> exists d v, closest cx cy lines w = Ret (d, v) /\ ((none_near cx cy lines /\ v = w) \/ nearest cx cy lines v).
Proof. intros B. apply (closest_gen cx cy w lines [] 9223372036854775808%R w B). left. split; [intros ? ? ? []|auto]. Qed.
Lemma nearest_unique cx cy lines v w : nearest cx cy lines v -> nearest cx cy lines w -> v = w.
Proof.
  intros (l1 & x & y & l2 & E & L & P & Q) (k1 & x' & y' & k2 & E' & L' & P' & Q'). rewrite E in E'. clear E lines. revert k1 E' P'. induction l1 as [|a l1 IH]; intros [|b k1] E P'; cbn [app] in E.
  - congruence.
  - injection E as <- E. pose proof (P' x y v (or_introl eq_refl)). specialize (Q x' y' w). rewrite E in Q. specialize (Q ltac:(apply in_app_iff; right; left; auto)). lra.
  - injection E as -> E. pose proof (P x' y' w (or_introl eq_refl)). specialize (Q' x y v). rewrite <- E in Q'. specialize (Q' ltac:(apply in_app_iff; right; left; auto)). lra.
  - injection E as -> E. apply (IH ltac:(intros; eapply P; right; eauto) k1 E). intros; eapply P'; right; eauto.
Qed.
Lemma nearest_none cx cy lines v : nearest cx cy lines v -> ~ none_near cx cy lines.
Proof. intros (l1 & x & y & l2 & -> & L & _) N. specialize (N x y v ltac:(apply in_app_iff; right; left; auto)). lra. Qed.
Lemma closest_near cx cy w lines v : no_blank lines -> nearest cx cy lines v -> exists d, closest cx cy lines w = Ret (d, v).
Proof. intros B N. destruct (closest_ok cx cy w lines B) as (d & u & -> & [(H & _)|H]); [exfalso; eapply nearest_none; eauto|]. rewrite (nearest_unique _ _ _ _ _ N H). eauto. Qed.
Lemma closest_far cx cy w lines : no_blank lines -> none_near cx cy lines -> exists d, closest cx cy lines w = Ret (d, w).
Proof. intros B N. destruct (closest_ok cx cy w lines B) as (d & u & -> & [(_ & ->)|H]); [eauto|exfalso; eapply nearest_none; eauto]. Qed.
