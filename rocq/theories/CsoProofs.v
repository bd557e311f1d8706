From Coq Require Import Reals Lra Sorting.Sorted.
From Flocq Require Import Core.
From Verif Require Import Base BaseFacts Loops LoopsFacts StatsModel StatsSpec StatsProofs ModeModel ModeProofs
  AggModel AggSpec AggProofs DateModel DateSpec DateProofs NoiseProofs InterpProofs CsoModel CsoSpec.
#[local] Open Scope Z_scope.

Lemma get_at_nth {A} (l : list A) i : 0 <= i -> get_at l i = nth_error l (Z.to_nat i).
Proof. intros H. unfold get_at. now replace (i <? 0) with false by lia. Qed.

(** ** Months *)
Lemma month_start_ym y m : 1 <= m <= 12 -> month_start (12 * y + (m - 1)) = 365 * y + md2doy m 1.
Proof.
  intros M. unfold month_start. replace ((12 * y + (m - 1)) / 12) with y by lia.
  replace ((12 * y + (m - 1)) mod 12) with (m - 1) by lia.
  assert (nth (Z.to_nat (m - 1)) [0; 31; 59; 90; 120; 151; 181; 212; 243; 273; 304; 334] 0 + 1 = md2doy m 1); [|lia].
  destruct (month_cases m M) as [->|[->|[->|[->|[->|[->|[->|[->|[->|[->|[->| ->]]]]]]]]]]]; reflexivity.
Qed.
Lemma month_start_succ i : month_start i + 28 <= month_start (i + 1) <= month_start i + 31.
Proof.
  assert (exists y m, 1 <= m <= 12 /\ i = 12 * y + (m - 1)) as (y & m & M & ->).
  { exists (i / 12), (i mod 12 + 1). lia. }
  rewrite month_start_ym by auto.
  destruct (Z.eq_dec m 12) as [->|N].
  - replace (12 * y + (12 - 1) + 1) with (12 * (y + 1) + (1 - 1)) by lia. rewrite month_start_ym by lia.
    change (md2doy 12 1) with 335. change (md2doy 1 1) with 1. lia.
  - replace (12 * y + (m - 1) + 1) with (12 * y + ((m + 1) - 1)) by lia. rewrite month_start_ym by lia.
    assert (md2doy m 1 + 28 <= md2doy (m + 1) 1 <= md2doy m 1 + 31); [|lia]. clear y.
    destruct (month_cases m M) as [->|[->|[->|[->|[->|[->|[->|[->|[->|[->|[->| ->]]]]]]]]]]]; vm_compute; (split; discriminate) || lia.
Qed.
Lemma month_start_12 i : month_start (i + 12) = month_start i + 365.
Proof.
  unfold month_start. replace ((i + 12) / 12) with (i / 12 + 1) by lia. replace ((i + 12) mod 12) with (i mod 12) by lia. lia.
Qed.
Lemma month_start_mono i j : i <= j -> month_start i <= month_start j.
Proof.
  intros L. replace j with (i + Z.of_nat (Z.to_nat (j - i))) by lia. induction (Z.to_nat (j - i)) as [|n IH].
  - rewrite Z.add_0_r. lia.
  - pose proof (month_start_succ (i + Z.of_nat n)). replace (i + Z.of_nat (S n)) with (i + Z.of_nat n + 1) by lia. lia.
Qed.
Lemma month_start_strict i j : i < j -> month_start i < month_start j.
Proof. intros L. pose proof (month_start_succ i). pose proof (month_start_mono (i + 1) j). lia. Qed.

(** ** Number of windows *)
Lemma count_spec step y2 m2 : 1 <= step <= 12 -> 1 <= m2 <= 12 -> forall fuel y m nw,
  1 <= m <= 12 -> (12 * y2 + m2) - (12 * y + m) <= Z.of_nat fuel ->
  exists k, count_windows fuel y m y2 m2 step nw = Ret (nw + k) /\ 0 <= k /\
    (forall j, 0 <= j < k -> 12 * y + m + j * step < 12 * y2 + m2) /\ 12 * y2 + m2 <= 12 * y + m + k * step.
Proof.
  intros ST M2. induction fuel as [|f IH]; intros y m nw M F; cbn [count_windows].
  - destruct ((y <? y2) || (y <=? y2) && (m <? m2)) eqn:C.
    + exfalso. destruct (Z.ltb_spec y y2), (Z.leb_spec y y2), (Z.ltb_spec m m2); try discriminate; lia.
    + exists 0. rewrite Z.add_0_r. split; auto. split; [lia|]. split; [intros; lia|]. lia.
  - destruct ((y <? y2) || (y <=? y2) && (m <? m2)) eqn:C.
    + assert (12 * y + m < 12 * y2 + m2) as LT.
      { destruct (Z.ltb_spec y y2), (Z.leb_spec y y2), (Z.ltb_spec m m2); try discriminate; lia. }
      destruct (Z.gtb_spec (m + step) 12) as [G|G].
      * destruct (IH (y + 1) (m + step - 12) (nw + 1)) as (k & E & K & A & B); [lia|lia|].
        exists (k + 1). rewrite E. split; [f_equal; lia|]. split; [lia|]. split; [|lia].
        intros j J. destruct (Z.eq_dec j 0) as [->|]; [lia|]. specialize (A (j - 1) ltac:(lia)). lia.
      * destruct (IH y (m + step) (nw + 1)) as (k & E & K & A & B); [lia|lia|].
        exists (k + 1). rewrite E. split; [f_equal; lia|]. split; [lia|]. split; [|lia].
        intros j J. destruct (Z.eq_dec j 0) as [->|]; [lia|]. specialize (A (j - 1) ltac:(lia)). lia.
    + exists 0. rewrite Z.add_0_r. split; auto. split; [lia|]. split; [intros; lia|].
      destruct (Z.ltb_spec y y2), (Z.leb_spec y y2), (Z.ltb_spec m m2); try discriminate; lia.
Qed.

(** ** Borders *)
Lemma ce_set_date d y m : 1 <= m <= 12 -> ce (set_date d y m 1) = month_start (12 * y + (m - 1)).
Proof. intros M. rewrite month_start_ym by auto. unfold set_date, set_date_month_day, set_date_year, doy2ce. cbn [ce year]. lia. Qed.
Lemma borders_length step : forall k y m d, length (borders k y m step d) = k.
Proof.
  induction k as [|k IH]; intros y m d; cbn [borders]; auto. destruct (m >? 12); cbn [length]; now rewrite IH.
Qed.
Lemma borders_nth step : 1 <= step <= 12 -> forall k y m d w, 1 <= m <= 24 -> (w < k)%nat ->
  nth_error (map ce (borders k y m step d)) w = Some (month_start (12 * y + (m - 1) + Z.of_nat w * step)).
Proof.
  intros ST. induction k as [|k IH]; intros y m d w M W; [lia|]. cbn [borders].
  destruct (Z.gtb_spec m 12) as [G|G]; cbn [map]; (destruct w as [|w]; cbn [nth_error]; [f_equal|]).
  - rewrite ce_set_date by lia. f_equal. lia.
  - rewrite IH by lia. do 2 f_equal. lia.
  - rewrite ce_set_date by lia. f_equal. lia.
  - rewrite IH by lia. do 2 f_equal. lia.
Qed.
Lemma window_dates_get d1 nw step w : 1 <= step <= 12 -> 1 <= month d1 <= 12 -> 0 <= w <= nw ->
  get_at (map ce (window_dates d1 nw step)) w = Some (month_start (12 * year d1 + (month d1 - 1) + w * step)).
Proof.
  intros ST M W. unfold window_dates. rewrite get_at_nth by lia. rewrite borders_nth by lia. do 2 f_equal. lia.
Qed.
Lemma window_dates_len d1 nw step : 0 <= nw -> zlen (map ce (window_dates d1 nw step)) = nw + 1.
Proof. intros H. unfold zlen, window_dates. rewrite map_length, borders_length. lia. Qed.

Lemma get_at_cons {A} (x : A) l i : 0 < i -> get_at (x :: l) i = get_at l (i - 1).
Proof.
  intros H. rewrite !get_at_nth by lia. replace (Z.to_nat i) with (S (Z.to_nat (i - 1))) by lia. reflexivity.
Qed.
Lemma get_at_0 {A} (x : A) l : get_at (x :: l) 0 = Some x.
Proof. reflexivity. Qed.
Lemma windows_cons a b l : windows (a :: b :: l) = (a, b) :: windows (b :: l).
Proof. reflexivity. Qed.
Lemma windows_get : forall bs w lo hi, get_at (windows bs) w = Some (lo, hi) <->
  get_at bs w = Some lo /\ get_at bs (w + 1) = Some hi.
Proof.
  induction bs as [|a bs IH]; intros w lo hi.
  - cbn. split; [intros H|intros [H _]]; apply get_at_inv in H; cbn in H; lia.
  - destruct bs as [|b bs'].
    + cbn. split; [intros H; apply get_at_inv in H; cbn in H; lia|].
      intros [H1 H2]. apply get_at_inv in H1, H2. cbn in H1, H2. lia.
    + rewrite windows_cons. destruct (Z.ltb_spec w 0) as [N|N].
      { split; [intros H|intros [H _]]; apply get_at_inv in H; lia. }
      destruct (Z.eq_dec w 0) as [->|NZ].
      * rewrite !get_at_0. cbn. split; [intros [= -> ->]; auto|intros [[= ->] [= ->]]; auto].
      * rewrite (get_at_cons (a, b)), (get_at_cons a (b :: bs') w), (get_at_cons a (b :: bs') (w + 1)) by lia. rewrite IH. replace (w - 1 + 1) with w by lia. replace (w + 1 - 1) with w by lia. tauto.
Qed.

(** Borders increasing by index. *)
Definition rising (bs : list Z) : Prop := forall i j a b, get_at bs i = Some a -> get_at bs j = Some b -> i < j -> a < b.
Lemma rising_tl a bs : rising (a :: bs) -> rising bs.
Proof.
  intros H i j x y X Y L. pose proof (get_at_inv _ _ _ X). pose proof (get_at_inv _ _ _ Y).
  apply (H (i + 1) (j + 1)); [..|lia]; rewrite get_at_cons by lia; [replace (i + 1 - 1) with i by lia|replace (j + 1 - 1) with j by lia]; auto.
Qed.
Lemma rising_sorted : forall bs, rising bs <-> StronglySorted Z.lt bs.
Proof.
  induction bs as [|a bs IH]; split; intros H.
  - constructor.
  - intros i j x y X. apply get_at_inv in X. cbn in X. lia.
  - constructor; [apply IH, (rising_tl a), H|]. apply Forall_forall. intros x I. apply In_get_at in I. destruct I as (i & _ & G).
    pose proof (get_at_inv _ _ _ G). apply (H 0 (i + 1)); [reflexivity| |lia].
    rewrite get_at_cons by lia. now replace (i + 1 - 1) with i by lia.
  - apply StronglySorted_inv in H. destruct H as [H F]. apply IH in H. intros i j x y X Y L.
    pose proof (get_at_inv _ _ _ X). rewrite (get_at_cons a bs j) in Y by lia. destruct (Z.eq_dec i 0) as [->|N].
    + injection X as <-. rewrite Forall_forall in F. apply F. eapply get_at_In; eauto.
    + rewrite get_at_cons in X by lia. apply (H (i - 1) (j - 1)); auto. lia.
Qed.

(** ** Ranges of acquisitions *)
Lemma find_skip lo hi t0 t1 l : lo < hi -> forall a t, Forall (fun c => c < lo) a ->
  find_range (a ++ l) t lo hi t0 t1 = find_range l (t + zlen a) lo hi t0 t1.
Proof.
  intros L. induction a as [|c a IH]; intros t F.
  - cbn. f_equal. unfold zlen. cbn. lia.
  - cbn [app find_range]. pose proof (Forall_inv F) as C. cbn beta in C. apply Forall_inv_tail in F.
    replace (lo <=? c) with false by lia. cbn [andb]. replace (hi <=? c) with false by lia.
    rewrite IH by auto. f_equal. rewrite zlen_cons. lia.
Qed.
Lemma find_end lo hi t0 t1 : forall l t, Forall (fun c => hi <= c) l -> find_range l t lo hi t0 t1 = (t0, t1).
Proof.
  intros [|c l] t F; cbn [find_range]; auto. pose proof (Forall_inv F) as C. cbn beta in C.
  replace (c <? hi) with false by lia. rewrite andb_false_r. now replace (hi <=? c) with true by lia.
Qed.
Lemma find_in lo hi l : forall b t t0 t1, 0 <= t -> 0 <= t0 -> Forall (fun c => lo <= c < hi) b ->
  find_range (b ++ l) t lo hi t0 t1 = find_range l (t + zlen b) lo hi t0 (if zlen b =? 0 then t1 else t + zlen b - 1).
Proof.
  induction b as [|c b IH]; intros t t0 t1 T T0 F.
  - unfold zlen. cbn. f_equal. lia.
  - cbn [app find_range]. pose proof (Forall_inv F) as C. cbn beta in C. apply Forall_inv_tail in F.
    replace (lo <=? c) with true by lia. replace (c <? hi) with true by lia. cbn [andb].
    replace (t0 <? 0) with false by lia. rewrite IH by (auto; lia). pose proof (zlen_nonneg b). rewrite zlen_cons.
    replace (1 + zlen b =? 0) with false by lia. f_equal; [lia|].
    destruct (Z.eqb_spec (zlen b) 0); lia.
Qed.
Lemma sorted_split x : forall l, StronglySorted Z.le l ->
  exists a b, l = a ++ b /\ Forall (fun c => c < x) a /\ Forall (fun c => x <= c) b.
Proof.
  induction l as [|c l IH]; intros H.
  - exists [], []. auto.
  - apply StronglySorted_inv in H. destruct H as [H F]. destruct (Z.ltb_spec c x) as [L|L].
    + destruct (IH H) as (a & b & -> & A & B). exists (c :: a), b. auto.
    + exists [], (c :: l). split; auto. split; auto. constructor; auto.
      apply Forall_forall. intros y I. rewrite Forall_forall in F. apply F in I. lia.
Qed.
Lemma sorted_app_r : forall a b, StronglySorted Z.le (a ++ b) -> StronglySorted Z.le b.
Proof.
  induction a as [|x a IH]; intros b H; auto. cbn [app] in H. apply StronglySorted_inv in H. apply IH, H.
Qed.
Lemma split3 lo hi l : lo < hi -> StronglySorted Z.le l -> exists a b c, l = a ++ b ++ c /\
  Forall (fun x => x < lo) a /\ Forall (fun x => lo <= x < hi) b /\ Forall (fun x => hi <= x) c.
Proof.
  intros L H. destruct (sorted_split lo l H) as (a & r & -> & A & R).
  destruct (sorted_split hi r (sorted_app_r _ _ H)) as (b & c & -> & B & C).
  exists a, b, c. split; auto. split; auto. split; auto.
  apply Forall_app in R. destruct R as [R _]. rewrite Forall_forall in *. intros x I. split; auto.
Qed.
Lemma find_range_split lo hi a b c : lo < hi -> Forall (fun x => x < lo) a -> Forall (fun x => lo <= x < hi) b ->
  Forall (fun x => hi <= x) c -> find_range (a ++ b ++ c) 0 lo hi (-1) (-1) =
    if zlen b =? 0 then (-1, -1) else (zlen a, zlen a + zlen b - 1).
Proof.
  intros L A B C. rewrite find_skip by auto. rewrite Z.add_0_l. pose proof (zlen_nonneg a). destruct b as [|x b].
  - unfold zlen at 2. cbn [length app]. apply find_end. auto.
  - cbn [app find_range]. pose proof (Forall_inv B) as X. cbn beta in X. apply Forall_inv_tail in B.
    replace (lo <=? x) with true by lia. replace (x <? hi) with true by lia. cbn [andb].
    change (-1 <? 0) with true. cbn [orb]. rewrite find_in by (auto; lia). rewrite find_end by auto.
    pose proof (zlen_nonneg b). rewrite zlen_cons. replace (1 + zlen b =? 0) with false by lia. f_equal.
    destruct (Z.eqb_spec (zlen b) 0); lia.
Qed.
Lemma get_at_app_cases {A} (a b : list A) i x : get_at (a ++ b) i = Some x ->
  (0 <= i < zlen a /\ get_at a i = Some x) \/ (zlen a <= i /\ get_at b (i - zlen a) = Some x).
Proof.
  intros G. pose proof (get_at_inv _ _ _ G) as R. rewrite get_at_nth in G by lia. unfold zlen in *.
  destruct (Z.ltb_spec i (Z.of_nat (length a))) as [L|L].
  - left. split; [lia|]. rewrite get_at_nth by lia. rewrite nth_error_app1 in G by lia. auto.
  - right. split; [lia|]. rewrite get_at_nth by lia. rewrite nth_error_app2 in G by lia.
    replace (Z.to_nat (i - Z.of_nat (length a))) with (Z.to_nat i - length a)%nat by lia. auto.
Qed.

Definition is_range (ces : list Z) (lo hi : Z) (r : Z * Z) : Prop :=
  (r = (-1, -1) /\ forall c, In c ces -> ~ lo <= c < hi) \/
  (0 <= fst r <= snd r /\ snd r < zlen ces /\ forall t c, get_at ces t = Some c -> (lo <= c < hi <-> fst r <= t <= snd r)).

Lemma find_range_spec ces lo hi : lo < hi -> StronglySorted Z.le ces -> is_range ces lo hi (find_range ces 0 lo hi (-1) (-1)).
Proof.
  intros L H. destruct (split3 lo hi ces L H) as (a & b & c & -> & A & B & C). rewrite find_range_split by auto.
  rewrite Forall_forall in A, B, C. destruct (Z.eqb_spec (zlen b) 0) as [E|E].
  - left. split; auto. destruct b; [|rewrite zlen_cons in E; pose proof (zlen_nonneg b); lia].
    intros x I. cbn [app] in I. apply in_app_or in I. destruct I as [I|I]; [apply A in I|apply C in I]; lia.
  - right. cbn [fst snd]. rewrite !zlen_app. pose proof (zlen_nonneg a). pose proof (zlen_nonneg b). pose proof (zlen_nonneg c).
    split; [lia|]. split; [lia|]. intros t x G. apply get_at_app_cases in G. destruct G as [[T G]|[T G]].
    + apply get_at_In in G. apply A in G. lia.
    + apply get_at_app_cases in G. destruct G as [[T' G]|[T' G]].
      * apply get_at_In in G. apply B in G. lia.
      * apply get_at_In in G. apply C in G. lia.
Qed.

Definition full_range (ces : list Z) (p : Z * Z) : Z * Z := find_range ces 0 (fst p) (snd p) (-1) (-1).
Lemma sorted_get ces i j a b : StronglySorted Z.le ces -> get_at ces i = Some a -> get_at ces j = Some b -> i <= j -> a <= b.
Proof.
  intros H. revert i j. induction H as [|x l H IH F]; intros i j A B L.
  - apply get_at_inv in A. cbn in A. lia.
  - pose proof (get_at_inv _ _ _ A). pose proof (get_at_inv _ _ _ B). destruct (Z.eq_dec i 0) as [->|N].
    + injection A as <-. destruct (Z.eq_dec j 0) as [->|N]; [injection B as <-; lia|].
      rewrite get_at_cons in B by lia. rewrite Forall_forall in F. apply F. eapply get_at_In; eauto.
    + rewrite get_at_cons in A by lia. rewrite get_at_cons in B by lia. apply (IH (i - 1) (j - 1)); auto. lia.
Qed.
Lemma firstn_get {A} (l : list A) k x : In x (firstn (Z.to_nat k) l) -> exists i, 0 <= i < k /\ get_at l i = Some x.
Proof.
  intros I. apply In_nth_error in I. destruct I as (n & G). assert (n < Z.to_nat k)%nat as N.
  { assert (n < length (firstn (Z.to_nat k) l))%nat by (apply nth_error_Some; congruence). rewrite firstn_length in H. lia. }
  exists (Z.of_nat n). split; [lia|]. rewrite get_at_nth by lia. rewrite Nat2Z.id.
  rewrite <- (firstn_skipn (Z.to_nat k) l). rewrite nth_error_app1; auto. apply nth_error_Some. congruence.
Qed.
Lemma ranges_eq ces : StronglySorted Z.le ces -> forall bs tl, rising bs -> 0 <= tl <= zlen ces ->
  (forall lo, get_at bs 0 = Some lo -> Forall (fun c => c < lo) (firstn (Z.to_nat tl) ces)) ->
  ranges ces tl bs = map (full_range ces) (windows bs).
Proof.
  intros SO. induction bs as [|lo bs IH]; intros tl RI TL BE; [reflexivity|]. destruct bs as [|hi bs']; [reflexivity|].
  rewrite windows_cons. cbn [map ranges]. cbn [ranges] in IH.
  assert (lo < hi) as LH by (apply (RI 0 1); [reflexivity|reflexivity|lia]).
  assert (find_range (skipn (Z.to_nat tl) ces) tl lo hi (-1) (-1) = full_range ces (lo, hi)) as E.
  { unfold full_range. cbn [fst snd]. rewrite <- (firstn_skipn (Z.to_nat tl) ces) at 2.
    rewrite find_skip; auto. f_equal. unfold zlen in *. rewrite firstn_length. lia. }
  rewrite E. f_equal. pose proof (find_range_spec ces lo hi LH SO) as R. unfold full_range in *. cbn [fst snd] in *.
  set (r := find_range ces 0 lo hi (-1) (-1)) in *.
  apply IH.
  - apply (rising_tl lo), RI.
  - destruct R as [[R _]|(R1 & R2 & _)]; [rewrite R; cbn [snd]; change (0 <=? -1) with false; cbn; lia|].
    replace (0 <=? snd r) with true by lia. lia.
  - intros lo' G. injection G as <-. destruct R as [[R _]|(R1 & R2 & R3)].
    + rewrite R. cbn [snd]. change (0 <=? -1) with false. cbn match. specialize (BE lo eq_refl).
      rewrite Forall_forall in *. intros x I. apply BE in I. lia.
    + replace (0 <=? snd r) with true by lia. apply Forall_forall. intros x I. apply firstn_get in I.
      destruct I as (i & I & G). destruct (get_at_some ces (snd r)) as (y & Y); [lia|].
      pose proof (proj2 (R3 _ _ Y) ltac:(lia)). pose proof (sorted_get ces i (snd r) x y SO G Y ltac:(lia)). lia.
Qed.

(** ** Gaps *)
Lemma gaps_positive : forall ds lo hi, Forall (fun g => 0 < g) (gaps lo ds hi).
Proof.
  induction ds as [|d ds IH]; intros lo hi; cbn [gaps].
  - destruct (Z.ltb_spec lo hi); auto. constructor; auto. lia.
  - destruct (Z.ltb_spec lo d); auto. constructor; auto. lia.
Qed.
Lemma gaps_total : forall ds lo hi, lo <= hi -> Forall (fun d => d <= hi) ds -> total (gaps lo ds hi) = hi - lo.
Proof.
  induction ds as [|d ds IH]; intros lo hi L F; cbn [gaps].
  - destruct (Z.ltb_spec lo hi); cbn; lia.
  - pose proof (Forall_inv F) as D. cbn beta in D. apply Forall_inv_tail in F.
    destruct (Z.ltb_spec lo d); [|apply IH; auto]. cbn [total fold_right]. fold (total (gaps d ds hi)). rewrite IH by auto. lia.
Qed.
Lemma gaps_nonnil : forall ds lo hi, lo < hi -> Forall (fun d => d < hi) ds -> gaps lo ds hi <> [].
Proof.
  induction ds as [|d ds IH]; intros lo hi L F; cbn [gaps].
  - replace (lo <? hi) with true by lia. discriminate.
  - pose proof (Forall_inv F) as D. cbn beta in D. apply Forall_inv_tail in F.
    destruct (lo <? d); [discriminate|]. apply IH; auto.
Qed.
Lemma total_bounds l : Forall (fun g => 0 < g) l -> zlen l <= total l /\ Forall (fun g => g <= total l) l.
Proof.
  induction l as [|x l IH]; intros F; [split; [cbn; lia|auto]|]. pose proof (Forall_inv F) as X. cbn beta in X.
  apply Forall_inv_tail in F. destruct (IH F) as [A B]. rewrite zlen_cons. cbn [total fold_right]. fold (total l).
  pose proof (zlen_nonneg l). split; [lia|]. constructor; [lia|]. rewrite Forall_forall in *. intros y I. apply B in I. lia.
Qed.
Lemma gaps_exact : forall ds lo hi, StronglySorted Z.lt (lo :: ds) -> Forall (fun d => d < hi) (lo :: ds) ->
  zlen (gaps lo ds hi) = zlen (lo :: ds).
Proof.
  induction ds as [|d ds IH]; intros lo hi H F; cbn [gaps].
  - apply Forall_inv in F. now replace (lo <? hi) with true by lia.
  - apply StronglySorted_inv in H. destruct H as [H L]. apply Forall_inv in L. replace (lo <? d) with true by lia.
    rewrite !zlen_cons. rewrite IH; auto.
    + now rewrite zlen_cons.
    + apply Forall_inv_tail in F. auto.
Qed.

(** ** The accumulators of a window *)
Definition ext (gs : list Z) (a : gacc) : Prop :=
  (gs = [] -> g_min a = 32767 /\ g_max a = -32768) /\ (gs <> [] -> least gs (g_min a) /\ greatest gs (g_max a)).
Record gok (useq : bool) (len : Z) (gs : list Z) (a : gacc) : Prop := {
  gok_k : g_k a = zlen gs;
  gok_kurt : g_kurt a = run_kurt (reals gs);
  gok_q : useq = true -> firstn (length gs) (g_q a) = gs;
  gok_len : zlen (g_q a) = len;
  gok_ext : ext gs a }.

Lemma firstn_set_snoc (q : list Z) n d : (n < length q)%nat -> firstn (S n) (list_set q n d) = firstn n q ++ [d].
Proof.
  intros H. rewrite (firstn_S_nth n _ d) by (apply nth_error_list_set_same; auto). f_equal.
  revert q H. induction n as [|n IH]; intros [|x q] H; cbn in *; auto; try lia. f_equal. apply IH. lia.
Qed.
Lemma ext_snoc gs a d a' : ext gs a -> in_short d ->
  g_min a' = (if d <? g_min a then to_short d else g_min a) -> g_max a' = (if d >? g_max a then to_short d else g_max a) ->
  ext (gs ++ [d]) a'.
Proof.
  intros [E0 E1] D M1 M2. rewrite (to_short_id d D) in M1, M2. split; [intros C; destruct gs; discriminate C|].
  intros _. rewrite M1, M2. destruct gs as [|g gs'].
  - destruct (E0 eq_refl) as [-> ->]. destruct (single_ext d D) as [-> ->].
    split; (split; [left; auto|intros w [<-|[]]; lia]).
  - destruct E1 as [EL EG]; [discriminate|]. split; [apply least_snoc|apply greatest_snoc]; auto.
Qed.
Lemma kurt_snoc gs d : kurt_recurrence (IZR d) (run_kurt (reals gs)) (IZR (zlen gs + 1)) = run_kurt (reals (gs ++ [d])).
Proof.
  unfold run_kurt. rewrite reals_app. change (reals [d]) with [IZR d]. rewrite feed_snoc. f_equal.
  rewrite Nat.add_0_l, INR_IZR_INZ. unfold reals. rewrite map_length. rewrite <- plus_IZR. reflexivity.
Qed.
Lemma add_gap_ok useq len gs a d : gok useq len gs a -> in_short d -> zlen gs < len ->
  exists a', add_gap useq d a = Ret a' /\ gok useq len (gs ++ [d]) a' /\ g_n a' = g_n a /\ g_left a' = g_left a.
Proof.
  intros [K KU Q L E] D LT. unfold add_gap. rewrite K. destruct useq.
  - rewrite set_at_some by (pose proof (zlen_nonneg gs); lia). cbn [of_option bind]. eexists. split; [reflexivity|].
    split; [|auto]. split; cbn [g_k g_kurt g_q].
    + rewrite zlen_app. reflexivity.
    + rewrite KU. apply kurt_snoc.
    + intros _. rewrite app_length. cbn [length]. rewrite Nat.add_1_r. unfold zlen in *. rewrite Nat2Z.id.
      rewrite firstn_set_snoc by lia. now rewrite Q.
    + unfold zlen in *. rewrite length_list_set. auto.
    + eapply ext_snoc; eauto.
  - cbn [bind]. eexists. split; [reflexivity|]. split; [|auto]. split; cbn [g_k g_kurt g_q].
    + rewrite zlen_app. reflexivity.
    + rewrite KU. apply kurt_snoc.
    + discriminate.
    + auto.
    + eapply ext_snoc; eauto.
Qed.

(** Observations among the first k acquisitions. *)
Definition obs_upto (ces : list Z) (msk : list bool) (lo hi : Z) (k : Z) : list Z :=
  clear_dates (firstn (Z.to_nat k) ces) (firstn (Z.to_nat k) msk) lo hi.
Lemma obs_step ces msk lo hi k c m : get_at ces k = Some c -> get_at msk k = Some m ->
  obs_upto ces msk lo hi (k + 1) = obs_upto ces msk lo hi k ++ (if m && (lo <=? c) && (c <? hi) then [c] else []).
Proof.
  intros C M. pose proof (get_at_inv _ _ _ C). unfold obs_upto, clear_dates.
  rewrite get_at_nth in C by lia. rewrite get_at_nth in M by lia. replace (Z.to_nat (k + 1)) with (S (Z.to_nat k)) by lia.
  rewrite (firstn_S_nth _ _ _ C), (firstn_S_nth _ _ _ M).
  assert (length (firstn (Z.to_nat k) ces) = length (firstn (Z.to_nat k) msk)) as LE.
  { rewrite !firstn_length. assert (Z.to_nat k < length ces)%nat by (apply nth_error_Some; congruence).
    assert (Z.to_nat k < length msk)%nat by (apply nth_error_Some; congruence). lia. }
  revert LE. generalize (firstn (Z.to_nat k) ces), (firstn (Z.to_nat k) msk). clear C M. intros xs.
  induction xs as [|x xs IH]; intros [|y ys] LE; cbn [length] in LE; try lia.
  - cbn. now destruct (m && (lo <=? c) && (c <? hi)).
  - cbn [app combine filter fst snd]. destruct (y && (lo <=? x) && (x <? hi)); cbn [map app fst]; rewrite IH by lia; auto.
Qed.
Lemma obs_all ces msk lo hi : length msk = length ces -> obs_upto ces msk lo hi (zlen ces) = clear_dates ces msk lo hi.
Proof. intros L. unfold obs_upto, zlen. rewrite Nat2Z.id, firstn_all, <- L, firstn_all. reflexivity. Qed.
Lemma obs_none ces msk lo hi i j : length msk = length ces -> 0 <= i <= j -> j <= zlen ces ->
  (forall t c, i <= t < j -> get_at ces t = Some c -> ~ lo <= c < hi) -> obs_upto ces msk lo hi j = obs_upto ces msk lo hi i.
Proof.
  intros L [I IJ] J H. assert (exists n, j = i + Z.of_nat n) as (n & ->) by (exists (Z.to_nat (j - i)); lia). clear IJ.
  revert H J. induction n as [|n IH]; intros H J.
  - f_equal. lia.
  - replace (i + Z.of_nat (S n)) with (i + Z.of_nat n + 1) in * by lia.
    destruct (get_at_some ces (i + Z.of_nat n)) as (c & C); [lia|].
    destruct (get_at_some msk (i + Z.of_nat n)) as (m & M); [unfold zlen in *; lia|].
    rewrite (obs_step _ _ _ _ _ _ _ C M). pose proof (H (i + Z.of_nat n) c ltac:(lia) C) as NC.
    replace (m && (lo <=? c) && (c <? hi)) with false.
    + rewrite app_nil_r. apply IH; [|lia]. intros t d T D. apply (H t); auto. lia.
    + destruct m; cbn [andb]; auto. destruct (Z.leb_spec lo c), (Z.ltb_spec c hi); auto; lia.
Qed.
Lemma obs_0 ces msk lo hi : obs_upto ces msk lo hi 0 = [].
Proof. reflexivity. Qed.

Lemma filter_len {A} (f : A -> bool) : forall l, (length (filter f l) <= length l)%nat.
Proof. induction l as [|x l IH]; cbn [filter length]; auto. destruct (f x); cbn [length]; lia. Qed.
Lemma obs_len ces msk lo hi t : 0 <= t -> zlen (obs_upto ces msk lo hi t) <= t.
Proof.
  intros T. unfold obs_upto, clear_dates, zlen. rewrite map_length.
  match goal with |- Z.of_nat (length (filter ?f ?l)) <= _ => pose proof (filter_len f l) as FL end.
  rewrite combine_length, !firstn_length in FL. lia.
Qed.

(** Everything known after a window. *)
Record wok (useq : bool) (len : Z) (ds gs : list Z) (a : gacc) : Prop := {
  wok_n : g_n a = zlen ds;
  wok_kurt : g_kurt a = run_kurt (reals gs);
  wok_q : useq = true -> ds <> [] -> firstn (length gs) (g_q a) = gs;
  wok_len : zlen (g_q a) = len;
  wok_ext : least gs (g_min a) /\ greatest gs (g_max a) }.

Lemma run_kurt_single d : run_kurt [IZR d] = mkKurt (IZR d) 0 0 0.
Proof. unfold run_kurt. cbn. unfold kurt_recurrence. cbn. f_equal; field. Qed.

Lemma window_stats_spec useq ces msk lo hi q r : length msk = length ces -> StronglySorted Z.le ces -> zlen q = zlen ces + 1 ->
  lo < hi -> hi - lo <= 16383 -> is_range ces lo hi r ->
  exists a, window_stats useq ces msk lo hi r q = Ret a /\
    wok useq (zlen q) (clear_dates ces msk lo hi) (gaps lo (clear_dates ces msk lo hi) hi) a.
Proof.
  intros LE SO LQ LH SM [[-> NONE]|(R0 & R1 & IN)].
  - assert (clear_dates ces msk lo hi = []) as ->.
    { rewrite <- obs_all by auto. rewrite (obs_none ces msk lo hi 0 (zlen ces)); auto; try (pose proof (zlen_nonneg ces); lia).
      intros t c _ G. apply NONE. eapply get_at_In; eauto. }
    unfold window_stats. cbn [fst]. change (-1 >? -1) with false. cbn match.
    rewrite chk_int_ok by (unfold in_int; lia). cbn [bind]. eexists. split; [reflexivity|].
    cbn [gaps]. replace (lo <? hi) with true by lia. rewrite to_short_id by (unfold in_short; lia).
    split; cbn [g_n g_kurt g_q g_min g_max]; auto; try congruence.
    + symmetry. apply run_kurt_single.
    + split; (split; [left; auto|intros w [<-|[]]; lia]).
  - unfold window_stats. replace (fst r >? -1) with true by lia. cbn match.
    pose (I := fun t a => exists gs, gok useq (zlen q) gs a /\ g_n a = zlen (obs_upto ces msk lo hi t) /\ zlen gs <= g_n a /\
      lo <= g_left a < hi /\ (forall c, In c (obs_upto ces msk lo hi t) -> c <= g_left a) /\
      forall rest, gaps lo (obs_upto ces msk lo hi t ++ rest) hi = gs ++ gaps (g_left a) rest hi).
    assert (obs_upto ces msk lo hi (fst r) = []) as OB0.
    { rewrite (obs_none ces msk lo hi 0 (fst r)); auto; try lia. intros t c T G C. apply (IN t c G) in C. lia. }
    assert (forall t, 0 <= t <= zlen ces -> zlen (obs_upto ces msk lo hi t) <= t) as OBL.
    { intros t T. apply obs_len; lia. }
    destruct (ofold_zrange (one_obs useq ces msk) I (fst r) (snd r) (mkG (mkKurt 0 0 0 0) 0 0 q 32767 (-32768) lo))
      as (a & -> & (gs & GO & N & GN & LF & LM & GA)); [lia| | |].
    + exists []. rewrite OB0. cbn [g_n g_left app]. split.
      * split; cbn; auto. unfold ext. cbn. split; [auto|congruence].
      * split; [reflexivity|]. split; [unfold zlen; cbn; lia|]. split; [lia|]. split; [intros c []|auto].
    + intros t a T (gs & GO & N & GN & LF & LM & GA).
      destruct (get_at_some ces t) as (c & C); [lia|]. destruct (get_at_some msk t) as (m & M); [unfold zlen in *; lia|].
      pose proof (proj2 (IN t c C) T) as CW. pose proof (obs_step ces msk lo hi t c m C M) as ST.
      replace (lo <=? c) with true in ST by lia. replace (c <? hi) with true in ST by lia. rewrite !andb_true_r in ST.
      unfold one_obs. rewrite M. cbn [of_option bind]. destruct m; cbn [negb].
      * rewrite C. cbn [of_option bind]. destruct (Z.gtb_spec c (g_left a)) as [G|G].
        -- rewrite chk_int_ok by (unfold in_int; lia). cbn [bind].
           destruct (add_gap_ok useq (zlen q) gs a (c - g_left a) GO) as (a' & -> & GO' & N' & L'); [unfold in_short; lia| |].
           { specialize (OBL t ltac:(lia)). lia. }
           cbn [bind]. eexists. split; [reflexivity|]. exists (gs ++ [c - g_left a]). cbn [g_n g_left].
           destruct GO' as [K KU Q L E]. split; [split; auto|]. rewrite ST, N'. split; [rewrite zlen_app, N; reflexivity|].
           rewrite !zlen_app. change (zlen [c - g_left a]) with 1. split; [lia|]. split; [lia|]. split.
           ++ intros d I'. apply in_app_or in I'. destruct I' as [I'|[<-|[]]]; [apply LM in I'|]; lia.
           ++ intros rest. rewrite <- !app_assoc. cbn [app]. rewrite GA. cbn [gaps]. now replace (g_left a <? c) with true by lia.
        -- cbn [bind]. eexists. split; [reflexivity|]. exists gs. cbn [g_n g_left]. destruct GO as [K KU Q L E].
           split; [split; auto|]. rewrite ST. split; [rewrite zlen_app, N; reflexivity|]. split; [lia|]. split; [lia|]. split.
           ++ intros d I'. apply in_app_or in I'. destruct I' as [I'|[<-|[]]]; [apply LM in I'|]; lia.
           ++ intros rest. rewrite <- !app_assoc. cbn [app]. rewrite GA. cbn [gaps]. now replace (g_left a <? c) with false by lia.
      * eexists. split; [reflexivity|]. exists gs. rewrite ST, app_nil_r. auto 10.
    + cbn [bind]. rewrite chk_int_ok by (unfold in_int; lia). cbn [bind].
      replace (hi - g_left a >? 0) with true by lia.
      destruct (add_gap_ok useq (zlen q) gs a (hi - g_left a) GO) as (a' & -> & GO' & N' & L'); [unfold in_short; lia| |].
      { specialize (OBL (snd r + 1) ltac:(lia)). lia. }
      eexists. split; [reflexivity|].
      assert (clear_dates ces msk lo hi = obs_upto ces msk lo hi (snd r + 1)) as ->.
      { rewrite <- obs_all by auto. apply obs_none; auto; try lia. intros t c T G W. apply (IN t c G) in W. lia. }
      specialize (GA []). rewrite app_nil_r in GA. cbn [gaps] in GA. replace (g_left a <? hi) with true in GA by lia.
      rewrite GA. destruct GO' as [K KU Q L E]. split; auto; [congruence|]. apply E. destruct gs; discriminate.
Qed.

Lemma clear_in ces msk lo hi : Forall (fun d => lo <= d < hi) (clear_dates ces msk lo hi).
Proof.
  apply Forall_forall. intros d I. apply in_map_iff in I. destruct I as ([c m] & <- & I). apply filter_In in I.
  cbn [fst snd] in *. destruct I as [_ I]. destruct m; [|discriminate]. cbn [andb] in I. lia.
Qed.
Lemma gaps_moderate ds lo hi : lo < hi -> hi - lo <= 16383 -> Forall (fun d => lo <= d < hi) ds ->
  gaps lo ds hi <> [] /\ moderate (gaps lo ds hi).
Proof.
  intros L B F. assert (Forall (fun d => d < hi) ds) as F' by (rewrite Forall_forall in *; intros x I; apply F in I; lia).
  split; [apply gaps_nonnil; auto|].
  pose proof (gaps_positive ds lo hi) as P. destruct (total_bounds _ P) as [T1 T2].
  rewrite gaps_total in T1, T2 by (try lia; rewrite Forall_forall in *; intros x I; apply F in I; lia).
  split; [lia|]. rewrite Forall_forall in *. intros x I. pose proof (P x I). pose proof (T2 x I). lia.
Qed.

(** ** Values *)
Definition extreme (m : metric) : bool := match m with MIN | MAX | RNG | AVG => true | _ => false end.
Definition to_acc (useq : bool) (gs : list Z) (a : gacc) : acc :=
  mkAcc (g_min a) (g_max a) (if useq then gs else []) (zlen gs) (g_kurt a).
Lemma to_acc_summ useq len ds gs a : wok useq len ds gs a -> gs <> [] -> summ useq gs (to_acc useq gs a).
Proof. intros [N K Q L E] NE. unfold summ, to_acc. cbn. repeat split; auto; try congruence; apply E. Qed.

Lemma extreme_value useq len ds gs a m : wok useq len ds gs a -> gs <> [] -> moderate gs -> extreme m = true ->
  exists v, cso_value a m = Ret v /\ described true gs m v.
Proof.
  intros W NE MO X. pose proof (to_acc_summ _ _ _ _ _ W NE) as SM. destruct m; try discriminate X; cbn [cso_value].
  - eexists; split; [reflexivity|]. apply (min_value _ _ _ SM NE).
  - eexists; split; [reflexivity|]. apply (max_value _ _ _ SM NE).
  - eexists; split; [reflexivity|]. apply (rng_value _ _ _ SM NE MO).
  - apply (avg_value _ _ _ SM NE MO).
Qed.
Lemma num_value' useq len ds gs a : wok useq len ds gs a -> zlen ds <= 32767 -> cso_value a NUM = Ret (zlen ds).
Proof.
  intros [N _ _ _ _] B. cbn [cso_value]. rewrite N, to_short_id; auto. unfold in_short. pose proof (zlen_nonneg ds). lia.
Qed.
Lemma g_quantile_same useq len ds gs a p : wok useq len ds gs a -> useq = true -> gs <> [] -> zlen ds = zlen gs ->
  g_quantile a p = quantile gs (zlen gs) p.
Proof.
  intros [N K Q L E] U NE EQ. assert (0 < zlen gs) by (destruct gs; [congruence|unfold zlen; cbn [length]; lia]).
  assert (ds <> []) as ND by (intros ->; unfold zlen in EQ at 1; cbn in EQ; lia). specialize (Q U ND).
  unfold g_quantile. rewrite N, EQ. replace (zlen gs =? 0) with false by lia. unfold quantile.
  replace (firstn (Z.to_nat (zlen gs)) (g_q a)) with gs by (unfold zlen; rewrite Nat2Z.id; auto).
  replace (firstn (Z.to_nat (zlen gs)) gs) with gs by (unfold zlen; rewrite Nat2Z.id, firstn_all; auto). reflexivity.
Qed.
Lemma any_value useq len ds gs a m : wok useq len ds gs a -> gs <> [] -> moderate gs -> zlen ds = zlen gs ->
  (is_q m = true -> useq = true) -> exists_for gs m -> exists v, cso_value a m = Ret v /\ described true gs m v.
Proof.
  intros W NE MO EQ U X. pose proof (to_acc_summ _ _ _ _ _ W NE) as SM.
  destruct (extreme m) eqn:EM; [eapply extreme_value; eauto|].
  assert (0 < zlen gs) as POS by (destruct gs; [congruence|unfold zlen; cbn [length]; lia]).
  pose proof (wok_n _ _ _ _ _ W) as N. destruct m; try discriminate EM; cbn [cso_value].
  - eexists; split; [reflexivity|]. cbn [described]. rewrite N, EQ. apply to_short_id. destruct MO as [B _]. unfold in_short. lia.
  - specialize (U eq_refl). rewrite !(g_quantile_same _ _ _ _ _ _ W U NE EQ).
    destruct (q_value _ _ _ SM NE MO 25 U ltac:(lia)) as (l & E1 & Q1 & S1 & B1 & _).
    destruct (q_value _ _ _ SM NE MO 75 U ltac:(lia)) as (h & E3 & Q3 & S3 & B3 & _).
    unfold to_acc in E1, E3. cbn [a_q a_n] in E1, E3. rewrite U in E1, E3. rewrite E1. cbn [bind]. rewrite S1. cbn [bind].
    rewrite E3. cbn [bind]. rewrite S3. cbn [bind]. eexists. split; [reflexivity|]. exists l, h.
    replace (1 / 4)%R with (25 / 100)%R by lra. replace (3 / 4)%R with (75 / 100)%R by lra. split; auto. split; auto.
    apply to_short_id. unfold in_short. lia.
  - destruct (std_value _ _ _ SM NE MO X) as (v & E & D). exists v. split; auto. rewrite N, EQ. exact E.
  - destruct (skw_value _ _ _ SM NE X) as (v & E & D). exists v. split; auto. rewrite <- E. unfold g_scaled, skewscaled.
    rewrite N, EQ. replace (zlen gs >? 0) with true by lia. reflexivity.
  - destruct (krt_value _ _ _ SM NE X) as (v & E & D). exists v. split; auto. rewrite <- E. unfold g_scaled, kurtscaled.
    rewrite N, EQ. replace (zlen gs >? 0) with true by lia. reflexivity.
  - specialize (U eq_refl). rewrite (g_quantile_same _ _ _ _ _ _ W U NE EQ).
    destruct (q_value _ _ _ SM NE MO k U X) as (q & E & QQ & S1 & _).
    unfold to_acc in E. cbn [a_q a_n] in E. rewrite U in E. rewrite E. cbn [bind]. rewrite S1. eexists. split; [reflexivity|].
    exists q. auto.
Qed.

(** ** All windows *)
Definition dates_of (ces : list Z) (msk : list bool) (w : Z * Z) : list Z := clear_dates ces msk (fst w) (snd w).
Definition gaps_of (ces : list Z) (msk : list bool) (w : Z * Z) : list Z := gaps (fst w) (dates_of ces msk w) (snd w).
Definition fine (ces : list Z) (msk : list bool) (w : Z * Z) (m : metric) : Prop :=
  simple m \/ (zlen (dates_of ces msk w) = zlen (gaps_of ces msk w) /\ exists_for (gaps_of ces msk w) m).

Lemma window_value useq ces msk w a m : fst w < snd w -> snd w - fst w <= 16383 -> zlen ces <= 32767 ->
  length msk = length ces -> wok useq (zlen ces + 1) (dates_of ces msk w) (gaps_of ces msk w) a ->
  (is_q m = true -> useq = true) -> fine ces msk w m -> exists v, cso_value a m = Ret v /\ cso_described ces msk w m v.
Proof.
  intros L B N LE W U F. destruct (gaps_moderate _ _ _ L B (clear_in ces msk (fst w) (snd w))) as [NE MO].
  fold (dates_of ces msk w) in NE, MO. fold (gaps_of ces msk w) in NE, MO.
  unfold cso_described. cbv zeta. fold (dates_of ces msk w). fold (gaps_of ces msk w).
  assert (zlen (dates_of ces msk w) <= 32767) as DB.
  { unfold dates_of. rewrite <- obs_all by auto. pose proof (obs_len ces msk (fst w) (snd w) (zlen ces) (zlen_nonneg ces)). lia. }
  destruct (extreme m) eqn:EX.
  - destruct (extreme_value _ _ _ _ _ m W NE MO EX) as (v & E & D). exists v. split; auto. destruct m; auto; discriminate.
  - destruct (metric_eq m NUM) as [->|NN].
    + exists (zlen (dates_of ces msk w)). split; auto. eapply num_value'; eauto.
    + destruct F as [F|[EQ XF]]; [destruct m; cbn in F, EX; congruence || contradiction|].
      destruct (any_value _ _ _ _ _ m W NE MO EQ U XF) as (v & E & D). exists v. split; auto. destruct m; auto; congruence.
Qed.
Lemma existsb_is_q ms m : In m ms -> is_q m = true -> existsb is_q ms = true.
Proof. intros I Q. apply existsb_exists. eauto. Qed.
Lemma leave_q_len useq a : zlen (leave_q useq a) = zlen (g_q a).
Proof.
  unfold leave_q. destruct useq; auto. unfold zlen. rewrite app_length, skipn_length.
  rewrite <- (Permutation.Permutation_length (isort_perm _)). rewrite firstn_length. lia.
Qed.
Lemma omap_all {A B} (f : A -> outcome B) (R : A -> B -> Prop) : forall l,
  (forall x, In x l -> exists y, f x = Ret y /\ R x y) -> exists ys, omap f l = Ret ys /\ Forall2 R l ys.
Proof.
  induction l as [|x l IH]; intros H; cbn [omap].
  - exists []. auto.
  - destruct (H x (or_introl eq_refl)) as (y & -> & Y). cbn [bind].
    destruct IH as (ys & -> & F); [intros z I; apply H; right; auto|]. cbn [bind]. exists (y :: ys). auto.
Qed.
Lemma omap_ret {A B} (f : A -> outcome B) : forall l ys, omap f l = Ret ys -> Forall2 (fun x y => f x = Ret y) l ys.
Proof.
  induction l as [|x l IH]; intros ys; cbn [omap].
  - intros [= <-]. constructor.
  - destruct (f x) as [y| |] eqn:E; cbn [bind]; try discriminate.
    destruct (omap f l) as [zs| |] eqn:E'; cbn [bind]; try discriminate. intros [= <-]. constructor; auto.
Qed.

Definition proper (bs : list Z) : Prop := rising bs /\ Forall (fun w => snd w - fst w <= 16383) (windows bs).
Lemma proper_tl a b bs : proper (a :: b :: bs) -> proper (b :: bs) /\ a < b <= a + 16383.
Proof.
  intros [R F]. rewrite windows_cons in F. pose proof (Forall_inv F) as H. cbn [fst snd] in H.
  split; [split; [eapply rising_tl; eauto|eapply Forall_inv_tail; eauto]|].
  assert (a < b) by (apply (R 0 1); [reflexivity|reflexivity|lia]). lia.
Qed.

Lemma cso_windows_cons ms ces msk lo hi bs r rs q : cso_windows ms ces msk (lo :: hi :: bs) (r :: rs) q =
  a <- window_stats (existsb is_q ms) ces msk lo hi r q ;;
  v <- omap (cso_value a) ms ;;
  more <- cso_windows ms ces msk (hi :: bs) rs (leave_q (existsb is_q ms) a) ;;
  Ret (v :: fst more, snd more).
Proof. reflexivity. Qed.

Section Pixel.
Context (ces : list Z) (msk : list bool) (ms : list metric).
Hypothesis (LE : length msk = length ces) (SO : StronglySorted Z.le ces) (NT : zlen ces <= 32767).

Lemma windows_total : forall bs q, proper bs -> zlen q = zlen ces + 1 ->
  (forall w m, In w (windows bs) -> In m ms -> fine ces msk w m) ->
  exists out q', cso_windows ms ces msk bs (map (full_range ces) (windows bs)) q = Ret (out, q') /\ zlen q' = zlen q /\
    Forall2 (fun w row => Forall2 (cso_described ces msk w) ms row) (windows bs) out.
Proof.
  induction bs as [|lo bs IH]; intros q P LQ H.
  { exists [], q. split; [reflexivity|]. split; [reflexivity|constructor]. }
  destruct bs as [|hi bs']; [exists [], q; split; [reflexivity|]; split; [reflexivity|constructor]|].
  rewrite windows_cons in *. cbn [map]. rewrite cso_windows_cons.
  destruct (proper_tl _ _ _ P) as [P' L].
  destruct (window_stats_spec (existsb is_q ms) ces msk lo hi q (full_range ces (lo, hi))) as (a & -> & W); auto; try lia.
  { apply find_range_spec; auto; lia. }
  cbn [bind]. rewrite LQ in W.
  destruct (omap_all (cso_value a) (cso_described ces msk (lo, hi)) ms) as (row & -> & R).
  { intros m I. apply (window_value (existsb is_q ms) ces msk (lo, hi) a m); cbn [fst snd]; auto; try lia.
    - apply existsb_is_q; auto.
    - apply H; auto. left; auto. }
  cbn [bind]. destruct (IH (leave_q (existsb is_q ms) a) P') as (out & q' & E & LQ' & F).
  - rewrite leave_q_len. apply W.
  - intros w m I. apply H. right; auto.
  - rewrite E. cbn [bind fst snd]. exists (row :: out), q'. split; auto. split; auto.
    rewrite LQ', leave_q_len, (wok_len _ _ _ _ _ W). lia.
Qed.
Lemma windows_each : forall bs q out q', proper bs -> zlen q = zlen ces + 1 ->
  cso_windows ms ces msk bs (map (full_range ces) (windows bs)) q = Ret (out, q') ->
  Forall2 (fun w row => Forall2 (fun m v => fine ces msk w m -> cso_described ces msk w m v) ms row) (windows bs) out /\
  (In STD ms -> forall w, In w (windows bs) -> zlen (dates_of ces msk w) <> 1).
Proof.
  induction bs as [|lo bs IH]; intros q out q' P LQ.
  { intros [= <- <-]. split; [constructor|]. intros _ w []. }
  destruct bs as [|hi bs'].
  { intros [= <- <-]. split; [constructor|]. intros _ w []. }
  rewrite windows_cons in *. cbn [map]. rewrite cso_windows_cons.
  destruct (proper_tl _ _ _ P) as [P' L].
  destruct (window_stats_spec (existsb is_q ms) ces msk lo hi q (full_range ces (lo, hi))) as (a & -> & W); auto; try lia.
  { apply find_range_spec; auto; lia. }
  cbn [bind]. rewrite LQ in W. destruct (omap (cso_value a) ms) as [row| |] eqn:EO; cbn [bind]; try discriminate.
  apply omap_ret in EO.
  destruct (cso_windows ms ces msk (hi :: bs') (map (full_range ces) (windows (hi :: bs'))) (leave_q (existsb is_q ms) a))
    as [[more q2]| |] eqn:EM; cbn [bind fst snd]; try discriminate.
  intros [= <- <-]. apply IH in EM; auto.
  2: { rewrite leave_q_len. apply W. }
  destruct EM as [F S1]. split.
  - constructor; auto.
    assert (forall m v, In m ms -> cso_value a m = Ret v -> fine ces msk (lo, hi) m -> cso_described ces msk (lo, hi) m v) as V.
    { intros m v I E FI. destruct (window_value (existsb is_q ms) ces msk (lo, hi) a m) as (v' & E' & D); cbn [fst snd]; auto; try lia.
      - apply existsb_is_q; auto.
      - rewrite E in E'. injection E' as ->. auto. }
    clear - EO V. induction EO as [|m v l l' X Y Z]; constructor.
    + apply V; auto. left; auto.
    + apply Z. intros m' v' I. apply V. right; auto.
  - intros I w [<-|J] B; [|apply (S1 I w J B)].
    assert (exists v, cso_value a STD = Ret v) as (v & E).
    { clear - EO I. induction EO as [|m v l l' X Y Z]; [destruct I|]. destruct I as [->|I]; eauto. }
    cbn [cso_value] in E. rewrite (wok_n _ _ _ _ _ W) in E. unfold dates_of in B. cbn [fst snd] in B. rewrite B in E. discriminate E.
Qed.
End Pixel.
Lemma Forall2_impl {A B} (P Q : A -> B -> Prop) l l' : (forall a b, P a b -> Q a b) -> Forall2 P l l' -> Forall2 Q l l'.
Proof. intros H F. induction F; constructor; auto. Qed.
