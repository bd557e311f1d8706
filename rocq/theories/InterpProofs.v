From Coq Require Import Sorting.Sorted.
From Flocq Require Import Core IEEE754.BinarySingleNaN.
From Verif Require Import Base BaseFacts Loops LoopsFacts Float FloatFacts FloatInt InterpModel InterpSpec.

Lemma get_at_app_l {A} (l1 l2 : list A) i : i < zlen l1 -> get_at (l1 ++ l2) i = get_at l1 i.
Proof.
  intros H. unfold get_at, zlen in *. destruct (i <? 0) eqn:E; auto. apply nth_error_app1. lia.
Qed.
Lemma get_at_app_r {A} (l1 l2 : list A) i : zlen l1 <= i -> get_at (l1 ++ l2) i = get_at l2 (i - zlen l1).
Proof.
  intros H. unfold get_at, zlen in *. replace (i <? 0) with false by lia.
  replace (i - Z.of_nat (length l1) <? 0) with false by lia.
  rewrite nth_error_app2 by lia. f_equal. lia.
Qed.
Lemma zlen_app {A} (l1 l2 : list A) : zlen (l1 ++ l2) = zlen l1 + zlen l2.
Proof. unfold zlen. rewrite app_length. lia. Qed.
Lemma zlen_cons {A} (a : A) l : zlen (a :: l) = 1 + zlen l.
Proof. unfold zlen. cbn [length]. lia. Qed.
Lemma zlen_nil {A} : zlen (@nil A) = 0.
Proof. reflexivity. Qed.
Lemma get_at_cons {A} (a : A) l i : get_at (a :: l) i = if i =? 0 then Some a else get_at l (i - 1).
Proof.
  change (a :: l) with ([a] ++ l). destruct (Z.eqb_spec i 0) as [->|N]; [reflexivity|].
  destruct (Z.le_gt_cases 0 i).
  - rewrite get_at_app_r by (unfold zlen; cbn; lia). unfold zlen; cbn [length]. f_equal.
  - unfold get_at. replace (i <? 0) with true by lia. replace (i - 1 <? 0) with true by lia. reflexivity.
Qed.

Lemma min_neg : flt (f32_of_Z INT_MIN) (f32_of_Z 0) = true.
Proof. vm_compute. reflexivity. Qed.

Lemma quot_between n d lo hi : 0 < d -> lo * d <= n <= hi * d -> lo <= Z.quot n d <= hi.
Proof.
  intros D [L H]. split.
  - rewrite <- (Z.quot_mul lo d) by lia. apply Z.quot_le_mono; auto.
  - rewrite <- (Z.quot_mul hi d) by lia. apply Z.quot_le_mono; auto.
Qed.

Lemma blend_small yl yr cl x cr : cl < x < cr -> Z.max (Z.abs yl) (Z.abs yr) * (cr - cl) < 2 ^ 24 ->
  Z.abs (yl * (cr - x)) < 2 ^ 24 /\ Z.abs (yr * (x - cl)) < 2 ^ 24 /\ Z.abs (yl * (cr - x) + yr * (x - cl)) < 2 ^ 24.
Proof.
  intros H G. set (m := Z.max (Z.abs yl) (Z.abs yr)) in *.
  assert (A : Z.abs (yl * (cr - x)) <= m * (cr - x)).
  { rewrite Z.abs_mul, (Z.abs_eq (cr - x)) by lia. apply Z.mul_le_mono_nonneg_r; lia. }
  assert (B : Z.abs (yr * (x - cl)) <= m * (x - cl)).
  { rewrite Z.abs_mul, (Z.abs_eq (x - cl)) by lia. apply Z.mul_le_mono_nonneg_r; lia. }
  assert (C : m * (cr - cl) = m * (cr - x) + m * (x - cl)) by ring.
  assert (0 <= m * (cr - x)) by (apply Z.mul_nonneg_nonneg; lia).
  assert (0 <= m * (x - cl)) by (apply Z.mul_nonneg_nonneg; lia).
  generalize dependent (yl * (cr - x)). generalize dependent (yr * (x - cl)).
  generalize dependent (m * (cr - x)). generalize dependent (m * (x - cl)). generalize dependent (m * (cr - cl)).
  clear. lia.
Qed.

Lemma blend_between yl yr cl x cr : cl < x < cr ->
  Z.min yl yr <= Z.quot (yl * (cr - x) + yr * (x - cl)) (cr - cl) <= Z.max yl yr.
Proof. intros H. apply quot_between; nia. Qed.

Lemma short_abs z : in_short z -> Z.abs z <= 2 ^ 24.
Proof. unfold in_short. lia. Qed.
Lemma short_of_isZ {p e} (x : binary_float p e) z : trunc_of x = Some z -> in_short z -> short_of_float x = Ret z.
Proof. intros T I. unfold short_of_float. rewrite T. cbn [of_option bind]. apply in_shortb_spec in I. rewrite I. auto. Qed.

Section Lin.
Context (nodata : Z) (s : list (Z * Z)).
Hypothesis (SORT : sorted_days s).
Hypothesis (DAYS : days_ok s).

Local Notation clear := (clear nodata s).
Local Notation F := f32_of_Z.

Inductive found (x : Z) (tl0 : Z) : lin -> Prop :=
| F_on t y : first_on nodata s x t y -> found x tl0 (mkLin (F x) (F y) (F x) (F y) t)
| F_between tl cl yl tr cr yr : last_before nodata s x tl cl yl -> first_after nodata s x tr cr yr ->
    (forall t y, ~ clear t x y) -> found x tl0 (mkLin (F cl) (F yl) (F cr) (F yr) tl)
| F_before t c y : first_after nodata s x t c y -> (forall t' c' y', clear t' c' y' -> x < c') ->
    found x tl0 (mkLin (F INT_MIN) (F nodata) (F c) (F y) tl0)
| F_after t c y : last_before nodata s x t c y -> (forall t' c' y', clear t' c' y' -> c' < x) ->
    found x tl0 (mkLin (F c) (F y) (F INT_MIN) (F nodata) t)
| F_none : (forall t c y, ~ clear t c y) ->
    found x tl0 (mkLin (F INT_MIN) (F nodata) (F INT_MIN) (F nodata) tl0).

Lemma lin_scan_spec x tl0 : 0 <= x <= 2 ^ 24 -> forall suf pre, s = pre ++ suf ->
  (forall t c y, clear t c y -> t < zlen pre -> c < x) ->
  forall L v,
  match L with
  | None => ((forall t c y, clear t c y -> zlen pre <= t) \/
             (exists c y r, suf = (c, y) :: r /\ y <> nodata /\ c < x)) /\
            v = mkLin (F INT_MIN) (F nodata) (F INT_MIN) (F nodata) tl0
  | Some (tc, c, y) => clear tc c y /\ tc < zlen pre /\ (forall t' c' y', clear t' c' y' -> t' < zlen pre -> t' <= tc) /\
            v = mkLin (F c) (F y) (F INT_MIN) (F nodata) tc
  end ->
  found x tl0 (lin_scan nodata (F x) (zlen pre) suf v).
Proof.
  intros X. induction suf as [|[c y] suf IH]; intros pre S P L v H.
  - cbn [lin_scan]. rewrite app_nil_r in S. subst pre.
    assert (forall t c y, clear t c y -> t < zlen s) as IN by (intros t c y [G _]; apply get_at_inv in G; lia).
    destruct L as [[[tc c] y]|].
    + destruct H as (C & _ & M & ->). eapply F_after.
      * split; [exact C|]. split; [eapply P; eauto|]. intros t' c' y' C' _. eapply M; eauto.
      * intros t' c' y' C'. eapply P; eauto.
    + destruct H as [[H|(c & y & r & E & _)] ->]; [|discriminate].
      apply F_none. intros t c y C. specialize (H _ _ _ C). specialize (IN _ _ _ C). lia.
  - assert (get_at s (zlen pre) = Some (c, y)) as G.
    { rewrite S, get_at_app_r by lia. rewrite Z.sub_diag. reflexivity. }
    assert (s = (pre ++ [(c, y)]) ++ suf) as S' by (rewrite <- app_assoc; exact S).
    assert (zlen (pre ++ [(c, y)]) = zlen pre + 1) as ZL by (rewrite zlen_app; reflexivity).
    destruct (DAYS _ _ _ G) as [DC DY].
    assert (isZ (F c) c) as ZC by (apply isZ32; lia). assert (isZ (F x) x) as ZX by (apply isZ32; lia).
    assert (forall t c' y', clear t c' y' -> t < zlen pre + 1 -> t < zlen pre \/ (t = zlen pre /\ c' = c /\ y' = y /\ y <> nodata)) as STEP.
    { intros t c' y' [G' N'] LT. destruct (Z.eq_dec t (zlen pre)) as [->|]; [right|left; lia].
      rewrite G in G'. inversion G'; subst. auto. }
    cbn [lin_scan]. destruct (Z.eqb_spec y nodata) as [YN|YN].
    + replace (zlen pre + 1) with (zlen (pre ++ [(c, y)])) by lia. apply (IH _ S') with (L := L).
      * intros t c' y' C LT. destruct (STEP _ _ _ C ltac:(lia)) as [|(_ & _ & _ & ?)]; [eapply P; eauto|contradiction].
      * destruct L as [[[tc c0] y0]|].
        -- destruct H as (C & T & M & ->). split; auto. split; [lia|]. split; auto.
           intros t' c' y' C' LT. destruct (STEP _ _ _ C' ltac:(lia)) as [|(_ & _ & _ & ?)]; [eapply M; eauto|contradiction].
        -- destruct H as [[H|(c' & y' & r & E & N & _)] ->]; [|inversion E; subst; contradiction]. split; auto. left.
           intros t c' y' C. specialize (H _ _ _ C). destruct (Z.le_gt_cases (zlen (pre ++ [(c, y)])) t); auto.
           destruct (STEP _ _ _ C ltac:(lia)) as [|(_ & _ & _ & ?)]; [lia|contradiction].
    + assert (clear (zlen pre) c y) as C0 by (split; auto).
      rewrite (flt_isZ _ _ _ _ ZC ZX), (feq_isZ _ _ _ _ ZC ZX), (flt_isZ _ _ _ _ ZX ZC).
      destruct (Z.ltb_spec c x) as [LT|GE].
      * replace (zlen pre + 1) with (zlen (pre ++ [(c, y)])) by lia.
        apply (IH _ S') with (L := Some (zlen pre, c, y)).
        -- intros t c' y' C LT'. destruct (STEP _ _ _ C ltac:(lia)) as [|(_ & -> & _)]; [eapply P; eauto|auto].
        -- split; auto. split; [lia|]. split; [intros; lia|].
           f_equal; destruct L as [[[tc c0] y0]|]; [destruct H as (_ & _ & _ & ->)|destruct H as [_ ->]|destruct H as (_ & _ & _ & ->)|destruct H as [_ ->]]; reflexivity.
      * assert (forall t' c' y', clear t' c' y' -> c' < x -> t' < zlen pre) as LTP.
        { intros t' c' y' [C' N'] L'. destruct (Z.le_gt_cases (zlen pre) t') as [Q|]; auto.
          pose proof (SORT _ _ _ _ _ _ G C' Q). lia. }
        assert (match L with None => (forall t c y, clear t c y -> zlen pre <= t) /\ v = mkLin (F INT_MIN) (F nodata) (F INT_MIN) (F nodata) tl0
                | Some (tc, c, y) => last_before nodata s x tc c y /\ v = mkLin (F c) (F y) (F INT_MIN) (F nodata) tc end) as H'.
        { destruct L as [[[tc c0] y0]|].
          - destruct H as (C & T & M & ->). split; auto. split; auto. split; [eapply P; eauto|].
            intros t' c' y' C' L'. eapply M; eauto.
          - destruct H as [[H|(c' & y' & r & E & N & L')] ->]; [auto|]. inversion E; subst. lia. }
        clear H. destruct (Z.eqb_spec c x) as [EQ|NE].
        -- subst c. eapply F_on. split; [exact C0|]. intros t' y' C'.
           destruct (Z.le_gt_cases (zlen pre) t') as [|Q]; auto. specialize (P _ _ _ C' Q). lia.
        -- replace (x <? c) with true by lia.
           assert (first_after nodata s x (zlen pre) c y) as FA.
           { split; auto. split; [lia|]. intros t' c' y' C' L'.
             destruct (Z.le_gt_cases (zlen pre) t') as [|Q]; auto. specialize (P _ _ _ C' Q). lia. }
           assert (forall t y, ~ clear t x y) as NO.
           { intros t y' C'. destruct (Z.le_gt_cases (zlen pre) t) as [Q|Q].
             - destruct C' as [C' _]. pose proof (SORT _ _ _ _ _ _ G C' Q). lia.
             - specialize (P _ _ _ C' Q). lia. }
           destruct L as [[[tc c0] y0]|].
           ++ destruct H' as (LB & ->). eapply F_between; eauto.
           ++ destruct H' as (H' & ->). eapply F_before; eauto. intros t' c' y' C'.
              specialize (H' _ _ _ C'). destruct C' as [C' N']. pose proof (SORT _ _ _ _ _ _ G C' H'). lia.
Qed.

Lemma found_value x tl0 v : 0 <= x <= 2 ^ 24 -> in_short nodata -> gaps_ok nodata s -> found x tl0 v ->
  exists r, short_of_float (lin_value nodata (F x) v) = Ret r /\ interpolated nodata s x r /\
    (t_left v = tl0 /\ (forall t c y, clear t c y -> x < c) \/ exists c y, clear (t_left v) c y /\ c <= x).
Proof.
  intros X NS GAP FD.
  assert (forall t c y, clear t c y -> in_short y /\ 0 <= c <= 2 ^ 24) as OK.
  { intros t c y [G _]. destruct (DAYS _ _ _ G). auto. }
  assert (isZ (F 0) 0) as Z0 by (apply isZ32; lia).
  assert (isZ (F x) x) as ZX by (apply isZ32; lia).
  destruct FD as [t y [C M]|tl cl yl tr cr yr [C [L M]] [C' [L' M']] NO|t c y [C [L M]] A|t c y [C [L M]] A|N].
  - exists y. destruct (OK _ _ _ C) as [Y _]. pose proof (short_abs _ Y) as Ya.
    assert (isZ (F y) y) as ZY by (apply isZ32; auto).
    assert (isZ (F 2) 2) as Z2 by (apply isZ32; lia).
    split; [|split; [eapply On; split; eauto|cbn; right; exists x, y; split; auto; lia]].
    unfold lin_value. cbn [x_left x_right y_left y_right].
    rewrite (flt_isZ _ _ _ _ ZX Z0), (feq_isZ _ _ _ _ ZX ZX). replace (x <? 0) with false by lia. rewrite Z.eqb_refl. cbn [andb].
    apply short_of_isZ; auto. unfold in_short in Y.
    rewrite (f32_div_trunc _ _ (y + y) 2); [|apply isZ32_add; auto; lia|auto|lia|lia].
    replace (y + y) with (y * 2) by lia. rewrite Z.quot_mul by lia. reflexivity.
  - exists (Z.quot (yl * (cr - x) + yr * (x - cl)) (cr - cl)).
    destruct (OK _ _ _ C) as [Y B], (OK _ _ _ C') as [Y' B'].
    split; [|split; [eapply Between; [split; [exact C|split; eauto]|split; [exact C'|split; eauto]|auto]|cbn; right; exists cl, yl; split; auto; lia]].
    assert (tl < tr) as T.
    { destruct (Z.le_gt_cases tr tl) as [Q|]; auto. destruct C as [G _], C' as [G' _].
      pose proof (SORT _ _ _ _ _ _ G' G Q). lia. }
    assert (Z.max (Z.abs yl) (Z.abs yr) * (cr - cl) < 2 ^ 24) as GP.
    { eapply GAP; eauto. intros t c y CC. destruct (Z.lt_trichotomy c x) as [Q|[->|Q]].
      - left. eapply M; eauto.
      - exfalso; eapply NO; eauto.
      - right. eapply M'; eauto. }
    assert (isZ (F cl) cl) as ZL by (apply isZ32; lia). assert (isZ (F cr) cr) as ZR by (apply isZ32; lia).
    assert (isZ (F yl) yl) as ZYL by (apply isZ32, short_abs; auto). assert (isZ (F yr) yr) as ZYR by (apply isZ32, short_abs; auto).
    unfold lin_value. cbn [x_left x_right y_left y_right].
    rewrite (flt_isZ _ _ _ _ ZL Z0), (flt_isZ _ _ _ _ ZR Z0), (feq_isZ _ _ _ _ ZL ZR).
    replace (cl <? 0) with false by lia. replace (cr <? 0) with false by lia. replace (cl =? cr) with false by lia. cbn [andb].
    apply short_of_isZ.
    2:{ pose proof (blend_between yl yr cl x cr ltac:(lia)). unfold in_short in *. lia. }
    apply f32_div_trunc; [|apply isZ32_sub; auto; lia| |lia].
    + destruct (blend_small yl yr cl x cr ltac:(lia) GP) as (S1 & S2 & S3).
      apply isZ32_add; [apply isZ32_mul; [auto|apply isZ32_sub; auto; lia|lia]|apply isZ32_mul; [auto|apply isZ32_sub; auto; lia|lia]|lia].
    + destruct (blend_small yl yr cl x cr ltac:(lia) GP) as (_ & _ & S3). lia.
  - exists y. destruct (OK _ _ _ C) as [Y B].
    split; [|split; [eapply Before; [split; [exact C|split; eauto]|auto]|cbn; left; auto]].
    unfold lin_value. cbn [x_left x_right y_left y_right]. rewrite min_neg.
    assert (isZ (F c) c) as ZC by (apply isZ32; lia). rewrite (flt_isZ _ _ _ _ ZC Z0). replace (c <? 0) with false by lia. cbn [andb].
    apply short_of_isZ; auto. apply trunc_isZ, isZ32, short_abs; auto.
  - exists y. destruct (OK _ _ _ C) as [Y B].
    split; [|split; [eapply After; [split; [exact C|split; eauto]|auto]|cbn; right; exists c, y; split; auto; lia]].
    unfold lin_value. cbn [x_left x_right y_left y_right]. rewrite min_neg.
    assert (isZ (F c) c) as ZC by (apply isZ32; lia). rewrite (flt_isZ _ _ _ _ ZC Z0). replace (c <? 0) with false by lia. cbn [andb].
    apply short_of_isZ; auto. apply trunc_isZ, isZ32, short_abs; auto.
  - exists nodata. split; [|split; [apply Nothing; auto|cbn; left; split; auto; intros t c y C; exfalso; eapply N; eauto]].
    unfold lin_value. cbn [x_left x_right y_left y_right]. rewrite min_neg. cbn [andb].
    apply short_of_isZ; auto. apply trunc_isZ, isZ32, short_abs; auto.
Qed.

Lemma firstn_skipn_at {A} (l : list A) n : (n <= length l)%nat -> zlen (firstn n l) = Z.of_nat n.
Proof. intros H. unfold zlen. rewrite firstn_length. lia. Qed.

Lemma lin_loop_spec : in_short nodata -> gaps_ok nodata s -> forall grid tl,
  Forall (fun g => 0 <= g <= 2 ^ 24) grid -> StronglySorted Z.lt grid ->
  (tl = 0 \/ exists c y, clear tl c y /\ Forall (fun g => c < g) grid) ->
  exists out, lin_loop nodata s tl grid = Ret out /\ Forall2 (interpolated nodata s) grid out.
Proof.
  intros NS GAP. induction grid as [|g grid IH]; intros tl B ST T; cbn [lin_loop]; [eauto|].
  inversion B as [|? ? Bg B']; subst. inversion ST as [|? ? ST' LT]; subst.
  set (v := lin_scan _ _ _ _ _).
  assert (found g tl v) as FD.
  { assert (0 <= tl <= zlen s) as TL.
    { destruct T as [->|(c & y & [G _] & _)]; [split; [lia|apply zlen_nonneg]|apply get_at_inv in G; lia]. }
    assert (zlen (firstn (Z.to_nat tl) s) = tl) as ZT by (rewrite firstn_skipn_at; unfold zlen in *; lia).
    pose proof (lin_scan_spec g tl Bg (skipn (Z.to_nat tl) s) (firstn (Z.to_nat tl) s) (eq_sym (firstn_skipn _ _))) as LS.
    rewrite ZT in LS. unfold v. apply LS with (L := None); clear LS.
    - intros t c y C LT'. destruct T as [->|(c0 & y0 & C0 & L0)]; [destruct C as [G _]; apply get_at_inv in G; lia|].
      inversion L0; subst. destruct C as [G _], C0 as [G0 _]. pose proof (SORT _ _ _ _ _ _ G G0 ltac:(lia)). lia.
    - split; auto. destruct T as [->|(c0 & y0 & [G0 N0] & L0)]; [left; intros t c y [G _]; apply get_at_inv in G; lia|right].
      inversion L0; subst. rewrite <- (firstn_skipn (Z.to_nat tl) s), get_at_app_r, ZT, Z.sub_diag in G0 by lia.
      destruct (skipn (Z.to_nat tl) s) as [|[c y] r] eqn:E; [discriminate|]. cbn in G0. inversion G0; subst. eauto 7. }
  destruct (found_value g tl v Bg NS GAP FD) as (r & -> & I & T'). cbn [bind].
  destruct (IH (t_left v)) as (out & -> & F2); auto.
  - destruct T' as [[-> AL]|(c & y & C & LE)].
    + destruct T as [->|(c & y & C & L0)]; [left; auto|]. inversion L0; subst. specialize (AL _ _ _ C). lia.
    + right. exists c, y. split; auto. eapply Forall_impl; [|exact LT]. cbn; intros; lia.
  - cbn [bind]. eauto.
Qed.
End Lin.

(** ** Moving average *)
Section Mov.
Context (nodata w : Z) (s : list (Z * Z)).
Hypothesis (SORT : sorted_days s).
Hypothesis (DAYS : days_ok s).
Hypothesis (W : 0 <= w <= 2 ^ 24).
Hypothesis (LEN : zlen s < 2 ^ 37).

Lemma in_window_app x a b : in_window nodata w x (a ++ b) = in_window nodata w x a ++ in_window nodata w x b.
Proof. unfold in_window. rewrite filter_app, map_app. reflexivity. Qed.
Lemma in_window_none x l : (forall c y, In (c, y) l -> y = nodata \/ w < Z.abs (c - x)) -> in_window nodata w x l = [].
Proof.
  intros H. unfold in_window. induction l as [|[c y] l IH]; [reflexivity|]. cbn [filter fst snd].
  destruct (H c y) as [->|L]; [left; auto| |].
  - rewrite Z.eqb_refl. cbn [negb andb]. apply IH. intros; apply H; right; auto.
  - replace (Z.abs (c - x) <=? w) with false by lia. rewrite andb_false_r. apply IH. intros; apply H; right; auto.
Qed.
Lemma total_app a b : total (a ++ b) = total a + total b.
Proof. unfold total. induction a as [|x a IH]; cbn [app fold_right]; lia. Qed.
Lemma window_values x l : (forall p, In p l -> In p s) -> Forall in_short (in_window nodata w x l).
Proof.
  intros H. apply Forall_forall. intros y I. unfold in_window in I. apply in_map_iff in I.
  destruct I as ([c y'] & <- & I). apply filter_In in I. destruct I as [I _].
  apply H in I. apply In_get_at in I. destruct I as (t & _ & G). apply DAYS in G. cbn. tauto.
Qed.
Lemma total_bound l : Forall in_short l -> Z.abs (total l) <= 32768 * zlen l.
Proof.
  unfold total. induction 1 as [|y l Y _ IH]; [cbn; lia|]. rewrite zlen_cons. cbn [fold_right]. unfold in_short in Y. lia.
Qed.
Lemma total_range l : Forall in_short l -> -32768 * zlen l <= total l <= 32767 * zlen l.
Proof.
  unfold total. induction 1 as [|y l Y _ IH]; [cbn; lia|]. rewrite zlen_cons. cbn [fold_right]. unfold in_short in Y. lia.
Qed.
Lemma window_length x l : zlen (in_window nodata w x l) <= zlen l.
Proof.
  unfold in_window, zlen. rewrite map_length.
  match goal with |- Z.of_nat (length (filter ?f l)) <= _ => assert (length (filter f l) <= length l)%nat; [|lia] end.
  induction l as [|a l IH]; cbn [filter]; auto. destruct (_ && _); cbn [length] in *; lia.
Qed.

Lemma mov_scan_spec x : 0 <= x <= 2 ^ 24 -> forall suf pre, s = pre ++ suf -> forall sum num tl,
  isZ sum (total (in_window nodata w x pre)) -> isZ num (zlen (in_window nodata w x pre)) ->
  0 <= tl <= zlen pre ->
  (forall t c y, get_at s t = Some (c, y) -> t < tl -> y = nodata \/ w < x - c) ->
  exists sum' num' tl', mov_scan nodata w (f32_of_Z x) (zlen pre) suf sum num tl = (sum', num', tl') /\
    isZ sum' (total (in_window nodata w x s)) /\ isZ num' (zlen (in_window nodata w x s)) /\
    0 <= tl' <= zlen s /\
    (forall t c y, get_at s t = Some (c, y) -> t < tl' -> y = nodata \/ w < x - c).
Proof.
  intros X. induction suf as [|[c y] suf IH]; intros pre S sum num tl ZS ZN TL H.
  - rewrite app_nil_r in S. subst pre. cbn [mov_scan]. eauto 10.
  - assert (get_at s (zlen pre) = Some (c, y)) as G.
    { rewrite S, get_at_app_r by lia. rewrite Z.sub_diag. reflexivity. }
    assert (s = (pre ++ [(c, y)]) ++ suf) as S' by (rewrite <- app_assoc; exact S).
    assert (zlen (pre ++ [(c, y)]) = zlen pre + 1) as ZL by (rewrite zlen_app; reflexivity).
    destruct (DAYS _ _ _ G) as [DC DY].
    assert (zlen pre + 1 <= zlen s) as LP by (rewrite S, zlen_app, zlen_cons; pose proof (zlen_nonneg suf); lia).
    assert (isZ (f32_of_Z c) c) as ZC by (apply isZ32; lia). assert (isZ (f32_of_Z x) x) as ZX by (apply isZ32; lia).
    assert (isZ (f32_of_Z w) w) as ZW by (apply isZ32; lia).
    cbn [mov_scan]. rewrite <- ZL. destruct (Z.eqb_spec y nodata) as [YN|YN].
    + assert (in_window nodata w x (pre ++ [(c, y)]) = in_window nodata w x pre) as EW.
      { rewrite in_window_app, (in_window_none x [(c, y)]), app_nil_r; auto.
        intros c' y' [E|[]]. inversion E; subst. auto. }
      apply (IH _ S'); rewrite ?EW; auto. lia.
    + rewrite (flt_isZ _ _ _ _ ZW (isZ32_sub _ _ _ _ ZX ZC ltac:(lia))).
      rewrite (flt_isZ _ _ _ _ ZW (isZ32_sub _ _ _ _ ZC ZX ltac:(lia))).
      destruct (Z.ltb_spec w (x - c)) as [E|NE].
      * assert (in_window nodata w x (pre ++ [(c, y)]) = in_window nodata w x pre) as EW.
        { rewrite in_window_app, (in_window_none x [(c, y)]), app_nil_r; auto.
          intros c' y' [Q|[]]. inversion Q; subst. right. lia. }
        apply (IH _ S'); rewrite ?EW; auto; [pose proof (zlen_nonneg pre); lia|].
        intros t c' y' G' LT. right. pose proof (SORT _ _ _ _ _ _ G' G ltac:(lia)). lia.
      * destruct (Z.ltb_spec w (c - x)) as [E|NE2].
        -- assert (in_window nodata w x s = in_window nodata w x pre) as EW.
           { rewrite S, in_window_app, (in_window_none x ((c, y) :: suf)), app_nil_r; auto.
             intros c' y' I. right. apply In_get_at in I. destruct I as (i & I1 & I2).
             assert (get_at s (zlen pre + i) = Some (c', y')) as G'.
             { rewrite S, get_at_app_r by lia. rewrite <- I2. f_equal. lia. }
             pose proof (SORT _ _ _ _ _ _ G G' ltac:(lia)). lia. }
           rewrite EW. exists sum, num, tl. repeat split; auto; try apply ZS; try apply ZN; lia.
        -- assert (in_window nodata w x (pre ++ [(c, y)]) = in_window nodata w x pre ++ [y]) as EW.
           { rewrite in_window_app. f_equal. unfold in_window. cbn [filter fst snd].
             replace (y =? nodata) with false by lia. replace (Z.abs (c - x) <=? w) with true by lia. reflexivity. }
           assert (Z.abs (total (in_window nodata w x pre ++ [y])) <= 2 ^ 53) as BT.
           { rewrite <- EW. eapply Z.le_trans; [apply total_bound, window_values|].
             - intros p I. rewrite S'. apply in_or_app; auto.
             - pose proof (window_length x (pre ++ [(c, y)])). lia. }
           pose proof (window_length x pre) as WL. pose proof (zlen_nonneg (in_window nodata w x pre)).
           rewrite total_app in BT. replace (total [y]) with y in BT by (unfold total; cbn [fold_right]; lia).
           apply (IH _ S'); rewrite ?EW, ?zlen_app, ?total_app; auto; [| |unfold zlen in *; cbn [length] in *; lia].
           ++ replace (total [y]) with y by (unfold total; cbn [fold_right]; lia).
              apply isZ64_add; auto. apply isZ64. pose proof (short_abs y DY). lia.
           ++ replace (zlen [y]) with 1 by reflexivity. apply isZ64_add; auto; [apply isZ64; lia|]. lia.
Qed.

Lemma mov_loop_spec : forall grid tl, 0 <= tl <= zlen s ->
  Forall (fun g => 0 <= g <= 2 ^ 24) grid -> StronglySorted Z.lt grid ->
  Forall (fun g => forall t c y, get_at s t = Some (c, y) -> t < tl -> y = nodata \/ w < g - c) grid ->
  mov_loop nodata w s tl grid = Ret (map (fun g => moving_value nodata w g s) grid).
Proof.
  induction grid as [|g grid IH]; intros tl TL B ST T; cbn [mov_loop map]; [reflexivity|].
  inversion B as [|? ? Bg B']; subst. inversion ST as [|? ? ST' LT]; subst. inversion T as [|? ? Tg T']; subst.
  assert (zlen (firstn (Z.to_nat tl) s) = tl) as ZT by (rewrite firstn_skipn_at; unfold zlen in *; lia).
  assert (in_window nodata w g (firstn (Z.to_nat tl) s) = []) as E0.
  { apply in_window_none. intros c y I. apply In_get_at in I. destruct I as (i & I1 & I2).
    destruct (Tg i c y) as [|]; [|lia|auto|right; lia].
    rewrite <- (firstn_skipn (Z.to_nat tl) s). rewrite get_at_app_l; auto. lia. }
  destruct (mov_scan_spec g Bg (skipn (Z.to_nat tl) s) (firstn (Z.to_nat tl) s) (eq_sym (firstn_skipn _ _))
             (f64_of_Z 0) (f64_of_Z 0) tl) as (sum & num & tl' & E & ZS & ZN & TL' & H').
  - rewrite E0. apply isZ64. cbn; lia.
  - rewrite E0. apply isZ64. cbn; lia.
  - lia.
  - exact Tg.
  - rewrite ZT in E. rewrite E.
    assert (isZ (f64_of_Z 0) 0) as Z0 by (apply isZ64; lia).
    rewrite (flt_isZ _ _ _ _ Z0 ZN).
    assert ((if 0 <? zlen (in_window nodata w g s) then short_of_float (f64_div sum num) else Ret nodata)
            = Ret (moving_value nodata w g s)) as ->.
    { unfold moving_value. pose proof (total_bound _ (window_values g s (fun p I => I))) as BT.
      pose proof (window_length g s) as WL. pose proof (window_values g s (fun p I => I)) as VS.
      remember (in_window nodata w g s) as l. clear Heql. destruct l as [|a l]; [reflexivity|].
      replace (0 <? zlen (a :: l)) with true by (rewrite zlen_cons; pose proof (zlen_nonneg l); lia).
      assert (0 < zlen (a :: l)) as PL by (rewrite zlen_cons; pose proof (zlen_nonneg l); lia).
      apply short_of_isZ; [apply f64_div_trunc; auto; lia|].
      assert (-32768 <= Z.quot (total (a :: l)) (zlen (a :: l)) <= 32767); [|unfold in_short; lia].
      apply quot_between; auto. apply total_range; auto. }
    cbn [bind]. rewrite IH; auto.
    rewrite Forall_forall. intros g' I t c y G L. destruct (H' t c y G L) as [|Q]; auto. right.
    rewrite Forall_forall in LT. specialize (LT g' I). lia.
Qed.
End Mov.
