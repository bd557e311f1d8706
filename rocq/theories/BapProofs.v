From Coq Require Import Reals Lra Lia.
From Flocq Require Import Core.
From Verif Require Import Base Loops BaseFacts StatsModel StatsSpec StatsProofs QaiModel AggModel ChunkProofs BapModel BapSpec.
#[local] Open Scope Z_scope.

Lemma num_lt_ok a b : num_lt a b = true <-> exists x, a = Some x /\ (x < b)%R.
Proof.
  unfold num_lt. destruct a as [x|].
  - destruct (Rlt_dec x b); split; intros H; try discriminate; eauto. destruct H as (y & [= <-] & L). contradiction.
  - split; [discriminate|]. intros (x & Q & _). discriminate.
Qed.
Lemma num_gt_ok a b : num_gt a b = true <-> exists x, a = Some x /\ (b < x)%R.
Proof.
  unfold num_gt. destruct a as [x|].
  - destruct (Rlt_dec b x); split; intros H; try discriminate; eauto. destruct H as (y & [= <-] & L). contradiction.
  - split; [discriminate|]. intros (x & Q & _). discriminate.
Qed.
Lemma positive_ok x : positive x = true <-> (0 < x)%R.
Proof. unfold positive. destruct (Rlt_dec 0 x); split; intros; try discriminate; auto; contradiction. Qed.
Lemma isnull_ok x : isnull x = true <-> x = 0%R.
Proof. unfold isnull. destruct (Req_EM_T x 0); split; intros; try discriminate; auto; contradiction. Qed.
Lemma isnull_no x : x <> 0%R -> isnull x = false.
Proof. intros H. destruct (isnull x) eqn:E; auto. apply isnull_ok in E. contradiction. Qed.

Lemma season_ok b o s : o_valid o && negb (off_season b s) = true <-> in_season b o s.
Proof.
  unfold off_season, in_season. rewrite andb_true_iff, negb_true_iff, andb_false_iff. rewrite negb_false_iff.
  split; intros (V & D); split; auto; (destruct D as [D|D]; [auto|right]).
  - intros d E. destruct (Rlt_dec d (1 / 100)) as [L|L]; [|lra].
    assert (num_lt (s_d s) (1 / 100) = true) as K by (apply num_lt_ok; eauto). congruence.
  - destruct (num_lt (s_d s) (1 / 100)) eqn:E; auto. apply num_lt_ok in E. destruct E as (x & E & L). specialize (D x E). lra.
Qed.

Lemma haze_ok b l hs : haze_scores b l hs ->
  haze_stats b l = match hs with [] => (Some (-1)%R, Some (-1)%R) | _ => (Some (mean hs), if zlen hs =? 1 then None else Some (sample_sd hs)) end.
Proof.
  intros (keep & K & ->). unfold haze_stats.
  assert (filter (fun p => o_valid (fst p) && negb (off_season b (snd p))) l = filter keep l) as ->.
  { clear - K. induction K as [|p l H K IH]; cbn [filter]; auto. rewrite IH.
    assert (o_valid (fst p) && negb (off_season b (snd p)) = keep p) as ->; auto.
    apply eq_true_iff_eq. rewrite H. apply season_ok. }
  set (hs := map _ (filter keep l)). clearbody hs. destruct hs as [|h hs]; auto.
  fold (run_var (h :: hs)). destruct (run_var_spec (h :: hs) ltac:(discriminate)) as (-> & ->). unfold standdev_o.
  destruct (zlen (h :: hs) =? 1) eqn:E; auto. unfold sample_sd, standdev, variance, size, zlen. do 5 f_equal. now rewrite INR_IZR_INZ.
Qed.

Lemma skipped_ok b l hs o s : haze_scores b l hs -> skipped b (haze_stats b l) o s = false <-> eligible b hs o s.
Proof.
  intros H. rewrite (haze_ok b l hs H). unfold skipped, eligible. rewrite !orb_false_iff.
  rewrite <- season_ok, andb_true_iff, negb_true_iff, negb_false_iff.
  assert (forall x y : R, num_lt (Some x) y = true <-> (x < y)%R) as NL.
  { intros. rewrite num_lt_ok. split; [intros (z & [= <-] & L); auto|eauto]. }
  assert (negb (b_hazy b) && positive (w_h b) && num_lt (Some (s_h s)) (1 / 100) &&
     num_gt (fst match hs with [] => (Some (-1)%R, Some (-1)%R) | _ :: _ => (Some (mean hs), if zlen hs =? 1 then None else Some (sample_sd hs)) end) (1 / 100) &&
     num_gt (snd match hs with [] => (Some (-1)%R, Some (-1)%R) | _ :: _ => (Some (mean hs), if zlen hs =? 1 then None else Some (sample_sd hs)) end) (1 / 100) = false <-> ~ too_hazy b hs s) as ->.
  { rewrite <- not_true_iff_false. apply not_iff_compat. unfold too_hazy. rewrite !andb_true_iff, negb_true_iff, positive_ok, NL, !num_gt_ok.
    destruct hs as [|h hs].
    - cbn [fst snd length]. split; [|intros (_ & _ & _ & L & _); lia]. intros ((_ & x & [= <-] & L) & _). lra.
    - cbn [fst snd]. destruct (Z.eqb_spec (zlen (h :: hs)) 1) as [E|E].
      + split; [intros (_ & x & Q & _); discriminate|]. intros (_ & _ & _ & L & _). unfold zlen in E. lia.
      + assert (2 <= length (h :: hs))%nat by (unfold zlen in E; cbn [length] in *; lia). split.
        * intros ((((A & B) & C) & x & [= <-] & D) & y & [= <-] & F). tauto.
        * intros (A & B & C & _ & D & F). repeat split; eauto. }
  assert (negb (b_cloudy b) && positive (w_c b) && num_lt (Some (s_c s)) (1 / 100) = false <-> ~ too_cloudy b s) as ->.
  { rewrite <- not_true_iff_false. apply not_iff_compat. unfold too_cloudy. rewrite !andb_true_iff, negb_true_iff, positive_ok, NL. tauto. }
  tauto.
Qed.

(** ** Selection *)
Lemma counts_snoc {A} (P : A -> Prop) l a n : counts P l n -> (P a -> counts P (l ++ [a]) (n + 1)) /\ (~ P a -> counts P (l ++ [a]) n).
Proof.
  intros C. induction C as [|x l n Hx C IH|x l n Hx C IH]; cbn [app].
  - split; intros H; [apply (cnt_yes P a [] 0)|apply (cnt_no P a [] 0)]; auto; constructor.
  - destruct IH as (I1 & I2). split; intros H; apply cnt_yes; auto.
  - destruct IH as (I1 & I2). split; intros H; apply cnt_no; auto.
Qed.

Section Select.
Variables (b : bap) (ll : list (obs * scores)) (hs : list R).
Hypothesis HZ : haze_scores b ll hs.
Let good (e : obs * scores * Z) := eligible b hs (fst (fst e)) (snd (fst e)).

Lemma select_ok l : (forall e, In e l -> good e -> exists x, s_t (snd (fst e)) = Some x /\ (-1 < x)%R) ->
  exists best which n, fold_left (select_step b (haze_stats b ll)) l ((-1)%R, None, 0) = (best, which, n) /\ counts good l n /\
    match which with None => n = 0 /\ best = (-1)%R /\ (forall e, In e l -> ~ good e) | Some e => 0 < n /\ first_best b hs l e best end.
Proof.
  induction l as [|e l IH] using rev_ind; intros H.
  - exists (-1)%R, None, 0. repeat split; auto. constructor.
  - destruct IH as (best & which & n & E & C & W). { intros f I. apply H. apply in_app_iff. now left. }
    rewrite fold_left_app. cbn [fold_left]. rewrite E. unfold select_step. destruct (counts_snoc _ _ e _ C) as (C1 & C2).
    destruct (skipped b (haze_stats b ll) (fst (fst e)) (snd (fst e))) eqn:S.
    + assert (~ good e) as G. { intros G. apply (skipped_ok b ll hs) in G; auto. congruence. }
      exists best, which, n. repeat split; auto. destruct which as [f|].
      * destruct W as (N & before & after & -> & F1 & F2 & F3 & F4). split; auto. exists before, (after ++ [e]). refine (conj _ (conj F1 (conj F2 (conj F3 _)))).
        -- now rewrite <- app_assoc.
        -- intros f' y I Gf. apply in_app_iff in I. destruct I as [I|[<- |[]]]; [eauto|contradiction].
      * destruct W as (N & B & W). repeat split; auto. intros f I. apply in_app_iff in I. destruct I as [I|[<- |[]]]; auto.
    + apply (skipped_ok b ll hs) in S; auto. fold (good e) in S.
      destruct (H e ltac:(apply in_app_iff; right; now left) S) as (x & X & L). rewrite X.
      destruct (Rlt_dec best x) as [B|B].
      * exists x, (Some e), (n + 1). repeat split; auto.
        { destruct which; lia. }
        exists l, []. refine (conj eq_refl (conj S (conj X (conj _ _)))); [|intros f y []].
        intros f y I G Y. destruct which as [g|].
        -- destruct W as (_ & before & after & -> & F1 & F2 & F3 & F4). apply in_app_iff in I. destruct I as [I|[<- |I]].
           ++ specialize (F3 f y I G Y). lra.
           ++ assert (y = best) by congruence. lra.
           ++ specialize (F4 f y I G Y). lra.
        -- destruct W as (_ & _ & W). destruct (W f I G).
      * exists best, which, (n + 1). repeat split; auto. destruct which as [g|].
        -- destruct W as (N & before & after & -> & F1 & F2 & F3 & F4). split; [lia|]. exists before, (after ++ [e]). refine (conj _ (conj F1 (conj F2 (conj F3 _)))).
           ++ now rewrite <- app_assoc.
           ++ intros f y I G Y. apply in_app_iff in I. destruct I as [I|[<- |[]]]; [eauto|]. assert (y = x) by congruence. lra.
        -- destruct W as (_ & -> & _). lra.
Qed.
End Select.
