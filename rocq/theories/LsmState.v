(** The arrays and sums after the foreground pixels [ms] of a window. *)
From Coq Require Import Reals Lra Lia.
From Verif Require Import Base Loops BaseFacts LoopsFacts ImgSpec StatsModel StatsSpec StatsProofs AggModel ChunkProofs CsoProofs LsmModel LsmSpec LsmProofs.
#[local] Open Scope Z_scope.

(** ** Lists *)
Definition firsts (l : list Z) : list Z := fold_left (fun us c => if in_dec Z.eq_dec c us then us else us ++ [c]) l [].
Lemma firsts_snoc l c : firsts (l ++ [c]) = if in_dec Z.eq_dec c (firsts l) then firsts l else firsts l ++ [c].
Proof. unfold firsts. now rewrite fold_left_app. Qed.
Lemma firsts_In l : forall c, In c (firsts l) <-> In c l.
Proof.
  induction l as [|a l IH] using rev_ind; intros c; [reflexivity|]. rewrite firsts_snoc, in_app_iff. destruct (in_dec Z.eq_dec a (firsts l)) as [I|N].
  - rewrite IH in *. cbn [In]. intuition (subst; auto).
  - rewrite in_app_iff, IH. reflexivity.
Qed.
Lemma NoDup_snoc {A} (l : list A) a : NoDup l -> ~ In a l -> NoDup (l ++ [a]).
Proof.
  induction 1 as [|b l N D IH]; cbn [app]; intros H; [constructor; [intros []|constructor]|]. constructor.
  - rewrite in_app_iff. intros [I|[->|[]]]; auto. apply H. now left.
  - apply IH. intros I. apply H. now right.
Qed.
Lemma firsts_NoDup l : NoDup (firsts l).
Proof.
  induction l as [|a l IH] using rev_ind; [constructor|]. rewrite firsts_snoc. destruct (in_dec Z.eq_dec a (firsts l)); auto. now apply NoDup_snoc.
Qed.
Lemma firsts_len l : zlen (firsts l) <= zlen l.
Proof.
  induction l as [|a l IH] using rev_ind; [reflexivity|]. rewrite firsts_snoc. rewrite (zlen_a l). change (zlen [a]) with 1. destruct (in_dec Z.eq_dec a (firsts l)); [lia|]. rewrite zlen_a. change (zlen [a]) with 1. lia.
Qed.

Definition tab {A} (n : Z) (f : Z -> A) : list A := map f (zupto n).
Lemma tab_get {A} n (f : Z -> A) c : 0 <= c < n -> get_at (tab n f) c = Some (f c).
Proof. intros H. unfold tab. now rewrite get_map, get_zupto. Qed.
Lemma tab_len {A} n (f : Z -> A) : 0 <= n -> zlen (tab n f) = n.
Proof. intros H. unfold tab. rewrite zlen_map. unfold zlen. rewrite zupto_length. lia. Qed.
Lemma tab_ext {A} n (f g : Z -> A) : (forall c, 0 <= c < n -> f c = g c) -> tab n f = tab n g.
Proof. intros H. apply map_ext_in. intros c I. rewrite zupto_In in I. auto. Qed.
Lemma tab_set {A} n (f : Z -> A) c v : 0 <= c < n -> set_at (tab n f) c v = Some (tab n (fun x => if x =? c then v else f x)).
Proof.
  intros H. rewrite set_at_some by (rewrite tab_len; lia). f_equal. assert (set_at (tab n f) c v = Some (list_set (tab n f) (Z.to_nat c) v)) as E by (apply set_at_some; rewrite tab_len; lia).
  apply get_at_ext. - rewrite (set_at_length _ _ _ _ E), !tab_len by lia. reflexivity.
  - intros i I. rewrite (set_at_length _ _ _ _ E), tab_len in I by lia. rewrite tab_get by lia. destruct (Z.eqb_spec i c) as [->|N].
    + apply (get_set_same _ _ _ _ E). + rewrite (get_set_other _ _ _ _ _ E) by auto. now apply tab_get.
Qed.
Lemma tab_repeat {A} n (v : A) : repeat v (Z.to_nat n) = tab n (fun _ => v).
Proof. unfold tab. rewrite <- (zupto_length n). induction (zupto n) as [|x l IH]; cbn [length repeat map]; congruence. Qed.
Lemma set_mid {A} (l1 : list A) x l2 v : set_at (l1 ++ x :: l2) (zlen l1) v = Some (l1 ++ v :: l2).
Proof.
  rewrite set_at_some by (rewrite zlen_a, zlen_c; pose proof (zlen_nonneg l1); pose proof (zlen_nonneg l2); lia). f_equal. unfold zlen. rewrite Nat2Z.id. induction l1 as [|a l1 IH]; cbn [app length list_set]; congruence.
Qed.
Lemma get_mid0 {A} (l1 : list A) x l2 : get_at (l1 ++ x :: l2) (zlen l1) = Some x.
Proof. rewrite get_app_r by lia. rewrite Z.sub_diag. apply get_cons_0. Qed.

Definition zsum (f : Z -> Z) (l : list Z) : Z := fold_right (fun q a => f q + a) 0 l.
Lemma zsum_app f a b : zsum f (a ++ b) = zsum f a + zsum f b.
Proof. induction a as [|x a IH]; cbn [app zsum fold_right]; [reflexivity|]. fold (zsum f (a ++ b)) (zsum f a). lia. Qed.
Lemma zsum_R f l : IZR (zsum f l) = sum (fun q => IZR (f q)) l.
Proof. induction l as [|x l IH]; cbn [zsum fold_right sum]; [reflexivity|]. fold (zsum f l). now rewrite plus_IZR, IH. Qed.

Section State.
Variables (pa : params) (ft : feature) (fg : list bool) (lab : list Z) (nobj p : Z).
Let r := l_radius pa.
Let nx := f_nx ft.
Let ny := f_ny ft.
Hypothesis R0 : 0 <= r.
Hypothesis NO : 0 < nobj.

Let side q := sides r nx ny fg p q.
Definition labels (ms : list Z) : list Z := map (val lab) ms.
Definition area (ms : list Z) (c : Z) : Z := zlen (same lab ms c).
Definition perim (ms : list Z) (c : Z) : Z := zsum side (same lab ms c).
Definition present (ms : list Z) (c : Z) : bool := existsb (Z.eqb c) (labels ms).
Definition found (ms : list Z) : list Z := firsts (labels ms).
Definition priv_of (ms : list Z) : priv :=
  mkPriv (found ms ++ repeat 0 (Z.to_nat (ksize r - zlen (found ms)))) (zlen (found ms)) (tab (nobj + 1) (perim ms)) (tab (nobj + 1) (area ms)) (tab (nobj + 1) (present ms)).
Let vals ms := values (f_nodata ft) (f_dat ft) ms.
Let poss ms := positives (f_dat ft) ms.
Definition sums_of (ms : list Z) : sums :=
  mkSums (zlen ms) (zsum side ms) (zlen (vals ms)) (run_var (map IZR (vals ms))) (fold_left Z.max (vals ms) 0) (sum (fun v => ln (IZR v)) (poss ms)) (zlen (poss ms)).

Lemma priv_nil : priv0 r nobj = priv_of [].
Proof.
  unfold priv0, priv_of, found, labels, firsts. cbn [map fold_left app]. f_equal; [f_equal; unfold zlen; cbn [length]; f_equal; lia|..]; now rewrite tab_repeat.
Qed.
Lemma same_snoc ms q c : same lab (ms ++ [q]) c = same lab ms c ++ (if val lab q =? c then [q] else []).
Proof. unfold same. rewrite filter_app. cbn [filter]. destruct (val lab q =? c); reflexivity. Qed.
Lemma present_spec ms c : present ms c = true <-> In c (found ms).
Proof.
  unfold present, found. rewrite firsts_In, existsb_exists. split.
  - intros (x & I & E). apply Z.eqb_eq in E. now subst.
  - intros I. exists c. split; auto. apply Z.eqb_refl.
Qed.
Lemma present_snoc ms q c : present (ms ++ [q]) c = (present ms c || (c =? val lab q)).
Proof. unfold present, labels. rewrite map_app, existsb_app. cbn [map existsb]. now rewrite orb_false_r. Qed.
Lemma found_snoc ms q : found (ms ++ [q]) = if present ms (val lab q) then found ms else found ms ++ [val lab q].
Proof.
  unfold found, labels. rewrite map_app. cbn [map]. rewrite firsts_snoc. fold (labels ms) (found ms). destruct (in_dec Z.eq_dec (val lab q) (found ms)) as [I|N].
  - apply present_spec in I. now rewrite I.
  - destruct (present ms (val lab q)) eqn:E; auto. apply present_spec in E. contradiction.
Qed.
Lemma found_len ms : zlen (found ms) <= zlen ms.
Proof using lab. clear R0 NO. unfold found. etransitivity; [apply firsts_len|]. unfold labels. rewrite zlen_map. reflexivity. Qed.

Lemma value_ok ms q : add_value (f_nodata ft) (val (f_dat ft) q) (sums_of ms) =
  mkSums (zlen ms) (zsum side ms) (zlen (vals (ms ++ [q]))) (run_var (map IZR (vals (ms ++ [q])))) (fold_left Z.max (vals (ms ++ [q])) 0)
    (sum (fun v => ln (IZR v)) (poss (ms ++ [q]))) (zlen (poss (ms ++ [q]))).
Proof.
  set (v := val (f_dat ft) q).
  assert (vals (ms ++ [q]) = vals ms ++ (if negb (v =? f_nodata ft) then [v] else [])) as -> by (unfold vals, values; rewrite map_app, filter_app; reflexivity).
  assert (poss (ms ++ [q]) = poss ms ++ (if v >? 0 then [v] else [])) as -> by (unfold poss, positives; rewrite map_app, filter_app; reflexivity).
  unfold add_value, sums_of. cbn [s_area s_edge s_valid s_var s_max s_logsum s_logn].
  assert ((if negb (v =? f_nodata ft) then mkSums (zlen ms) (zsum side ms) (zlen (vals ms) + 1)
      (if zlen (vals ms) + 1 =? 1 then mkVar (IZR v) (r_vx (run_var (map IZR (vals ms)))) else var_recurrence (IZR v) (run_var (map IZR (vals ms))) (IZR (zlen (vals ms) + 1)))
      (if fold_left Z.max (vals ms) 0 <? v then v else fold_left Z.max (vals ms) 0) (sum (fun v => ln (IZR v)) (poss ms)) (zlen (poss ms))
    else sums_of ms) = let vs := vals ms ++ (if negb (v =? f_nodata ft) then [v] else []) in
      mkSums (zlen ms) (zsum side ms) (zlen vs) (run_var (map IZR vs)) (fold_left Z.max vs 0) (sum (fun v => ln (IZR v)) (poss ms)) (zlen (poss ms))) as E.
  { cbv zeta. destruct (v =? f_nodata ft); cbn [negb]; [now rewrite app_nil_r|]. f_equal.
    - now rewrite zlen_a.
    - rewrite map_app. cbn [map]. assert (run_var (map IZR (vals ms) ++ [IZR v]) = var_recurrence (IZR v) (run_var (map IZR (vals ms))) (INR (S (length (map IZR (vals ms)))))) as -> by (unfold run_var; rewrite feed_snoc, S_INR; reflexivity). rewrite map_length.
      assert (IZR (zlen (vals ms) + 1) = INR (S (length (vals ms)))) as -> by (unfold zlen; rewrite S_INR, plus_IZR, INR_IZR_INZ; reflexivity).
      destruct (zlen (vals ms) + 1 =? 1) eqn:Z1; auto. assert (vals ms = []) as ->. { destruct (vals ms); auto. rewrite zlen_c in Z1. pose proof (zlen_nonneg l). lia. }
      cbn [map length]. unfold run_var, feed, var_recurrence. cbn [r_mx r_vx INR]. f_equal; field.
    - rewrite fold_left_app. cbn [fold_left]. destruct (_ <? v) eqn:LT; lia. }
  unfold sums_of in E. rewrite E. cbv zeta. cbn [s_area s_edge s_valid s_var s_max s_logsum s_logn]. destruct (v >? 0); [|now rewrite app_nil_r].
  f_equal; [rewrite sum_app; cbn [sum]; ring|now rewrite zlen_a].
Qed.

Lemma add_ok ms q : zlen ms < ksize r -> (forall x, In x (ms ++ [q]) -> 1 <= val lab x <= nobj) ->
  add pa ft fg lab p (priv_of ms, sums_of ms) q = Ret (priv_of (ms ++ [q]), sums_of (ms ++ [q])).
Proof.
  intros L V. unfold add. cbn [fst snd]. rewrite value_ok. set (c := val lab q). assert (1 <= c <= nobj) as C by (apply V; apply in_or_app; right; now left).
  fold r nx ny. fold (side q). unfold add_patch. replace (c >? 0) with true by lia. cbn [priv_of t_exists t_uniq t_n t_perim t_area]. rewrite tab_get by lia. cbn [of_option bind].
  set (rest := mkSums _ _ _ _ _ _ _). set (sn := sums_of (ms ++ [q])).
  assert (sn = mkSums (zlen ms + 1) (zsum side ms + side q) (s_valid rest) (s_var rest) (s_max rest) (s_logsum rest) (s_logn rest)) as ->.
  { unfold sn, sums_of, rest. cbn [s_valid s_var s_max s_logsum s_logn]. f_equal; [now rewrite zlen_a|]. rewrite zsum_app. cbn [zsum fold_right]. ring. }
  assert (forall n, n <> 0 -> (if n =? 0 then 0 else 1) = 1) as _ by (intros; destruct (n =? 0) eqn:?; lia).
  pose proof (found_len ms) as FL. pose proof (zlen_nonneg (found ms)) as F0.
  assert (perim_tab : set_at (tab (nobj + 1) (perim ms)) c (perim ms c + side q) = Some (tab (nobj + 1) (perim (ms ++ [q])))).
  { rewrite tab_set by lia. f_equal. apply tab_ext. intros x X. unfold perim. rewrite same_snoc, zsum_app. destruct (Z.eqb_spec x c) as [->|N].
    - fold c. rewrite Z.eqb_refl. cbn [zsum fold_right]. lia.
    - fold c. destruct (Z.eqb_spec c x); [congruence|]. cbn [zsum fold_right]. lia. }
  assert (area_tab : set_at (tab (nobj + 1) (area ms)) c (area ms c + 1) = Some (tab (nobj + 1) (area (ms ++ [q])))).
  { rewrite tab_set by lia. f_equal. apply tab_ext. intros x X. unfold area. rewrite same_snoc, zlen_a. destruct (Z.eqb_spec x c) as [->|N].
    - fold c. rewrite Z.eqb_refl. reflexivity.
    - fold c. destruct (Z.eqb_spec c x); [congruence|]. change (zlen (@nil Z)) with 0. lia. }
  unfold priv_of. rewrite found_snoc. fold c. destruct (present ms c) eqn:PR; cbn [bind t_n t_area t_perim t_exists t_uniq].
  - assert (zlen (found ms) <> 0) as NZ. { apply present_spec in PR. destruct (found ms); [destruct PR|]. rewrite zlen_c. pose proof (zlen_nonneg l). lia. }
    replace (zlen (found ms) =? 0) with false by lia. rewrite !tab_get by lia. cbn [of_option bind]. rewrite area_tab, perim_tab. cbn [of_option bind]. do 3 f_equal.
    apply tab_ext. intros x X. rewrite present_snoc. fold c. destruct (Z.eqb_spec x c) as [->|N]; [now rewrite PR|]. now rewrite orb_false_r.
  - assert (exists k, Z.to_nat (ksize r - zlen (found ms)) = S k /\ Z.to_nat (ksize r - zlen (found ms ++ [c])) = k) as (k & -> & K').
    { exists (Z.to_nat (ksize r - zlen (found ms) - 1)). rewrite zlen_a. change (zlen [c]) with 1. lia. }
    cbn [repeat]. rewrite set_mid. cbn [of_option bind]. rewrite tab_set by lia. cbn [of_option bind t_n t_area t_perim t_exists t_uniq].
    replace (zlen (found ms) + 1 =? 0) with false by lia. rewrite !tab_get by lia. cbn [of_option bind]. rewrite area_tab, perim_tab. cbn [of_option bind]. do 2 f_equal. rewrite K'. f_equal.
    + now rewrite <- app_assoc. + now rewrite zlen_a.
    + apply tab_ext. intros x X. rewrite present_snoc. fold c. destruct (Z.eqb_spec x c) as [->|N]; [now rewrite orb_true_r|]. now rewrite orb_false_r.
Qed.
Lemma state_ok ms : zlen ms <= ksize r -> (forall x, In x ms -> 1 <= val lab x <= nobj) ->
  ofold (add pa ft fg lab p) ms (priv0 r nobj, sums0) = Ret (priv_of ms, sums_of ms).
Proof.
  intros L V. rewrite priv_nil. destruct (ofold_inv (add pa ft fg lab p) (fun done st => st = (priv_of done, sums_of done)) ms [] (priv_of [], sums0)) as (s' & E & ->).
  - reflexivity.
  - intros pre a post st -> ->. cbn [app]. rewrite zlen_a, zlen_c in L. pose proof (zlen_nonneg post). rewrite add_ok; [eauto|lia|].
    intros x I. apply V. rewrite in_app_iff in *. destruct I as [I|[<- |[]]]; auto. right. now left.
  - exact E.
Qed.

(** Clearing brings back the initial arrays. *)
Lemma reset_ok ms : zlen ms <= ksize r -> (forall x, In x ms -> 1 <= val lab x <= nobj) -> reset (priv_of ms) = Ret (priv0 r nobj).
Proof.
  intros L V. unfold reset. cbn [priv_of t_n]. set (us := found ms). set (k := Z.to_nat (ksize r - zlen us)).
  pose (st (done : list Z) := mkPriv (repeat 0 (length done) ++ skipn (length done) us ++ repeat 0 k) (zlen us)
    (tab (nobj + 1) (fun c => if existsb (Z.eqb c) (firstn (length done) us) then 0 else perim ms c))
    (tab (nobj + 1) (fun c => if existsb (Z.eqb c) (firstn (length done) us) then 0 else area ms c))
    (tab (nobj + 1) (fun c => if existsb (Z.eqb c) (firstn (length done) us) then false else present ms c))).
  match goal with |- context [ofold ?f _ _] => set (F := f) end.
  destruct (ofold_inv F (fun (done : list Z) s => s = st done) (zupto (zlen us)) [] (st [])) as (s' & E & ->).
  - reflexivity.
  - intros pre u post s EQ ->. cbn [app].
    assert (u = Z.of_nat (length pre) /\ (length pre < length us)%nat) as (-> & LP).
    { assert (get_at (zupto (zlen us)) (zlen pre) = Some u) as G by (rewrite EQ; apply get_mid0). pose proof (get_at_inv _ _ _ G) as GR. assert (zlen (zupto (zlen us)) = zlen us) as LZ by (unfold zlen at 1; rewrite zupto_length; pose proof (zlen_nonneg us); lia).
      rewrite LZ in GR. rewrite get_zupto in G by exact GR. injection G as <-. unfold zlen in *. lia. }
    destruct (nth_error us (length pre)) as [c|] eqn:NE; [|apply nth_error_None in NE; lia].
    assert (skipn (length pre) us = c :: skipn (S (length pre)) us) as SK.
    { clear - NE. revert NE. generalize (length pre) as n. induction us as [|a l IH]; intros [|n]; cbn [nth_error skipn]; intros H; try discriminate; [congruence|]. now apply IH. }
    assert (firstn (S (length pre)) us = firstn (length pre) us ++ [c]) as FI.
    { clear - NE. revert NE. generalize (length pre) as n. induction us as [|a l IH]; intros [|n]; cbn [nth_error]; intros H; try discriminate; [injection H as <-; reflexivity|]. cbn [firstn app]. f_equal. now apply IH. }
    assert (1 <= c <= nobj) as C.
    { apply nth_error_In in NE. unfold us, found in NE. apply (proj1 (firsts_In _ _)) in NE. unfold labels in NE. apply in_map_iff in NE. destruct NE as (q & <- & I). now apply V. }
    assert (Z.of_nat (length pre) = zlen (repeat 0 (length pre))) as EZ by (unfold zlen; now rewrite repeat_length).
    eexists. split; [|reflexivity]. rewrite EZ. unfold F, st. cbv beta. cbn [t_uniq t_n t_perim t_area t_exists]. rewrite SK. cbn [app]. rewrite get_mid0. cbn [of_option bind].
    rewrite !tab_set by lia. cbn [of_option bind]. rewrite set_mid. cbn [of_option bind].
    rewrite app_length. cbn [length]. rewrite Nat.add_1_r, FI. f_equal. f_equal.
    + replace (S (length pre)) with (length pre + 1)%nat by lia. rewrite repeat_app. cbn [repeat]. rewrite <- app_assoc. replace (length pre + 1)%nat with (S (length pre)) by lia. reflexivity.
    + apply tab_ext. intros x X. rewrite existsb_app. cbn [existsb]. rewrite orb_false_r. destruct (x =? c); [now rewrite orb_true_r|now rewrite orb_false_r].
    + apply tab_ext. intros x X. rewrite existsb_app. cbn [existsb]. rewrite orb_false_r. destruct (x =? c); [now rewrite orb_true_r|now rewrite orb_false_r].
    + apply tab_ext. intros x X. rewrite existsb_app. cbn [existsb]. rewrite orb_false_r. destruct (x =? c); [now rewrite orb_true_r|now rewrite orb_false_r].
  - assert (priv_of ms = st []) as ->. { unfold st, priv_of. cbn [length repeat skipn app firstn existsb]. reflexivity. }
    rewrite E. cbn [bind app]. unfold st. cbn [t_uniq t_n t_perim t_area t_exists]. rewrite zupto_length. unfold zlen. rewrite Nat2Z.id, skipn_all, firstn_all. unfold priv0. cbn [app].
    assert (forall c, existsb (Z.eqb c) us = present ms c) as EP.
    { intros c. apply eq_true_iff_eq. rewrite present_spec. fold us. rewrite existsb_exists. split; [intros (x & I & X); apply Z.eqb_eq in X; now subst|intros I; exists c; split; auto; apply Z.eqb_refl]. }
    assert (forall c, present ms c = false -> same lab ms c = []) as SE.
    { intros c PF. destruct (same lab ms c) as [|q l] eqn:SQ; auto. assert (In q (same lab ms c)) as I by (rewrite SQ; now left). unfold same in I. apply filter_In in I. destruct I as (I & X). apply Z.eqb_eq in X.
      assert (present ms c = true); [|congruence]. apply present_spec. unfold found. apply firsts_In. unfold labels. rewrite <- X. now apply in_map. }
    pose proof (found_len ms) as FL. fold us in FL. f_equal. f_equal.
    + rewrite <- repeat_app. f_equal. unfold k. unfold zlen in *. lia.
    + rewrite tab_repeat. apply tab_ext. intros c C. rewrite EP. destruct (present ms c) eqn:PR; auto. unfold perim. now rewrite SE.
    + rewrite tab_repeat. apply tab_ext. intros c C. rewrite EP. destruct (present ms c) eqn:PR; auto. unfold area. now rewrite SE.
    + rewrite tab_repeat. apply tab_ext. intros c C. rewrite EP. destruct (present ms c) eqn:PR; auto.
Qed.
End State.
