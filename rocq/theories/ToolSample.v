From Coq Require Import Reals Lra Sorting.Sorted Sorting.Permutation ZifyNat ZifyBool.
From Flocq Require Import Core.
From Verif Require Import Base BaseFacts Loops LoopsFacts RoundModel RoundFacts ChunkProofs ToolModel ToolSpec ToolProofs.
#[local] Open Scope Z_scope.

(** ** Preselection *)
Definition valid_pixels (nodata : Z) (img : list (list Z)) : list (Z * Z * Z) := filter (fun px => negb (snd px =? nodata)) (pixels img).
Definition to_point (rand : nat -> Z) (g : geo) (kp : nat * (Z * Z * Z)) : point := point_at g (fst (fst (snd kp))) (snd (fst (snd kp))) (snd (snd kp)) (draw (rand (fst kp))).
Definition taken (rows : list stratum) (rand : nat -> Z) (kp : nat * (Z * Z * Z)) : bool := admits rows (snd (snd kp)) (draw (rand (fst kp))).
Definition of_class (c : Z) (p : point) : bool := pt_class p =? c.
Definition pre_from (rows : list stratum) (rand : nat -> Z) (g : geo) (k : nat) (l : list (Z * Z * Z)) : list point :=
  map (to_point rand g) (filter (taken rows rand) (combine (seq k (length l)) l)).
Lemma pre_cons rows rand g k i j v l : pre_from rows rand g k ((i, j, v) :: l) = if admits rows v (draw (rand k)) then point_at g i j v (draw (rand k)) :: pre_from rows rand g (S k) l else pre_from rows rand g (S k) l.
Proof.
  unfold pre_from. cbn [length seq combine filter]. change (taken rows rand (k, (i, j, v))) with (admits rows v (draw (rand k))). destruct (admits rows v (draw (rand k))); reflexivity.
Qed.
Lemma visit_fold rows n nodata rand g : forall l c pts k, (length pts <= Z.to_nat n)%nat -> Forall (fun px => snd px <> nodata) l -> exists c',
  fold_left (visit rows n nodata rand g) l (mkState c pts k) = mkState c' (firstn (Z.to_nat n) (pts ++ pre_from rows rand g k l)) (k + length l) /\
  forall x, c' x = c x + zlen (filter (of_class x) (pre_from rows rand g k l)).
Proof.
  induction l as [|((i, j), v) l IH]; intros c pts k L V; cbn [fold_left].
  - exists c. unfold pre_from. cbn. rewrite app_nil_r, firstn_all2, Nat.add_0_r by lia. split; auto. intros. unfold zlen. cbn. lia.
  - inversion V as [|? ? Vv V']; subst. cbn [snd] in Vv. unfold visit at 2. cbn [s_used s_cnt s_pts]. replace (v =? nodata) with false by lia. rewrite pre_cons. cbn [length].
    destruct (admits rows v (draw (rand k))) eqn:A.
    + destruct (IH (bump c v) (if zlen pts <? n then pts ++ [point_at g i j v (draw (rand k))] else pts) (S k)) as (c' & E & C); auto.
      { destruct (zlen pts <? n) eqn:Lt; auto. rewrite app_length. cbn. unfold zlen in Lt. lia. }
      exists c'. rewrite E. split.
      * f_equal; [|lia]. destruct (zlen pts <? n) eqn:Lt.
        -- rewrite <- app_assoc. reflexivity.
        -- assert (length pts = Z.to_nat n) as Le by (unfold zlen in Lt; lia). rewrite <- Le, !firstn_app, Nat.sub_diag, firstn_all. cbn. reflexivity.
      * intros x. rewrite C. cbn [filter]. change (of_class x (point_at g i j v (draw (rand k)))) with (v =? x). unfold bump. rewrite (Z.eqb_sym x v). destruct (v =? x) eqn:Ex; unfold zlen; cbn [length]; lia.
    + destruct (IH c pts (S k)) as (c' & E & C); auto. exists c'. rewrite E. split; [f_equal; lia|]. intros x. rewrite C. reflexivity.
Qed.
Lemma visit_skip rows n nodata rand g : forall l s, fold_left (visit rows n nodata rand g) l s = fold_left (visit rows n nodata rand g) (filter (fun px => negb (snd px =? nodata)) l) s.
Proof.
  induction l as [|((i, j), v) l IH]; intros s; cbn [fold_left filter snd]; auto. destruct (v =? nodata) eqn:E; cbn [negb]; [|cbn [fold_left]; apply IH].
  rewrite <- IH. f_equal. unfold visit. now rewrite E.
Qed.
(** All preselected points, in the order of the image. *)
Definition preselected (rows : list stratum) (nodata : Z) (rand : nat -> Z) (g : geo) (img : list (list Z)) : list point := pre_from rows rand g 0 (valid_pixels nodata img).
Lemma preselect_spec rows n nodata rand g img : exists c, preselect rows n nodata rand g img = mkState c (firstn (Z.to_nat n) (preselected rows nodata rand g img)) (length (valid_pixels nodata img)) /\
  forall x, c x = zlen (filter (of_class x) (preselected rows nodata rand g img)).
Proof.
  unfold preselect. rewrite visit_skip. destruct (visit_fold rows n nodata rand g (valid_pixels nodata img) (fun _ => 0) [] 0) as (c & E & C); [cbn; lia| |exists c; split; [exact E|intros x; rewrite C; reflexivity]].
  apply Forall_forall. intros px I. apply filter_In in I. lia.
Qed.

(** ** The largest number *)
#[local] Open Scope R_scope.
Definition live (c : Z) (p : point) : bool := of_class c p && pt_keep p.
Lemma pick_fold c : forall (l : list (Z * point)) acc,
  let r := fold_left (fun acc (kp : Z * point) => if negb (pt_class (snd kp) =? c)%Z || negb (pt_keep (snd kp)) then acc
    else if Rlt_bool (fst acc) (pt_draw (snd kp)) then (pt_draw (snd kp), fst kp) else acc) l acc in
  fst acc <= fst r /\ (forall kp, In kp l -> live c (snd kp) = true -> pt_draw (snd kp) <= fst r) /\
  (r = acc \/ exists kp, In kp l /\ live c (snd kp) = true /\ r = (pt_draw (snd kp), fst kp) /\ fst acc < pt_draw (snd kp)).
Proof.
  induction l as [|kp l IH]; intros acc; cbn [fold_left]; cbv zeta; [split; [lra|]; split; [intros ? []|auto]|].
  assert (live c (snd kp) = negb (negb (pt_class (snd kp) =? c)%Z || negb (pt_keep (snd kp)))) as Lv by (unfold live, of_class; destruct (pt_class (snd kp) =? c)%Z, (pt_keep (snd kp)); auto).
  destruct (negb (pt_class (snd kp) =? c)%Z || negb (pt_keep (snd kp))) eqn:E; cbn in Lv.
  - destruct (IH acc) as (A & B & C). split; auto. split; [intros q [<-|I] Lq; [congruence|auto]|]. destruct C as [C|(q & I & Q)]; auto. right. exists q. split; [right; auto|auto].
  - destruct (Rlt_bool_spec (fst acc) (pt_draw (snd kp))) as [Lt|Ge].
    + destruct (IH (pt_draw (snd kp), fst kp)) as (A & B & C). cbn [fst] in A. split; [lra|]. split; [intros q [<-|I] Lq; [auto|auto]|]. right. destruct C as [C|(q & I & Lq & R & Q)].
      * exists kp. split; [left; auto|]. rewrite C. auto.
      * exists q. cbn [fst] in Q. split; [right; auto|]. split; auto. split; auto. lra.
    + destruct (IH acc) as (A & B & C). split; auto. split; [intros q [<-|I] Lq; [lra|auto]|]. destruct C as [C|(q & I & Q)]; auto. right. exists q. split; [right; auto|auto].
Qed.
Lemma pick_some c pts p : (forall q, In q pts -> 0 <= pt_draw q) -> In p pts -> live c p = true ->
  exists k q, pick c pts = (pt_draw q, k) /\ get_at pts k = Some q /\ live c q = true /\ forall q', In q' pts -> live c q' = true -> pt_draw q' <= pt_draw q.
Proof.
  intros NN I L. unfold pick. change (combine (zupto (zlen pts)) pts) with (enum pts). pose proof (pick_fold c (enum pts) (-1, 0%Z)) as H. cbv zeta in H. set (r := fold_left _ _ _) in *. destruct H as (_ & B & C).
  assert (forall q, In q pts -> exists k, In (k, q) (enum pts)) as En. { intros q Iq. apply In_get_at in Iq. destruct Iq as (k & _ & G). exists k. now apply enum_In. }
  destruct C as [C|((k, q) & Iq & Lq & R & _)].
  - exfalso. destruct (En p I) as (k & Ik). specialize (B _ Ik L). rewrite C in B. cbn [fst snd] in B. specialize (NN p I). lra.
  - cbn [fst snd] in *. exists k, q. split; auto. split; [now apply enum_In|]. split; auto. intros q' Iq' Lq'. destruct (En q' Iq') as (k' & Ik). specialize (B _ Ik Lq'). rewrite R in B. exact B.
Qed.
Lemma pick_none c pts : (forall q, In q pts -> live c q = false) -> pick c pts = (-1, 0%Z).
Proof.
  intros N. unfold pick. change (combine (zupto (zlen pts)) pts) with (enum pts). pose proof (pick_fold c (enum pts) (-1, 0%Z)) as H. cbv zeta in H. set (r := fold_left _ _ _) in *. destruct H as (_ & _ & [C|((k, q) & Iq & Lq & _)]); auto.
  exfalso. apply enum_In in Iq. apply get_at_In in Iq. cbn [snd] in Lq. rewrite N in Lq by auto. discriminate.
Qed.

(** ** Removing points *)
#[local] Open Scope Z_scope.
Lemma split_get {A} (l : list A) k x y : get_at l k = Some x -> exists a b, l = a ++ x :: b /\ set_at l k y = Some (a ++ y :: b) /\ zlen a = k.
Proof.
  intros G. pose proof (get_at_inv _ _ _ G) as R. unfold get_at in G. replace (k <? 0) with false in G by lia. destruct (nth_error_split _ _ G) as (a & b & -> & L). exists a, b. split; auto. split; [|unfold zlen; lia].
  unfold set_at. replace ((k <? 0) || (Z.of_nat (length (a ++ x :: b)) <=? k)) with false by (unfold zlen in R; lia). f_equal. rewrite <- L.
  assert (forall a : list A, list_set (a ++ x :: b) (length a) y = a ++ y :: b) as Q by (induction a0 as [|z a0 IH]; cbn; [auto|now rewrite IH]). apply Q.
Qed.
Definition marked (p q : point) : Prop := q = p \/ q = drop p.
Lemma marked_refl pts : Forall2 marked pts pts.
Proof. induction pts; constructor; auto. left; auto. Qed.
Lemma marked_trans : forall a b c, Forall2 marked a b -> Forall2 marked b c -> Forall2 marked a c.
Proof. intros a b c H. revert c. induction H as [|x y a b M H IH]; intros c H'; inversion H' as [|? z ? c' M' H'']; subst; constructor; auto. unfold marked in *. destruct M as [-> | ->], M' as [-> | ->]; auto. Qed.
Lemma marked_one a p b : Forall2 marked (a ++ p :: b) (a ++ drop p :: b).
Proof. apply Forall2_app; [apply marked_refl|]. constructor; [right; auto|apply marked_refl]. Qed.
Lemma marked_len c : forall a b, Forall2 marked a b -> (length (filter (live c) b) <= length (filter (live c) a))%nat.
Proof.
  induction 1 as [|p q a b M H IH]; cbn [filter]; auto. destruct M as [-> | ->]; [destruct (live c p); cbn; lia|].
  assert (live c (drop p) = false) as -> by (unfold live; cbn; lia). destruct (live c p); cbn; lia.
Qed.
Lemma marked_length a b : Forall2 marked a b -> length a = length b.
Proof. induction 1; cbn; auto. Qed.
Definition nonneg (pts : list point) : Prop := forall q, In q pts -> (0 <= pt_draw q)%R.
Lemma marked_nonneg a b : Forall2 marked a b -> nonneg a -> nonneg b.
Proof.
  unfold nonneg. induction 1 as [|p q a b M H IH]; intros N x I; [destruct I|]. destruct I as [<-|I]; [|apply IH; auto; intros; apply N; right; auto]. destruct M as [-> | ->]; [|cbn]; apply N; left; auto.
Qed.
Lemma unset_spec n c pts : nonneg pts -> (zlen pts <= n)%Z ->
  match filter (live c) pts with
  | [] => (0 < n)%Z -> exists pts', unset n c pts = Ret pts' /\ Forall2 marked pts pts' /\ (pts = [] \/ exists p r, pts = p :: r /\ pts' = drop p :: r)
  | _ => exists pts' a p b, pts = a ++ p :: b /\ live c p = true /\ pts' = a ++ drop p :: b /\ unset n c pts = Ret pts' /\ forall q, In q pts -> live c q = true -> (pt_draw q <= pt_draw p)%R
  end.
Proof.
  intros NN Ln. destruct (filter (live c) pts) as [|x l] eqn:E.
  - intros P. unfold unset. rewrite pick_none.
    2:{ intros q Iq. destruct (live c q) eqn:Lq; auto. assert (In q (filter (live c) pts)) as I by (apply filter_In; auto). rewrite E in I. destruct I. }
    cbn [snd]. replace (n <=? 0) with false by lia. destruct pts as [|p r]; [exists []; cbn; auto|]. cbn. exists (drop p :: r). split; auto. split; [constructor; [right; auto|apply marked_refl]|]. right. eauto.
  - assert (In x (filter (live c) pts)) as I by (rewrite E; left; auto). apply filter_In in I. destruct I as (I & Lx).
    destruct (pick_some c pts x NN I Lx) as (k & q & Pk & G & Lq & Mx). unfold unset. rewrite Pk. cbn [snd]. pose proof (get_at_inv _ _ _ G) as R. replace (n <=? k) with false by lia. rewrite G.
    destruct (split_get pts k q (drop q) G) as (a & b & El & -> & _). exists (a ++ drop q :: b), a, q, b. auto 8.
Qed.
Lemma live_drop c p : live c (drop p) = false.
Proof. unfold live. cbn. lia. Qed.
Lemma live_other c c' p : c <> c' -> live c p = true -> live c' p = false.
Proof. unfold live, of_class. lia. Qed.
Lemma filter_drop_other c c' a p b : c <> c' -> live c p = true -> filter (live c') (a ++ drop p :: b) = filter (live c') (a ++ p :: b).
Proof. intros N L. rewrite !filter_app. cbn [filter]. rewrite live_drop, (live_other c c' p) by auto. reflexivity. Qed.
(** Enough points of the class. *)
Lemma thin_spec c n : forall m pts, nonneg pts -> (zlen pts <= n)%Z -> (m <= length (filter (live c) pts))%nat ->
  exists pts' kept dropped, thin m n c pts = Ret pts' /\ Forall2 marked pts pts' /\ filter (live c) pts' = kept /\ Permutation (filter (live c) pts) (kept ++ dropped) /\ length dropped = m /\
  (forall a b, In a kept -> In b dropped -> (pt_draw a <= pt_draw b)%R) /\ forall c', c' <> c -> filter (live c') pts' = filter (live c') pts.
Proof.
  induction m as [|m IH]; intros pts NN Ln Lm; cbn [thin].
  - exists pts, (filter (live c) pts), []. split; auto. split; [apply marked_refl|]. split; auto. rewrite app_nil_r. split; auto. split; auto. split; [intros a b _ []|auto].
  - pose proof (unset_spec n c pts NN Ln) as U. destruct (filter (live c) pts) as [|x l] eqn:E; [cbn in Lm; lia|].
    destruct U as (pts1 & a & p & b & Ep & Lp & E1 & -> & Mx). cbn [bind]. rewrite <- E in *. clear x l E.
    assert (filter (live c) pts = filter (live c) a ++ p :: filter (live c) b) as F0 by (rewrite Ep, filter_app; cbn [filter]; now rewrite Lp).
    assert (filter (live c) pts1 = filter (live c) a ++ filter (live c) b) as F1 by (rewrite E1, filter_app; cbn [filter]; now rewrite live_drop).
    assert (Forall2 marked pts pts1) as M1 by (rewrite Ep, E1; apply marked_one).
    destruct (IH pts1) as (pts' & kept & dropped & T & M & K & P & Ld & Le & O).
    { eapply marked_nonneg; eauto. }
    { apply marked_length in M1. unfold zlen in *. lia. }
    { rewrite F0 in Lm. rewrite F1. rewrite app_length in *. cbn in Lm. lia. }
    exists pts', kept, (p :: dropped). split; auto. split; [eapply marked_trans; eauto|]. split; auto. split.
    + rewrite F0. apply Permutation_sym. eapply Permutation_trans; [apply Permutation_sym, Permutation_middle|]. eapply Permutation_trans; [apply perm_skip, Permutation_sym, P|]. rewrite F1. apply Permutation_middle.
    + split; [cbn; lia|]. split.
      * intros x y Ix [<-|Iy]; [|auto]. assert (In x (filter (live c) pts1)) as I1 by (apply (Permutation_in _ (Permutation_sym P)), in_or_app; auto). rewrite F1 in I1.
        assert (In x (filter (live c) pts)) as I0 by (rewrite F0; apply in_app_or in I1; apply in_or_app; cbn; tauto). apply filter_In in I0. apply Mx; tauto.
      * intros c' N. rewrite O by auto. rewrite E1, Ep. apply (filter_drop_other c); auto.
Qed.
(** In any case. *)
Lemma thin_any c n : forall m pts, nonneg pts -> (zlen pts <= n)%Z -> (0 < n)%Z ->
  exists pts', thin m n c pts = Ret pts' /\ Forall2 marked pts pts' /\ (length (filter (live c) pts') <= length (filter (live c) pts) - m)%nat /\
  ((length (filter (live c) pts) < m)%nat -> filter (live c) pts' = [] /\ forall p, hd_error pts' = Some p -> pt_keep p = false).
Proof.
  induction m as [|m IH]; intros pts NN Ln Pn; cbn [thin]; [exists pts; split; auto; split; [apply marked_refl|split; lia]|].
  pose proof (unset_spec n c pts NN Ln) as U. destruct (filter (live c) pts) as [|x l] eqn:E.
  - destruct U as (pts1 & -> & M1 & Hd); auto. cbn [bind]. destruct (IH pts1) as (pts' & -> & M & Le & Z); auto.
    { eapply marked_nonneg; eauto. }
    { apply marked_length in M1. unfold zlen in *. lia. }
    exists pts'. split; auto. pose proof (marked_trans _ _ _ M1 M) as M2. split; auto. pose proof (marked_len c _ _ M2) as L2. rewrite E in L2. cbn in L2. split; [cbn; lia|]. intros _. split; [destruct (filter (live c) pts'); auto; cbn in L2; lia|].
    intros p Hp. destruct Hd as [-> |(q & r & -> & ->)].
    + inversion M1; subst. inversion M; subst. discriminate.
    + inversion M as [|? y ? r' My _]; subst. cbn in Hp. injection Hp as <-. destruct My as [-> | ->]; reflexivity.
  - destruct U as (pts1 & a & p & b & Ep & Lp & E1 & -> & Mx). cbn [bind]. rewrite <- E in *. clear x l E.
    assert (Forall2 marked pts pts1) as M1 by (rewrite Ep, E1; apply marked_one).
    assert (length (filter (live c) pts) = S (length (filter (live c) pts1))) as LL. { rewrite Ep, E1, !filter_app, !app_length. cbn [filter]. rewrite Lp, live_drop. cbn. lia. }
    destruct (IH pts1) as (pts' & -> & M & Le & Z); auto.
    { eapply marked_nonneg; eauto. }
    { apply marked_length in M1. unfold zlen in *. lia. }
    exists pts'. split; auto. split; [eapply marked_trans; eauto|]. split; [lia|]. intros Lt. apply Z. lia.
Qed.

(** ** All classes *)
Lemma filter_both {A} (f g : A -> bool) l : filter f (filter g l) = filter (fun x => f x && g x) l.
Proof. induction l as [|x l IH]; cbn; auto. destruct (g x) eqn:G; cbn; destruct (f x); cbn; rewrite ?IH; auto. Qed.
Lemma entry_in rows : NoDup (map st_class rows) -> forall r, In r rows -> entry rows (st_class r) = Some r.
Proof.
  intros N r I. unfold entry. assert (NoDup (map st_class (rev rows))) as N' by (rewrite map_rev; eapply Permutation_NoDup; [apply Permutation_rev|auto]). apply in_rev in I.
  induction (rev rows) as [|x l IH]; [destruct I|]. cbn [find map] in *. inversion N' as [|? ? Nx Nl]; subst. destruct I as [-> |I]; [now rewrite Z.eqb_refl|].
  destruct (st_class x =? st_class r) eqn:E; auto. exfalso. apply Nx. replace (st_class x) with (st_class r) by lia. now apply in_map.
Qed.
Definition reduced (m : nat) (before after : list point) : Prop :=
  exists dropped, Permutation before (after ++ dropped) /\ length dropped = m /\ forall a b, In a after -> In b dropped -> (pt_draw a <= pt_draw b)%R.
Lemma rows_exact rows n cnt : forall rs pts, NoDup (map st_class rs) -> nonneg pts -> zlen pts <= n ->
  (forall r, In r rs -> entry rows (st_class r) = Some r /\ in_int (Ztrunc (st_size r)) /\ (Z.to_nat (cnt (st_class r) - Ztrunc (st_size r)) <= length (filter (live (st_class r)) pts))%nat) ->
  exists pts', ofold (thin_row rows n cnt) rs pts = Ret pts' /\ Forall2 marked pts pts' /\
  (forall r, In r rs -> reduced (Z.to_nat (cnt (st_class r) - Ztrunc (st_size r))) (filter (live (st_class r)) pts) (filter (live (st_class r)) pts')) /\
  (forall c, ~ In c (map st_class rs) -> filter (live c) pts' = filter (live c) pts).
Proof.
  induction rs as [|r rs IH]; intros pts N NN Ln H; cbn [ofold].
  - exists pts. split; auto. split; [apply marked_refl|]. split; [intros r []|auto].
  - destruct (H r) as (E & I & Le); [left; auto|]. unfold thin_row at 1. rewrite E. replace (in_intb (Ztrunc (st_size r))) with true by (unfold in_int, in_intb in *; lia).
    destruct (thin_spec (st_class r) n _ pts NN Ln Le) as (pts1 & kept & dropped & T & M1 & K & P & Ld & O & Oth). rewrite T. cbn [bind]. cbn [map] in N. inversion N as [|? ? Nr N']; subst.
    assert (forall x, In x rs -> st_class x <> st_class r) as Df by (intros x Ix Q; apply Nr; rewrite <- Q; now apply in_map).
    destruct (IH pts1) as (pts' & -> & M & G & Q).
    { auto. }
    { eapply marked_nonneg; eauto. }
    { apply marked_length in M1. unfold zlen in *. lia. }
    { intros x Ix. rewrite Oth by (apply Df; auto). apply H. right; auto. }
    exists pts'. split; auto. split; [eapply marked_trans; eauto|]. split.
    + intros x [<-|Ix]; [rewrite Q by auto; exists dropped; auto|]. specialize (G x Ix). rewrite Oth in G by (apply Df; auto). exact G.
    + intros c Nc. cbn [map In] in Nc. rewrite Q by (intros Z; apply Nc; right; exact Z). apply Oth. intros Z. apply Nc. left. auto.
Qed.
Lemma thin_ret c n m pts pts' : nonneg pts -> (length pts <= Z.to_nat n)%nat -> thin m n c pts = Ret pts' -> Forall2 marked pts pts' /\ (length (filter (live c) pts') <= length (filter (live c) pts) - m)%nat.
Proof.
  intros NN Ln E. destruct (Z.ltb_spec 0 n) as [P|P].
  - destruct (thin_any c n m pts NN) as (q & E' & M & L & _); [unfold zlen; lia|auto|]. rewrite E in E'. injection E' as <-. auto.
  - destruct m as [|m]; cbn [thin] in E; [injection E as <-; split; [apply marked_refl|lia]|]. destruct pts as [|p pts]; [|cbn in Ln; lia]. unfold unset in E. rewrite (pick_none c []) in E by (intros ? []). cbn [snd] in E. replace (n <=? 0) with true in E by lia. discriminate.
Qed.
Lemma thin_row_ret rows n cnt pts r pts' : nonneg pts -> (length pts <= Z.to_nat n)%nat -> thin_row rows n cnt pts r = Ret pts' ->
  Forall2 marked pts pts' /\ forall e, entry rows (st_class r) = Some e -> (length (filter (live (st_class r)) pts') <= length (filter (live (st_class r)) pts) - Z.to_nat (cnt (st_class r) - Ztrunc (st_size e)))%nat.
Proof.
  intros NN Ln E. unfold thin_row in E. destruct (entry rows (st_class r)) as [e|]; [|discriminate]. destruct (in_intb _); [|discriminate]. destruct (thin_ret _ _ _ _ _ NN Ln E) as (M & L). split; auto. intros e' Q. injection Q as <-. auto.
Qed.
Lemma rows_ret rows n cnt : forall rs pts pts', nonneg pts -> (length pts <= Z.to_nat n)%nat -> ofold (thin_row rows n cnt) rs pts = Ret pts' -> Forall2 marked pts pts'.
Proof.
  induction rs as [|r rs IH]; intros pts pts' NN Ln E; cbn [ofold] in E; [injection E as <-; apply marked_refl|]. destruct (thin_row rows n cnt pts r) as [q| |] eqn:T; try discriminate. cbn [bind] in E.
  destruct (thin_row_ret _ _ _ _ _ _ NN Ln T) as (M & _). apply IH in E; [eapply marked_trans; eauto|eapply marked_nonneg; eauto|apply marked_length in M; lia].
Qed.
Lemma rows_bound rows n cnt r e : forall rs pts pts', In r rs -> entry rows (st_class r) = Some e -> nonneg pts -> (length pts <= Z.to_nat n)%nat ->
  (Z.of_nat (length (filter (live (st_class r)) pts)) <= cnt (st_class r)) -> ofold (thin_row rows n cnt) rs pts = Ret pts' -> Z.of_nat (length (filter (live (st_class r)) pts')) <= Z.max 0 (Ztrunc (st_size e)).
Proof.
  induction rs as [|x rs IH]; intros pts pts' I En NN Ln B E; [destruct I|]. cbn [ofold] in E. destruct (thin_row rows n cnt pts x) as [q| |] eqn:T; try discriminate. cbn [bind] in E.
  destruct (thin_row_ret _ _ _ _ _ _ NN Ln T) as (M & L). assert (nonneg q) as Nq by (eapply marked_nonneg; eauto). assert (length q <= Z.to_nat n)%nat as Lq by (apply marked_length in M; lia).
  destruct I as [-> |I].
  - specialize (L e En). apply rows_ret in E; auto. apply (marked_len (st_class r)) in E. lia.
  - apply (IH q); auto. apply (marked_len (st_class r)) in M. lia.
Qed.
Lemma draw_nonneg r : 0 <= r -> (0 <= draw r)%R.
Proof. intros R. unfold draw. rewrite <- (rnd64_int 0) by lia. apply rnd64_le. apply Rmult_le_pos; [apply IZR_le; lia|]. apply Rlt_le, Rinv_0_lt_compat. apply IZR_lt. unfold rand_max. lia. Qed.
Lemma pre_nonneg rows nodata rand g img : (forall k, 0 <= rand k) -> nonneg (preselected rows nodata rand g img).
Proof. intros R q I. unfold preselected, pre_from in I. apply in_map_iff in I. destruct I as (kp & <- & _). cbn. apply draw_nonneg. auto. Qed.
Lemma pre_keep rows nodata rand g img q : In q (preselected rows nodata rand g img) -> pt_keep q = true.
Proof. unfold preselected, pre_from. intros I. apply in_map_iff in I. destruct I as (kp & <- & _). reflexivity. Qed.
Lemma live_pre rows nodata rand g img c l : (forall q, In q l -> In q (preselected rows nodata rand g img)) -> filter (live c) l = filter (of_class c) l.
Proof. intros H. apply filter_ext_in. intros q I. unfold live. rewrite (pre_keep _ _ _ _ _ q (H q I)). apply andb_true_r. Qed.
Lemma firstn_sub {A} n (l : list A) x : In x (firstn n l) -> In x l.
Proof. intros I. rewrite <- (firstn_skipn n l). apply in_or_app. auto. Qed.
Lemma marked_kept : forall a b, Forall2 marked a b -> (forall p, In p a -> pt_keep p = true) -> forall p, In p (filter pt_keep b) -> In p a.
Proof.
  induction 1 as [|x y a b M H IH]; intros K p I; [destruct I|]. cbn [filter] in I. destruct (pt_keep y) eqn:Y; [|right; apply IH; auto; intros; apply K; right; auto].
  destruct I as [<-|I]; [|right; apply IH; auto; intros; apply K; right; auto]. destruct M as [-> | ->]; [left; auto|discriminate].
Qed.
(** The points come from different pixels. *)
Lemma nodup_map_filter {A B} (g : A -> B) f : forall l, NoDup (map g l) -> NoDup (map g (filter f l)).
Proof.
  induction l as [|x l IH]; intros N; cbn [filter]; auto. cbn [map] in N. inversion N as [|? ? Nx Nl]; subst. destruct (f x); auto. cbn [map]. constructor; auto. intros I. apply Nx. apply in_map_iff in I. destruct I as (y & <- & I). apply filter_In in I. apply in_map. tauto.
Qed.
Lemma marked_source {A} (f : A -> point) : forall cs b, Forall2 marked (map f cs) b -> NoDup cs -> exists cs', Forall2 (fun a p => p = f a) cs' (filter pt_keep b) /\ incl cs' cs /\ NoDup cs'.
Proof.
  induction cs as [|a cs IH]; intros b M N; inversion M as [|? q ? b' Mq M']; subst; [exists []; repeat split; [constructor|intros x []|constructor]|]. inversion N as [|? ? Na Nc]; subst.
  destruct (IH b' M' Nc) as (cs' & F & I & N'). cbn [filter]. destruct (pt_keep q) eqn:K.
  - exists (a :: cs'). split; [|split]; [constructor; auto; destruct Mq as [-> | ->]; [auto|discriminate]|intros x [<-|Ix]; [left; auto|right; auto]|constructor; auto].
  - exists cs'. split; auto. split; auto. intros x Ix. right; auto.
Qed.

(** ** Every pixel is admitted *)
Lemma pre_all rows rand g : forall l k, (forall n px, In px l -> admits rows (snd px) (draw (rand n)) = true) -> pre_from rows rand g k l = map (to_point rand g) (combine (seq k (length l)) l).
Proof.
  induction l as [|[[i j] v] l IH]; intros k H; [reflexivity|]. rewrite pre_cons. assert (A : admits rows v (draw (rand k)) = true) by (apply (H k (i, j, v)); left; auto). rewrite A. cbn [length seq combine map]. f_equal. apply IH. intros n px I. apply H. right; auto.
Qed.
Lemma class_count rand g c : forall l k, length (filter (of_class c) (map (to_point rand g) (combine (seq k (length l)) l))) = length (filter (fun x => x =? c) (map snd l)).
Proof. induction l as [|[[i j] v] l IH]; intros k; [reflexivity|]. cbn [length seq combine map filter snd]. unfold of_class at 1. change (pt_class (to_point rand g (k, (i, j, v)))) with v. destruct (v =? c); cbn [length]; rewrite IH; auto. Qed.
Lemma draw_max r : r <= rand_max -> (draw r <= 1)%R.
Proof. intros R. unfold draw. rewrite <- (rnd64_int 1) by lia. apply rnd64_le. apply IZR_le in R. unfold rand_max in *. lra. Qed.
Lemma admits_share rows c e p : entry rows c = Some e -> (0 < st_count e <= 2 * st_size e)%R -> (p <= 1)%R -> admits rows c p = true.
Proof.
  intros E [P Q] H. unfold admits. rewrite E. rewrite Req_bool_false by lra. apply Rle_bool_true. apply Rle_trans with 1%R; auto.
  assert (rnd64 (1 / 2) = 1 / 2)%R as Hf by apply (rnd64_half 1 ltac:(lia)).
  assert (1 / 2 <= rnd64 (st_size e / st_count e))%R as B. { rewrite <- Hf. apply rnd64_le. apply Rmult_le_reg_r with (st_count e); auto. replace (st_size e / st_count e * st_count e)%R with (st_size e) by (field; lra). lra. }
  rewrite <- (rnd64_int 1) by lia. apply rnd64_le. lra.
Qed.
Lemma valid_values nodata img c : c <> nodata -> length (filter (fun x => x =? c) (map snd (valid_pixels nodata img))) = length (filter (fun x => x =? c) (concat img)).
Proof.
  intros N. rewrite <- pixels_values. unfold valid_pixels. induction (pixels img) as [|[ij v] l IH]; [reflexivity|]. cbn [filter snd map]. destruct (v =? nodata) eqn:A; cbn [negb map filter snd]; destruct (v =? c) eqn:B; cbn [length]; rewrite ?IH; auto. lia.
Qed.
Lemma valid_length nodata img : length (valid_pixels nodata img) = length (filter (fun x => negb (x =? nodata)) (concat img)).
Proof. rewrite <- pixels_values. unfold valid_pixels. induction (pixels img) as [|[ij v] l IH]; [reflexivity|]. cbn [filter snd map]. destruct (v =? nodata); cbn [negb length]; rewrite ?IH; auto. Qed.
Lemma classes_of rand g : forall l k, map pt_class (map (to_point rand g) (combine (seq k (length l)) l)) = map snd l.
Proof. induction l as [|[[i j] v] l IH]; intros k; [reflexivity|]. cbn [length seq combine map snd]. f_equal. apply IH. Qed.
Lemma filter_le {A} (f : A -> bool) l : (length (filter f l) <= length l)%nat.
Proof. induction l as [|x l IH]; cbn [filter]; [lia|]. destruct (f x); cbn [length]; lia. Qed.
Lemma marked_class (P : Z -> Prop) a b : Forall2 marked a b -> (forall z, In z a -> P (pt_class z)) -> forall z, In z b -> P (pt_class z).
Proof. induction 1 as [|x y l l' Mx M IH]; intros C z I; [destruct I|]. destruct I as [<-|I]; [|apply IH; auto; intros; apply C; right; auto]. destruct Mx as [-> | ->]; apply (C x); left; auto. Qed.
