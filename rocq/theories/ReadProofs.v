(** Lemmas on reading. *)
From Verif Require Import Base BaseFacts Loops CStr LsmModel QaiModel SensorModel ChunkProofs MlProofs ReadModel ReadSpec.

Lemma off_fold nodata p : forall (bands : list (list Z)) w, w = 0 \/ w = 1 -> (forall band, In band bands -> exists v, get_at band p = Some v) ->
  exists r, ofold (fun w band => v <- of_option (get_at band p) ;; if v =? nodata then set_flag Off w 1 else Ret w) bands w = Ret r /\ (r = 0 \/ r = 1) /\
    (r = 1 <-> w = 1 \/ exists band, In band bands /\ get_at band p = Some nodata).
Proof.
  induction bands as [|band bands IH]; intros w W B; cbn [ofold].
  - exists w. split; [reflexivity|]. split; [exact W|]. split; [auto|]. intros [H|(b & [] & _)]; exact H.
  - destruct (B band (or_introl eq_refl)) as (v & V). rewrite V. cbn [of_option bind].
    assert (B' : forall b, In b bands -> exists v, get_at b p = Some v) by (intros b I; apply B; now right).
    destruct (Z.eqb_spec v nodata) as [->|N].
    + assert (set_flag Off w 1 = Ret 1) as -> by (destruct W as [->| ->]; reflexivity). cbn [bind].
      destruct (IH 1 (or_intror eq_refl) B') as (r & E & R & Q). exists r. split; [exact E|]. split; [exact R|]. split; [|intros _; apply Q; now left].
      intros _. right. exists band. split; [now left|exact V].
    + cbn [bind]. destruct (IH w W B') as (r & E & R & Q). exists r. split; [exact E|]. split; [exact R|]. rewrite Q. split.
      * intros [H|(b & I & G)]; [now left|right; exists b; split; [now right|exact G]].
      * intros [H|(b & [<-|I] & G)]; [now left|congruence|right; exists b; split; assumption].
Qed.
Lemma bit_flags r : r = 0 \/ r = 1 -> (get_flag Off r = 1 <-> r = 1) /\ forall f, f <> Off -> get_flag f r = 0.
Proof.
  intros [->| ->]; (split; [split; intro H; try exact H; try discriminate H; reflexivity|]); intros f N; destruct f; try congruence; reflexivity.
Qed.
Lemma omap_spec {A B} (f : A -> outcome B) (P : A -> B -> Prop) : forall l, (forall a, In a l -> exists b, f a = Ret b /\ P a b) -> exists r, omap f l = Ret r /\ Forall2 P l r.
Proof.
  induction l as [|a l IH]; intros H; cbn [omap]; [exists []; split; [reflexivity|constructor]|].
  destruct (H a (or_introl eq_refl)) as (b & E & Q). rewrite E. cbn [bind].
  destruct IH as (r & E2 & F); [intros x I; apply H; now right|]. rewrite E2. cbn [bind]. exists (b :: r). split; [reflexivity|constructor; assumption].
Qed.
Lemma get_some {A} (l : list A) p : 0 <= p < zlen l -> exists v, get_at l p = Some v.
Proof. intros H. destruct (get_at_some l p) as (x & E); [exact H|]. eauto. Qed.
Lemma zupto_In n p : In p (zupto n) <-> 0 <= p < n.
Proof.
  unfold zupto. rewrite in_map_iff. split; [intros (k & <- & I); apply in_seq in I; lia|].
  intros H. exists (Z.to_nat p). split; [lia|]. apply in_seq. lia.
Qed.
Lemma zupto_get n p v : 0 <= n -> get_at (zupto n) p = Some v -> v = p.
Proof. intros N H. pose proof (get_at_inv _ _ _ H) as R. rewrite zupto_len in R by exact N. rewrite get_zupto in H by lia. congruence. Qed.
Lemma Forall2_get {A B} (P : A -> B -> Prop) : forall l r, Forall2 P l r -> forall p b, get_at r p = Some b -> exists a, get_at l p = Some a /\ P a b.
Proof.
  intros l r F p b G. unfold get_at in *. destruct (p <? 0); [discriminate|]. revert G. generalize (Z.to_nat p) as k. clear p.
  induction F as [|a x l r Q F IH]; intros k G; [destruct k; discriminate|]. destruct k; cbn [nth_error] in *; [injection G as <-; eauto|auto].
Qed.
Lemma Forall2_zlen {A B} (P : A -> B -> Prop) l r : Forall2 P l r -> zlen l = zlen r.
Proof. intros F. unfold zlen. induction F; cbn [length]; lia. Qed.

Lemma nodata_ok nc d : 0 <= nc -> Forall (fun band => zlen band = nc) d -> exists q, nodata_quality nc d = Ret q /\ flags_missing nc (-9999) d q.
Proof.
  intros N F. rewrite Forall_forall in F.
  destruct (omap_spec (fun p => ofold (fun w band => v <- of_option (get_at band p) ;; if v =? -9999 then set_flag Off w 1 else Ret w) d 0)
    (fun p r => (r = 0 \/ r = 1) /\ (r = 1 <-> exists band, In band d /\ get_at band p = Some (-9999))) (zupto nc)) as (q & E & Q).
  { intros p I. apply zupto_In in I. destruct (off_fold (-9999) p d 0 (or_introl eq_refl)) as (r & E & R & K).
    - intros band J. apply get_some. rewrite (F band J). lia.
    - exists r. split; [exact E|]. split; [exact R|]. rewrite K. split; [intros [H|H]; [discriminate|exact H]|now right]. }
  exists q. split; [exact E|]. split; [rewrite <- (Forall2_zlen _ _ _ Q); apply zupto_len; lia|].
  intros p v G. destruct (Forall2_get _ _ _ Q p v G) as (a & A & R & K). apply zupto_get in A; [|exact N]. subst a.
  destruct (bit_flags v R) as (X & Y). split; [rewrite X; exact K|exact Y].
Qed.
Lemma feature_ok nc nodata band : 0 <= nc -> zlen band = nc -> exists q, feature_quality nc nodata band = Ret q /\ flags_missing nc nodata [band] q.
Proof.
  intros N F.
  destruct (omap_spec (fun p => v <- of_option (get_at band p) ;; if v =? nodata then set_flag Off 0 1 else Ret 0)
    (fun p r => (r = 0 \/ r = 1) /\ (r = 1 <-> exists b, In b [band] /\ get_at b p = Some nodata)) (zupto nc)) as (q & E & Q).
  { intros p I. apply zupto_In in I. destruct (get_some band p) as (v & V); [lia|]. rewrite V. cbn [of_option bind]. destruct (Z.eqb_spec v nodata) as [->|X].
    - exists 1. split; [reflexivity|]. split; [now right|]. split; [intros _; exists band; split; [now left|exact V]|reflexivity].
    - exists 0. split; [reflexivity|]. split; [now left|]. split; [discriminate|]. intros (b & [<-|[]] & G). congruence. }
  exists q. split; [exact E|]. split; [rewrite <- (Forall2_zlen _ _ _ Q); apply zupto_len; lia|].
  intros p v G. destruct (Forall2_get _ _ _ Q p v G) as (a & A & R & K). apply zupto_get in A; [|exact N]. subst a.
  destruct (bit_flags v R) as (X & Y). split; [rewrite X; exact K|exact Y].
Qed.

Lemma read_aux_ok : forall l e, 0 <= e -> e <= snd (read_aux l e) /\ (~ In None l -> snd (read_aux l e) = e /\ map Some (fst (read_aux l e)) = l) /\ (In None l -> e < snd (read_aux l e)).
Proof.
  induction l as [|[b|] l IH]; intros e E; cbn [read_aux].
  - cbn [fst snd map]. split; [lia|]. split; [auto|]. intros [].
  - destruct (IH e E) as (A & B & C). destruct (read_aux l e) as (a, e2). cbn [fst snd map] in *. split; [exact A|]. split.
    + intros N. destruct B as (B1 & B2); [intros I; apply N; now right|]. split; [exact B1|congruence].
    + intros [H|H]; [discriminate|auto].
  - destruct (IH (e + 1) ltac:(lia)) as (A & _). destruct (read_aux l (e + 1)) as (a, e2). cbn [fst snd] in *. split; [lia|]. split; [|lia].
    intros N. exfalso. apply N. now left.
Qed.

Lemma read_one_ok nc w f e : 0 <= nc -> regular nc f -> sensible w -> 0 <= e ->
  exists x, read_one nc w f e = Ret x /\ e <= snd x /\ (e = 0 -> readable w f -> snd x = 0 /\ image_of nc w f (fst x)) /\ (~ readable w f -> 0 < snd x).
Proof.
  intros N RG (S1 & S2) E. unfold read_one.
  assert (K : e = 0 \/ e =? 0 = false /\ 0 < e) by (destruct (Z.eqb_spec e 0); [now left|right; split; [reflexivity|lia]]).
  destruct K as [->|(K & P)].
  2:{ rewrite K, !andb_false_r. cbn [bind]. eexists. split; [reflexivity|]. cbn [snd]. repeat split; try lia. }
  clear E. change (0 =? 0) with true. rewrite !andb_true_r.
  assert (X : exists dat, (if w_ref w then match f_main f with None => None | Some d => Some (Some d) end else Some None) = dat /\
     match dat with None => w_ref w = true /\ f_main f = None | Some d => d = (if w_ref w then f_main f else None) /\ (w_ref w = true -> f_main f <> None) end).
  { eexists. split; [reflexivity|]. destruct (w_ref w); [|now split]. destruct (f_main f) as [d|]; [|now split]. split; [reflexivity|discriminate]. }
  destruct X as (dat & -> & D). destruct dat as [dat|].
  2:{ destruct D as (D1 & D2). eexists. split; [reflexivity|]. cbn [snd fst]. repeat split; try lia; intros; destruct H0 as (H0 & _); specialize (H0 D1); congruence. }
  destruct D as (D1 & D2).
  assert (X : exists qai, (if w_qai w then if w_quality w then Ret (match f_qual f with None => None | Some q => Some (Some q) end)
                   else match dat with None => UB | Some d => q <- nodata_quality nc d ;; Ret (Some (Some q)) end
              else Ret (Some None)) = Ret qai /\
     match qai with None => w_qai w = true /\ w_quality w = true /\ f_qual f = None
     | Some q => (w_qai w = true -> w_quality w = true -> f_qual f <> None) /\
        if w_qai w then (if w_quality w then q = f_qual f else exists d q', f_main f = Some d /\ q = Some q' /\ flags_missing nc (-9999) d q') else q = None end).
  { destruct (w_qai w) eqn:WQ; [|eexists; split; [reflexivity|]; split; [discriminate|reflexivity]].
    destruct (w_quality w) eqn:WY.
    - eexists. split; [reflexivity|]. destruct (f_qual f); [split; [discriminate|reflexivity]|auto].
    - destruct (S2 eq_refl) as [H|H]; [discriminate|]. rewrite H in D1. specialize (D2 H). destruct (f_main f) as [d|] eqn:FM; [|congruence]. subst dat.
      destruct (nodata_ok nc d N (RG d FM)) as (q & Q1 & Q2). rewrite Q1. cbn [bind]. eexists. split; [reflexivity|]. split; [discriminate|]. eauto. }
  destruct X as (qai & -> & Q). cbn [bind]. destruct qai as [q|].
  2:{ destruct Q as (Q1 & Q2 & Q3). eexists. split; [reflexivity|]. cbn [snd fst]. repeat split; try lia; intros; destruct H0 as (_ & H0 & _); specialize (H0 Q1 Q2); congruence. }
  destruct Q as (Q1 & Q2). destruct (w_aux w) eqn:WA.
  - specialize (S1 eq_refl). pose proof (D2 S1) as D3. rewrite S1 in D1. destruct (f_main f) as [d|] eqn:FM; [|congruence]. subst dat.
    destruct (read_aux_ok (f_aux f) 0 ltac:(lia)) as (A1 & A2 & A3). destruct (read_aux (f_aux f) 0) as (a, e2). cbn [fst snd] in *.
    eexists. split; [reflexivity|]. cbn [fst snd]. split; [exact A1|]. split.
    + intros _ (_ & _ & R). specialize (R WA). destruct (A2 R) as (-> & A4). split; [reflexivity|]. unfold image_of. cbn [e_dat e_qai e_aux]. rewrite S1, FM, WA. split; [reflexivity|].
      split; [exact Q2|]. eauto.
    + intros NR. assert (DE : forall x y : option (list Z), {x = y} + {x <> y}) by (decide equality; apply list_eq_dec, Z.eq_dec). destruct (in_dec DE None (f_aux f)) as [I|I]; [auto|]. exfalso. apply NR. split; [intros _; congruence|]. split; [exact Q1|]. intros _. exact I.
  - eexists. split; [reflexivity|]. cbn [fst snd]. split; [lia|]. split.
    + intros _ _. split; [reflexivity|]. unfold image_of. cbn [e_dat e_qai e_aux]. rewrite WA. split; [exact D1|]. split; [exact Q2|reflexivity].
    + intros NR. exfalso. apply NR. split; [exact D2|]. split; [exact Q1|]. congruence.
Qed.

Lemma read_all_ok nc w who threads : 0 <= nc -> sensible w -> (forall t, (who t < threads)%nat) -> forall l t errs, Forall (regular nc) l -> (forall k, 0 <= errs k) ->
  exists x, read_all nc w who t l errs = Ret x /\ (forall k, errs k <= snd x k) /\
    ((forall k, errs k = 0) -> Forall (readable w) l -> (forall k, snd x k = 0) /\ Forall2 (image_of nc w) l (fst x)) /\
    (Exists (fun f => ~ readable w f) l -> exists k, (k < threads)%nat /\ 0 < snd x k).
Proof.
  intros N S W. induction l as [|f l IH]; intros t errs RG E; cbn [read_all].
  - eexists. split; [reflexivity|]. cbn [fst snd]. split; [intros; lia|]. split; [intros H _; split; [exact H|constructor]|]. intros X. inversion X.
  - inversion RG as [|? ? RF RL]; subst. destruct (read_one_ok nc w f (errs (who t)) N RF S (E _)) as (x & X1 & X2 & X3 & X4). rewrite X1. cbn [bind].
    set (errs' := fun k => if Nat.eqb k (who t) then snd x else errs k).
    assert (M : forall k, errs k <= errs' k) by (intros k; unfold errs'; destruct (Nat.eqb_spec k (who t)) as [->|]; lia).
    destruct (IH (Datatypes.S t) errs' RL) as (y & Y1 & Y2 & Y3 & Y4); [intros k; specialize (M k); specialize (E k); lia|]. rewrite Y1. cbn [bind].
    eexists. split; [reflexivity|]. cbn [fst snd]. split; [intros k; specialize (M k); specialize (Y2 k); lia|]. split.
    + intros Z0 F. inversion F as [|? ? F1 F2]; subst. destruct (X3 (Z0 _) F1) as (X5 & X6). destruct Y3 as (Y5 & Y6); [|exact F2|].
      * intros k. unfold errs'. destruct (Nat.eqb k (who t)); [exact X5|apply Z0].
      * split; [exact Y5|constructor; assumption].
    + intros X. inversion X as [? ? U|? ? U]; subst; [|auto]. exists (who t). split; [apply W|]. specialize (Y2 (who t)). unfold errs' in Y2 at 1.
      rewrite Nat.eqb_refl in Y2. specialize (X4 U). lia.
Qed.
Lemma total_zero n errs : (forall k, errs k = 0) -> total n errs = 0.
Proof. intros H. induction n; cbn [total]; [reflexivity|]. rewrite IHn, H. reflexivity. Qed.
Lemma total_pos n errs : (forall k, 0 <= errs k) -> (exists k, (k < n)%nat /\ 0 < errs k) -> 0 < total n errs.
Proof.
  intros H. assert (Q : forall n, 0 <= total n errs) by (induction n0; cbn [total]; [lia|specialize (H n0); lia]).
  induction n; intros (k & K & P); [lia|]. cbn [total]. destruct (Nat.eq_dec k n) as [->|D]; [specialize (Q n); lia|].
  specialize (H n). assert (0 < total n errs) by (apply IHn; exists k; split; [lia|exact P]). lia.
Qed.
