(** Lemmas about the choice of the clusters. *)
From Coq Require Import Reals Lra Lia.
From Flocq Require Import Core.
From Verif Require Import Base RoundModel RoundFacts AdjModel AdjSpec.
#[local] Open Scope R_scope.

(** ** The largest weight *)
Lemma best_ok ok : forall w s mw mc, let r := best w ok s mw mc in
  (r = (mw, mc) /\ forall i x, nth_error w i = Some x -> ok (s + i)%nat = true -> x <= mw) \/
  (exists i, nth_error w i = Some (fst r) /\ snd r = (s + i)%nat /\ ok (s + i)%nat = true /\ mw < fst r /\
     (forall j x, nth_error w j = Some x -> ok (s + j)%nat = true -> x <= fst r) /\
     (forall j x, nth_error w j = Some x -> ok (s + j)%nat = true -> (j < i)%nat -> x < fst r)).
Proof.
  induction w as [|x w IH]; intros s mw mc; cbn [best].
  - left. split; auto. intros [|i] y; discriminate.
  - destruct (Rlt_bool_spec mw x) as [L|L]; destruct (ok s) eqn:O; cbn [andb].
    + right. destruct (IH (S s) x s) as [(E & A)|(i & E1 & E2 & E3 & E4 & E5 & E6)].
      * exists 0%nat. rewrite E. cbn [fst snd nth_error]. rewrite Nat.add_0_r. split; auto. split; auto. split; auto. split; auto. split.
        -- intros [|j] y Y OY; cbn [nth_error] in Y; [inversion Y; lra|]. apply (A j y Y). rewrite Nat.add_succ_r in OY. exact OY.
        -- intros j y _ _ J. lia.
      * exists (S i). cbn [nth_error]. rewrite Nat.add_succ_r. split; auto. split; auto. split; auto. split; [lra|]. split.
        -- intros [|j] y Y OY; cbn [nth_error] in Y; [inversion Y; subst; lra|]. rewrite Nat.add_succ_r in OY. apply (E5 j y Y OY).
        -- intros [|j] y Y OY J; cbn [nth_error] in Y; [inversion Y; subst; lra|]. rewrite Nat.add_succ_r in OY. apply (E6 j y Y OY). lia.
    + destruct (IH (S s) mw mc) as [(E & A)|(i & E1 & E2 & E3 & E4 & E5 & E6)].
      * left. split; auto. intros [|j] y Y OY; cbn [nth_error] in Y; [rewrite Nat.add_0_r in OY; congruence|]. rewrite Nat.add_succ_r in OY. apply (A j y Y OY).
      * right. exists (S i). cbn [nth_error]. rewrite Nat.add_succ_r. split; auto. split; auto. split; auto. split; auto. split.
        -- intros [|j] y Y OY; cbn [nth_error] in Y; [rewrite Nat.add_0_r in OY; congruence|]. rewrite Nat.add_succ_r in OY. apply (E5 j y Y OY).
        -- intros [|j] y Y OY J; cbn [nth_error] in Y; [rewrite Nat.add_0_r in OY; congruence|]. rewrite Nat.add_succ_r in OY. apply (E6 j y Y OY). lia.
    + destruct (IH (S s) mw mc) as [(E & A)|(i & E1 & E2 & E3 & E4 & E5 & E6)].
      * left. split; auto. intros [|j] y Y OY; cbn [nth_error] in Y; [inversion Y; subst; lra|]. rewrite Nat.add_succ_r in OY. apply (A j y Y OY).
      * right. exists (S i). cbn [nth_error]. rewrite Nat.add_succ_r. split; auto. split; auto. split; auto. split; auto. split.
        -- intros [|j] y Y OY; cbn [nth_error] in Y; [inversion Y; subst; lra|]. rewrite Nat.add_succ_r in OY. apply (E5 j y Y OY).
        -- intros [|j] y Y OY J; cbn [nth_error] in Y; [inversion Y; subst; lra|]. rewrite Nat.add_succ_r in OY. apply (E6 j y Y OY). lia.
    + destruct (IH (S s) mw mc) as [(E & A)|(i & E1 & E2 & E3 & E4 & E5 & E6)].
      * left. split; auto. intros [|j] y Y OY; cbn [nth_error] in Y; [inversion Y; subst; lra|]. rewrite Nat.add_succ_r in OY. apply (A j y Y OY).
      * right. exists (S i). cbn [nth_error]. rewrite Nat.add_succ_r. split; auto. split; auto. split; auto. split; auto. split.
        -- intros [|j] y Y OY; cbn [nth_error] in Y; [inversion Y; subst; lra|]. rewrite Nat.add_succ_r in OY. apply (E5 j y Y OY).
        -- intros [|j] y Y OY J; cbn [nth_error] in Y; [inversion Y; subst; lra|]. rewrite Nat.add_succ_r in OY. apply (E6 j y Y OY). lia.
Qed.

Lemma best_max ok w mc i0 x0 : nth_error w i0 = Some x0 -> ok i0 = true -> 0 <= x0 ->
  let r := best w ok 0 (-1) mc in
  nth_error w (snd r) = Some (fst r) /\ ok (snd r) = true /\ (forall j x, nth_error w j = Some x -> ok j = true -> x <= fst r) /\
  (forall j x, nth_error w j = Some x -> ok j = true -> (j < snd r)%nat -> x < fst r).
Proof.
  intros N O P r. destruct (best_ok ok w 0 (-1) mc) as [(E & A)|(i & E1 & E2 & E3 & E4 & E5 & E6)]; [specialize (A i0 x0 N O); lra|].
  fold r in E1, E2, E4, E5, E6. cbn [Nat.add] in *. rewrite E2. auto.
Qed.
Lemma next_max w mc : (length w = 51)%nat -> Forall (Rle 0) w ->
  let r := next_best w mc in (snd r < 50)%nat /\ nth_weight w (snd r) = fst r /\ forall j, (j < 50)%nat -> nth_weight w j <= fst r.
Proof.
  intros L P r. assert (exists x0, nth_error w 0 = Some x0 /\ 0 <= x0) as (x0 & N0 & X0) by (destruct w as [|x0 w0]; [discriminate|]; exists x0; split; [auto|inversion P; auto]).
  destruct (best_max (fun s => Nat.ltb s GLOBAL) w mc 0%nat x0 N0 eq_refl X0) as (E1 & E2 & E3 & _). fold (next_best w mc) in *. fold r in E1, E2, E3.
  apply Nat.ltb_lt in E2. split; auto. split; [apply nth_error_nth; auto|]. intros j J. apply (E3 j); [apply nth_error_nth'; lia|now apply Nat.ltb_lt].
Qed.

(** ** The loop *)
Lemma list_set_length {A} (l : list A) : forall n v, length (list_set l n v) = length l.
Proof. induction l as [|x l IH]; intros [|n] v; cbn; auto. Qed.
Lemma nth_list_set (l : list R) : forall n m v, (n < length l)%nat -> nth m (list_set l n v) 0 = if Nat.eqb m n then v else nth m l 0.
Proof. induction l as [|x l IH]; intros [|n] [|m] v H; cbn in *; try lia; auto. apply IH. lia. Qed.
Lemma list_set_nonneg l n : Forall (Rle 0) l -> Forall (Rle 0) (list_set l n 0).
Proof. intros H. revert n. induction H as [|x l X F IH]; intros [|n]; cbn [list_set]; constructor; auto; lra. Qed.

(** Good enough for the loop. *)
Definition enough (g x : R) : Prop := MIN_WEIGHT < x \/ (MED_WEIGHT < x /\ g < x).
Lemma enough_iff g x : Rlt_bool MIN_WEIGHT x || (Rlt_bool MED_WEIGHT x && Rlt_bool g x) = true <-> enough g x.
Proof.
  unfold enough. destruct (Rlt_bool_spec MIN_WEIGHT x), (Rlt_bool_spec MED_WEIGHT x), (Rlt_bool_spec g x); cbn [orb andb]; split; intros; auto; try discriminate; try (destruct H2 as [?|(? & ?)]; lra); try (destruct H2; lra).
Qed.
Section Loop.
Hypothesis medium : 0 < MED_WEIGHT.
Hypothesis good : MED_WEIGHT <= MIN_WEIGHT.
Lemma enough_pos g x : enough g x -> 0 < x.
Proof. unfold enough. intros [H|(H & _)]; lra. Qed.
Lemma enough_mono g x y : enough g x -> x <= y -> enough g y.
Proof. unfold enough. intros [H|(H & K)] L; [left|right; split]; lra. Qed.

(** Number of weights below the global one that are good enough. *)
Lemma choose_chosen : forall n w mc, (length w = 51)%nat -> Forall (Rle 0) w ->
  let u := choose n w (next_best w mc) in
  chosen n w (fun s => enough (nth_weight w 50) (nth_weight w s)) u.
Proof.
  induction n as [|n IH]; intros w mc L P u.
  - subst u. cbn [choose]. constructor; cbn; try (intros; contradiction); auto.
    + constructor.
    + intros s S O. right. split; auto. split; auto. intros t [].
    + split; [tauto|]. intros (l & _ & _ & H). lia.
  - destruct (next_max w mc L P) as (M1 & M2 & M3). set (m := next_best w mc) in *. subst u. cbn [choose]. change (nth GLOBAL w 0) with (nth_weight w 50).
    destruct (_ || _) eqn:E.
    + apply enough_iff in E. set (w' := list_set w (snd m) 0).
      assert (L' : length w' = 51%nat) by (unfold w'; rewrite list_set_length; auto). assert (P' : Forall (Rle 0) w') by (apply list_set_nonneg; auto).
      assert (NW : forall s, nth_weight w' s = if Nat.eqb s (snd m) then 0 else nth_weight w s) by (intros s; unfold nth_weight, w'; apply nth_list_set; lia).
      assert (G : nth_weight w' 50 = nth_weight w 50) by (rewrite NW; destruct (Nat.eqb_spec 50 (snd m)); [lia|auto]).
      specialize (IH w' (snd m) L' P'). cbv zeta in IH. set (v := choose n w' (next_best w' (snd m))) in *. clearbody v. destruct IH as [D N W O B GL].
      assert (NOT : ~ In (snd m) (map fst v)). { intros I. specialize (O (snd m) I M1). cbv beta in O. rewrite (NW (snd m)), Nat.eqb_refl in O. apply enough_pos in O. lra. }
      constructor; cbn [map fst length].
      * constructor; auto.
      * lia.
      * intros s x [X|X]; [inversion X; subst; split; [lia|auto]|]. destruct (W s x X) as (W1 & W2). split; auto. rewrite W2, NW. destruct (Nat.eqb_spec s (snd m)); auto.
        exfalso. apply NOT. rewrite <- e. apply in_map_iff. exists (s, x). auto.
      * intros s [<-|I] S; [rewrite M2; auto|]. specialize (O s I S). cbv beta in O. rewrite G, NW in O. destruct (Nat.eqb_spec s (snd m)); [apply enough_pos in O; lra|auto].
      * intros s S OS. destruct (Nat.eq_dec s (snd m)) as [Q|Q]; [left; left; auto|]. assert (nth_weight w' s = nth_weight w s) as WS by (rewrite NW; destruct (Nat.eqb_spec s (snd m)); [contradiction|auto]).
        destruct (B s S) as [I|(I1 & I2 & I3)]; [cbv beta; rewrite G, WS; auto|left; right; auto|]. right. split; [lia|]. split; [intros [H|H]; [lia|contradiction]|].
        intros t [<-|I]; [rewrite M2; apply M3; auto|]. rewrite <- WS. specialize (I3 t I). rewrite (NW t) in I3. destruct (Nat.eqb_spec t (snd m)); [subst; contradiction|auto].
      * assert (ON : forall s, (s < 50)%nat -> enough (nth_weight w' 50) (nth_weight w' s) <-> s <> snd m /\ enough (nth_weight w 50) (nth_weight w s)).
        { intros s S. rewrite G, NW. destruct (Nat.eqb_spec s (snd m)) as [Q|Q]; [|tauto]. split; [intros H; apply enough_pos in H; lra|tauto]. }
        split.
        -- intros [H|H]; [lia|]. apply GL in H. destruct H as (l & Nl & Al & Ll). exists (snd m :: l). split; [constructor; auto; intros H; apply Al in H; destruct H as (H1 & H2); apply ON in H2; tauto|]. split; [|cbn [length]; lia].
           intros s. cbn [In]. rewrite Al. split; [intros [<-|(S & H)]; [rewrite M2; auto|split; auto; apply ON in H; tauto]|]. intros (S & H). destruct (Nat.eq_dec (snd m) s); auto. right. split; auto. apply ON; auto.
        -- intros (l & Nl & Al & Ll). right. apply GL. exists (remove Nat.eq_dec (snd m) l). assert (In (snd m) l) as IM by (apply Al; split; auto; rewrite M2; auto).
           split; [|split].
           ++ clear - Nl. induction Nl as [|a l A N IH]; cbn [remove]; [constructor|]. destruct (Nat.eq_dec (snd m) a); auto. constructor; auto. intros H. apply in_remove in H. tauto.
           ++ intros s. split; [intros H; apply in_remove in H; destruct H as (H1 & H2); apply Al in H1; destruct H1; split; auto; apply ON; auto|]. intros (S & H). apply ON in H; auto. destruct H. apply in_in_remove; auto. apply Al. auto.
           ++ apply (remove_length_lt Nat.eq_dec) in IM. eapply Nat.lt_le_trans; [exact IM|]. clear - Ll. lia.
    + assert (NE : forall s, (s < 50)%nat -> ~ enough (nth_weight w 50) (nth_weight w s)).
      { intros s S H. apply (enough_mono _ _ (fst m)) in H; [|auto]. apply enough_iff in H. congruence. }
      constructor; cbn [map fst length].
      * constructor; [intros []|constructor].
      * lia.
      * intros s x [X|[]]. inversion X; subst. split; [unfold GLOBAL; lia|auto].
      * intros s [<-|[]] S. unfold GLOBAL in S. lia.
      * intros s S H. exfalso. apply (NE s S H).
      * split; [intros _|intros _; left; reflexivity]. exists []. split; [constructor|]. split; [|cbn; lia]. intros s. split; [intros []|intros (S & H); apply (NE s S H)].
Qed.

Lemma not9 j : j <> 9%nat -> negb (Nat.eqb j (N_SIM - 1)) = true.
Proof. intros H. destruct (Nat.eqb_spec j (N_SIM - 1)) as [E|E]; [cbn in E; contradiction|reflexivity]. Qed.
Lemma below j : (j < 50)%nat -> Nat.ltb j GLOBAL = true.
Proof. intros H. apply Nat.ltb_lt. auto. Qed.
(** The first choice is right if the best cluster is not the tenth and not the global one. *)
Lemma first_next w s0 : (length w = 51)%nat -> Forall (Rle 0) w -> (s0 < 50)%nat -> s0 <> 9%nat ->
  nth_weight w 50 <= nth_weight w s0 -> nth_weight w 9 < nth_weight w s0 -> first_best w = next_best w 0.
Proof.
  intros L P S N9 G9 N.
  assert (NN : forall j, (j < 51)%nat -> nth_error w j = Some (nth_weight w j)) by (intros j J; apply nth_error_nth'; lia).
  assert (PP : 0 <= nth_weight w s0). { rewrite Forall_forall in P. apply P. apply nth_In. lia. }
  destruct (best_max (fun s => negb (Nat.eqb s (N_SIM - 1))) w 0 s0 (nth_weight w s0) (NN s0 ltac:(lia)) (not9 s0 N9) PP) as (A1 & A2 & A3 & A4).
  destruct (best_max (fun s => Nat.ltb s GLOBAL) w 0 s0 (nth_weight w s0) (NN s0 ltac:(lia)) (below s0 S) PP) as (B1 & B2 & B3 & B4).
  fold (first_best w) in *. fold (next_best w 0) in *. destruct (first_best w) as (a, i), (next_best w 0) as (b, j). cbn [fst snd] in *.
  apply Nat.ltb_lt in B2. assert (i <> 9)%nat as I9 by (destruct (Nat.eqb_spec i (N_SIM - 1)) as [E|E]; [discriminate|cbn in E; auto]).
  assert (nth_weight w s0 <= a) by (apply (A3 s0); [apply NN; lia|exact (not9 s0 N9)]).
  assert (nth_weight w s0 <= b) by (apply (B3 s0); [apply NN; lia|apply below; auto]).
  assert (i < 50)%nat as I.
  { assert (i < 51)%nat by (rewrite <- L; apply nth_error_Some; congruence). destruct (Nat.eq_dec i 50) as [E|E]; [|lia]. subst i. exfalso.
    specialize (A4 s0 _ (NN s0 ltac:(lia)) (not9 s0 N9) S). rewrite NN in A1 by lia. inversion A1. lra. }
  assert (j <> 9)%nat as J9. { intros ->. rewrite NN in B1 by lia. inversion B1. lra. }
  assert (b <= a) by (apply (A3 j); auto; exact (not9 j J9)).
  assert (a <= b) by (apply (B3 i); auto; apply below; auto). assert (a = b) by lra. subst b. f_equal.
  destruct (Nat.lt_trichotomy i j) as [Q|[Q|Q]]; auto.
  - specialize (B4 i a A1 (below i I) Q). lra.
  - specialize (A4 j a B1 (not9 j J9) Q). lra.
Qed.
End Loop.
