(** Facts about the libc model. *)
From Verif Require Import Base BaseFacts CStr.

Lemma memz_spec c s : memz c s = true <-> In c s.
Proof.
  unfold memz; rewrite existsb_exists; split.
  - intros (x & H & E); apply Z.eqb_eq in E; subst; auto.
  - intros H; exists c; split; auto; apply Z.eqb_refl.
Qed.

Lemma memz_false c s : memz c s = false <-> ~ In c s.
Proof. rewrite <- memz_spec; destruct (memz c s); split; intros; try discriminate; auto; tauto. Qed.

Lemma take_until_all s l : Forall (fun c => memz c s = false) l -> take_until s l = l.
Proof. induction 1 as [|c l H _ IH]; cbn; [auto|]. rewrite H, IH; auto. Qed.

Lemma take_until_app s l c r : Forall (fun c => memz c s = false) l -> memz c s = true ->
  take_until s (l ++ c :: r) = l.
Proof. intros H Hc; induction H as [|x l Hx _ IH]; cbn; [rewrite Hc; auto|]. rewrite Hx, IH; auto. Qed.

Lemma take_until_clean s l : Forall (fun c => memz c s = false) (take_until s l).
Proof. induction l as [|c l IH]; cbn; [constructor|]. destruct (memz c s) eqn:E; constructor; auto. Qed.

Lemma take_drop_until s l : take_until s l ++ drop_until s l = l.
Proof. induction l as [|c l IH]; cbn; [auto|]. destruct (memz c s); cbn; congruence. Qed.

Lemma drop_until_head s l c r : drop_until s l = c :: r -> memz c s = true.
Proof.
  induction l as [|x l IH]; cbn; [discriminate|].
  destruct (memz x s) eqn:E; auto. intros H; inversion H; subst; auto.
Qed.

Lemma skip_while_head s l c r : skip_while s l = c :: r -> memz c s = false.
Proof.
  induction l as [|x l IH]; cbn; [discriminate|].
  destruct (memz x s) eqn:E; auto. intros H; inversion H; subst; auto.
Qed.

Lemma skip_while_clean s c l : memz c s = false -> skip_while s (c :: l) = c :: l.
Proof. intros H; cbn; rewrite H; auto. Qed.

Lemma skip_while_suffix s l : exists p, l = p ++ skip_while s l /\ Forall (fun c => memz c s = true) p.
Proof.
  induction l as [|c l (p & E & F)]; cbn; [exists []; auto|].
  destruct (memz c s) eqn:M.
  - exists (c :: p); cbn; split; [congruence|auto].
  - exists []; auto.
Qed.

Lemma strtok_clean s t r : t <> [] -> Forall (fun c => memz c s = false) t ->
  (r = [] \/ exists c r', r = c :: r' /\ memz c s = true) ->
  strtok s (t ++ r) = Some (t, tl r).
Proof.
  intros N F R; unfold strtok.
  destruct t as [|c t]; [congruence|].
  inversion F as [|? ? Hc Ft]; subst.
  change ((c :: t) ++ r) with (c :: (t ++ r)).
  rewrite skip_while_clean by auto.
  assert (take_until s (c :: t ++ r) = c :: t /\ drop_until s (c :: t ++ r) = r) as [-> ->].
  { change (c :: t ++ r) with ((c :: t) ++ r).
    assert (take_until s ((c :: t) ++ r) = c :: t) as E.
    { destruct R as [->|(x & r' & -> & Hx)].
      - rewrite app_nil_r; apply take_until_all; auto.
      - apply take_until_app; auto. }
    split; [exact E|].
    pose proof (take_drop_until s ((c :: t) ++ r)) as Q. rewrite E in Q.
    apply app_inv_head in Q; exact Q. }
  reflexivity.
Qed.

Lemma strtok_token s l t r : strtok s l = Some (t, r) ->
  t <> [] /\ Forall (fun c => memz c s = false) t /\ (length r < length l)%nat.
Proof.
  unfold strtok; destruct (skip_while s l) as [|c l'] eqn:E; [discriminate|].
  intros H; inversion H; subst; clear H.
  pose proof (skip_while_head _ _ _ _ E) as Hc.
  destruct (skip_while_suffix s l) as (p & El & _). rewrite E in El.
  split; [|split].
  - cbn; rewrite Hc; discriminate.
  - exact (take_until_clean s (c :: l')).
  - cbn. rewrite Hc. pose proof (take_drop_until s l') as Q.
    apply (f_equal (@length Z)) in Q. apply (f_equal (@length Z)) in El.
    rewrite app_length in *; cbn [length] in El.
    destruct (drop_until s l'); cbn [tl length] in *; lia.
Qed.

(** Enough fuel for all tokens. *)
Lemma strtok_all_fuel s : forall f1 f2 l, (length l < f1)%nat -> (length l < f2)%nat ->
  strtok_all f1 s l = strtok_all f2 s l.
Proof.
  induction f1 as [|f1 IH]; intros f2 l H1 H2; [lia|].
  destruct f2 as [|f2]; [lia|]; cbn.
  destruct (strtok s l) as [[t r]|] eqn:E; auto.
  destruct (strtok_token _ _ _ _ E) as (_ & _ & L).
  f_equal; apply IH; lia.
Qed.

Lemma tokens_unfold s l :
  tokens s l = match strtok s l with None => [] | Some (t, r) => t :: tokens s r end.
Proof.
  unfold tokens at 1; cbn [strtok_all].
  destruct (strtok s l) as [[t r]|] eqn:E; auto.
  destruct (strtok_token _ _ _ _ E) as (_ & _ & L).
  f_equal; unfold tokens; apply strtok_all_fuel; lia.
Qed.

(** ** decimal numbers *)
Lemma is_digit_spec c : is_digit c = true <-> 48 <= c <= 57.
Proof. unfold is_digit; lia. Qed.

Definition all_digits (l : list Z) : Prop := Forall (fun c => 48 <= c <= 57) l.

Lemma dec_digits_all f : forall n acc, 0 <= n -> all_digits acc -> all_digits (dec_digits f n acc).
Proof.
  induction f as [|f IH]; intros n acc H A; cbn [dec_digits]; auto.
  destruct (n <? 10) eqn:E; [|apply IH; [lia|]]; constructor; auto; lia.
Qed.

Lemma digits_val_app l : forall acc r, all_digits l ->
  digits_val acc (l ++ r) = digits_val (digits_val acc l) r.
Proof.
  induction l as [|c l IH]; intros acc r H; cbn; auto.
  inversion H; subst.
  replace (is_digit c) with true by (symmetry; apply is_digit_spec; auto). auto.
Qed.

Lemma digits_val_dec f : forall n acc, 0 <= n < 10 ^ Z.of_nat f -> all_digits acc -> (0 < f)%nat ->
  digits_val 0 (dec_digits f n acc) = digits_val n acc.
Proof.
  induction f as [|f IH]; intros n acc H A F; [lia|]; cbn [dec_digits].
  assert (all_digits ((48 + n mod 10) :: acc)) as A' by (constructor; auto; lia).
  destruct (n <? 10) eqn:E.
  - cbn [digits_val]. replace (is_digit (48 + n mod 10)) with true by (unfold is_digit; lia).
    f_equal; lia.
  - rewrite Nat2Z.inj_succ, Z.pow_succ_r in H by lia.
    destruct f as [|f].
    { change (10 ^ Z.of_nat 0) with 1 in H; lia. }
    rewrite IH by (auto; lia).
    cbn [digits_val]. replace (is_digit (48 + n mod 10)) with true by (unfold is_digit; lia).
    f_equal; lia.
Qed.

Lemma dec_nonneg_digits n : 0 <= n -> all_digits (dec_nonneg n).
Proof. intros; apply dec_digits_all; [lia|constructor]. Qed.

Lemma dec_nonneg_val n : 0 <= n < 10 ^ 20 -> digits_val 0 (dec_nonneg n) = n.
Proof. intros; unfold dec_nonneg; rewrite digits_val_dec; auto; [constructor|lia]. Qed.

Lemma dec_digits_length f : forall n acc k, (0 < k <= f)%nat -> 0 <= n < 10 ^ Z.of_nat k ->
  (length acc < length (dec_digits f n acc) <= length acc + k)%nat.
Proof.
  induction f as [|f IH]; intros n acc k K H; [lia|]; cbn [dec_digits].
  destruct (n <? 10) eqn:E; [cbn [length]; lia|].
  destruct k as [|k]; [lia|].
  rewrite Nat2Z.inj_succ, Z.pow_succ_r in H by lia.
  destruct k as [|k]; [change (10 ^ Z.of_nat 0) with 1 in H; lia|].
  specialize (IH (n / 10) ((48 + n mod 10) :: acc) (S k)). cbn [length] in IH.
  assert (0 <= n / 10 < 10 ^ Z.of_nat (S k)) by (split; [lia|apply Z.div_lt_upper_bound; lia]).
  lia.
Qed.

Lemma digits_val_zeros k : forall r, digits_val 0 (repeat 48 k ++ r) = digits_val 0 r.
Proof. induction k as [|k IH]; intros r; cbn; auto. Qed.

Lemma pad0_length w n : (0 < w <= 20)%nat -> 0 <= n < 10 ^ Z.of_nat w ->
  length (print_0d w n) = w.
Proof.
  intros W H; unfold print_0d; replace (n <? 0) with false by lia.
  unfold pad0; rewrite app_length, repeat_length.
  pose proof (dec_digits_length 20 n [] w W H) as L; fold (dec_nonneg n) in L.
  cbn [length] in L; lia.
Qed.

Lemma print_0d_digits w n : 0 <= n -> all_digits (print_0d w n).
Proof.
  intros H; unfold print_0d; replace (n <? 0) with false by lia.
  unfold pad0, all_digits. apply Forall_app; split; [|apply dec_nonneg_digits; auto].
  apply Forall_forall; intros x Hx; apply repeat_spec in Hx; lia.
Qed.

Lemma print_0d_val w n : 0 <= n < 10 ^ 20 -> digits_val 0 (print_0d w n) = n.
Proof.
  intros H; unfold print_0d; replace (n <? 0) with false by lia.
  unfold pad0; rewrite digits_val_zeros; apply dec_nonneg_val; auto.
Qed.

Lemma atoi_digits l : all_digits l -> atoi_val l = digits_val 0 l.
Proof.
  intros H; unfold atoi_val; destruct l as [|c l]; auto.
  inversion H; subst; cbn [skip_space].
  replace (is_space c) with false by (unfold is_space; lia).
  assert (c <> 45 /\ c <> 43) as [N1 N2] by lia.
  destruct c as [|p|p]; auto.
  do 7 (destruct p as [p|p|]; auto; try lia).
Qed.

Lemma atoi_print_0d w n : 0 <= n <= 2147483647 -> atoi (print_0d w n) = Ret n.
Proof.
  intros H; unfold atoi; rewrite atoi_digits by (apply print_0d_digits; lia).
  rewrite print_0d_val by lia. apply chk_int_ok; unfold in_int; lia.
Qed.

Lemma atoi_print_d n : in_int n -> atoi (print_d n) = Ret n.
Proof.
  intros H; unfold in_int in H; unfold atoi, print_d.
  destruct (n <? 0) eqn:E.
  - unfold atoi_val; cbn [skip_space]. change (is_space 45) with false; cbn iota beta.
    rewrite dec_nonneg_val by lia. rewrite Z.opp_involutive. apply chk_int_ok; auto.
  - rewrite atoi_digits by (apply dec_nonneg_digits; lia).
    rewrite dec_nonneg_val by lia. apply chk_int_ok; auto.
Qed.

(** Magnitude of parsed digits. *)
Lemma digits_val_bound l : forall acc, 0 <= acc ->
  0 <= digits_val acc l < (acc + 1) * 10 ^ zlen l.
Proof.
  unfold zlen; induction l as [|c l IH]; intros acc H; cbn [digits_val length].
  - change (10 ^ Z.of_nat 0) with 1; lia.
  - rewrite Nat2Z.inj_succ, Z.pow_succ_r by lia.
    assert (0 < 10 ^ Z.of_nat (length l)) by (apply Z.pow_pos_nonneg; lia).
    destruct (is_digit c) eqn:E.
    + apply is_digit_spec in E.
      specialize (IH (acc * 10 + (c - 48)) ltac:(lia)).
      nia.
    + nia.
Qed.

Lemma skip_space_length l : (length (skip_space l) <= length l)%nat.
Proof. induction l as [|c l IH]; cbn; auto. destruct (is_space c); cbn; lia. Qed.

Lemma atoi_val_bound l : Z.abs (atoi_val l) < 10 ^ zlen l.
Proof.
  unfold atoi_val.
  assert (forall t, (length t <= length l)%nat -> Z.abs (digits_val 0 t) < 10 ^ zlen l) as B.
  { intros t L; pose proof (digits_val_bound t 0 ltac:(lia)) as D.
    assert (10 ^ zlen t <= 10 ^ zlen l) by (apply Z.pow_le_mono_r; unfold zlen; lia). lia. }
  pose proof (skip_space_length l) as SL.
  destruct (skip_space l) as [|c t]; [apply B; cbn; lia|].
  cbn [length] in SL.
  assert (Z.abs (digits_val 0 t) < 10 ^ zlen l) by (apply B; lia).
  assert (Z.abs (digits_val 0 (c :: t)) < 10 ^ zlen l) by (apply B; cbn [length]; lia).
  destruct c as [|p|p]; auto.
  do 7 (destruct p as [p|p|]; auto; try lia).
Qed.

Lemma atoi_short l : zlen l <= 9 -> atoi l = Ret (atoi_val l).
Proof.
  intros H; pose proof (atoi_val_bound l).
  assert (10 ^ zlen l <= 10 ^ 9) by (apply Z.pow_le_mono_r; lia).
  apply chk_int_ok; unfold in_int; lia.
Qed.
