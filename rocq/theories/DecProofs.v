(** A number of six decimals is printed as such. *)
From Coq Require Import Reals Lra.
From Flocq Require Import Core IEEE754.BinarySingleNaN.
From Flocq Require Import Relative.
From Verif Require Import Base BaseFacts CStr CStrFacts Float FloatFacts FloatInt DecModel DecSpec.
#[local] Open Scope R_scope.

Lemma div_rne_near a b n : (0 < b)%Z -> (2 * Z.abs (a - n * b) < b)%Z -> div_rne a b = n.
Proof.
  intros Hb H. unfold div_rne. pose proof (Z.div_mod a b ltac:(lia)) as D. pose proof (Z.mod_pos_bound a b Hb) as R.
  set (q := (a / b)%Z) in *. set (r := (a mod b)%Z) in *.
  assert (n = q \/ n = q + 1)%Z as [->| ->] by nia.
  - destruct (Z.ltb_spec (2 * r) b); auto. lia.
  - destruct (Z.ltb_spec (2 * r) b); [lia|]. destruct (Z.gtb_spec (2 * r) b); [auto|lia].
Qed.

Lemma nearest_pos u : (0 < u < 2 ^ 52)%Z ->
  is_finite (nearest false u) = true /\ Rabs (B2R (nearest false u) * 1000000 - IZR u) < /2.
Proof.
  intros H. unfold nearest.
  destruct (isZ64 u) as [Fa Ra]; [lia|]. destruct (isZ64 1000000) as [Fb Rb]; [lia|].
  pose proof (Bdiv_correct 53 1024 _ _ mode_NE (f64_of_Z u) (f64_of_Z 1000000)) as C.
  rewrite Ra, Rb in C. specialize (C ltac:(lra)).
  set (x := IZR u / 1000000) in *.
  set (r := round radix2 (SpecFloat.fexp 53 1024) (round_mode mode_NE) x) in *.
  assert (0 < IZR u) as Pu by (apply IZR_lt; lia).
  assert (IZR u < IZR (2 ^ 52)) as Lu by (apply IZR_lt; lia).
  assert (0 < x) as PX by (unfold x; lra).
  assert (1 <= IZR u) as P1 by (apply IZR_le; lia).
  assert (Rabs (r - x) <= /2 * bpow radix2 (-53 + 1) * Rabs x) as RE.
  { unfold r. change (SpecFloat.fexp 53 1024) with (FLT_exp (3 - 1024 - 53) 53).
    apply (relative_error_N_FLT radix2 (3 - 1024 - 53) 53); [reflexivity|].
    rewrite Rabs_pos_eq by lra. apply Rle_trans with (bpow radix2 (-20)); [apply bpow_le; lia|].
    change (bpow radix2 (-20)) with (/ IZR (2 ^ 20)). unfold x. change (2 ^ 20)%Z with 1048576%Z. lra. }
  rewrite (Rabs_pos_eq x) in RE by lra.
  change (bpow radix2 (-53 + 1)) with (/ IZR (2 ^ 52)) in RE.
  assert (0 < IZR (2 ^ 52)) as P52 by (apply IZR_lt; reflexivity).
  assert (Rabs (r * 1000000 - IZR u) < /2) as E.
  { replace (r * 1000000 - IZR u) with ((r - x) * 1000000) by (unfold x; field).
    rewrite Rabs_mult, (Rabs_pos_eq 1000000) by lra.
    apply Rle_lt_trans with (/ 2 * / IZR (2 ^ 52) * x * 1000000); [apply Rmult_le_compat_r; [lra|exact RE]|].
    replace (/ 2 * / IZR (2 ^ 52) * x * 1000000) with (/ 2 * (IZR u / IZR (2 ^ 52))) by (unfold x; field; lra).
    assert (IZR u / IZR (2 ^ 52) < 1); [|lra].
    apply Rmult_lt_reg_r with (IZR (2 ^ 52)); auto. unfold Rdiv. rewrite Rmult_assoc, Rinv_l by lra. lra. }
  rewrite Rlt_bool_true in C.
  - destruct C as (CR & CF & _). unfold f64_div. rewrite CF, CR. split; [exact Fa|exact E].
  - apply Rle_lt_trans with (bpow radix2 53); [|apply bpow_lt; lia].
    change (bpow radix2 53) with (IZR (2 ^ 53)). change (2 ^ 52)%Z with 4503599627370496%Z in Lu. change (2 ^ 53)%Z with 9007199254740992%Z.
    apply Rabs_le. apply Rabs_def2 in E. lra.
Qed.

Lemma micro_of x u : (0 < u)%Z -> is_finite x = true -> Rabs (B2R x * 1000000 - IZR u) < /2 ->
  exists m e H, x = @B754_finite 53 1024 false m e H /\ micro m e = u.
Proof.
  intros Pu F E.
  assert (1 <= IZR u) by (apply IZR_le; lia).
  assert (0 < B2R x) as Px by (apply Rabs_def2 in E; lra).
  destruct x as [s|s| |s m e H0]; try discriminate F; cbn in Px; try lra.
  destruct s.
  { exfalso. assert (F2R (Float radix2 (Z.neg m) e) < 0) by (apply F2R_lt_0; reflexivity).
    change (SpecFloat.cond_Zopp true (Z.pos m)) with (Z.neg m) in Px. lra. }
  exists m, e, H0. split; auto. unfold micro. cbn [B2R] in E. change (SpecFloat.cond_Zopp false (Z.pos m)) with (Z.pos m) in E. unfold F2R in E; cbn [Fnum Fexp] in E.
  destruct (Z.leb_spec 0 e).
  - rewrite <- (IZR_Zpower radix2) in E by lia. rewrite <- !mult_IZR, <- minus_IZR, <- abs_IZR in E.
    change (Z.pow radix2 e) with (2 ^ e)%Z in E.
    assert (Z.abs (Z.pos m * 2 ^ e * 1000000 - u) < 1)%Z.
    { apply lt_IZR. lra. } lia.
  - assert (0 < 2 ^ (- e))%Z as PE by (apply Z.pow_pos_nonneg; lia).
    apply div_rne_near; auto. apply lt_IZR.
    assert (EB: bpow radix2 e = / IZR (2 ^ (- e))).
    { replace e with (- (- e))%Z at 1 by ring. rewrite bpow_opp. rewrite <- (IZR_Zpower radix2) by lia. reflexivity. }
    rewrite EB in E. set (b := (2 ^ (- e))%Z) in *. assert (0 < IZR b) by (apply IZR_lt; auto).
    rewrite mult_IZR, abs_IZR, minus_IZR, !mult_IZR.
    replace (IZR (Z.pos m) * 1000000 - IZR u * IZR b) with ((IZR (Z.pos m) * / IZR b * 1000000 - IZR u) * IZR b) by (field; lra).
    rewrite Rabs_mult, (Rabs_pos_eq (IZR b)) by lra.
    assert (Rabs (IZR (Z.pos m) * / IZR b * 1000000 - IZR u) * IZR b < / 2 * IZR b) by (apply Rmult_lt_compat_r; auto).
    lra.
Qed.

(** printf("%f") writes exactly the decimals the number was read from. *)
Lemma print_nearest neg u : (0 <= u < 2 ^ 52)%Z -> print_f (nearest neg u) = dec_text neg u.
Proof.
  intros H. destruct (Z.eq_dec u 0) as [->|N].
  - destruct neg; vm_compute; reflexivity.
  - destruct (nearest_pos u ltac:(lia)) as [F E]. destruct (micro_of _ u ltac:(lia) F E) as (m & e & H0 & EX & M).
    assert (nearest neg u = if neg then Bopp (nearest false u) else nearest false u) as -> by reflexivity.
    rewrite EX. destruct neg; cbn [Bopp negb print_f]; rewrite M; reflexivity.
Qed.

Lemma atof_print atof x : atof_ok atof -> six_decimals x -> atof (print_f x) = x.
Proof.
  intros A (neg & u & H & ->). rewrite print_nearest by auto. apply A. lia.
Qed.

Lemma dec_digits_range f n acc : (0 <= n)%Z -> Forall (fun c => 48 <= c <= 57)%Z acc ->
  Forall (fun c => 48 <= c <= 57)%Z (dec_digits f n acc).
Proof.
  revert n acc. induction f as [|f IH]; intros n acc Hn Ha; cbn [dec_digits]; auto.
  pose proof (Z.mod_pos_bound n 10 ltac:(lia)).
  assert (Forall (fun c => 48 <= c <= 57)%Z ((48 + n mod 10)%Z :: acc)) by (constructor; [lia|auto]).
  destruct (n <? 10)%Z; auto. apply IH; auto. apply Z.div_pos; lia.
Qed.

Lemma dec_digits_len f : forall n acc, (length (dec_digits f n acc) <= f + length acc)%nat.
Proof.
  induction f as [|f IH]; intros n acc; cbn [dec_digits]; [lia|].
  destruct (n <? 10)%Z; [cbn [length]; lia|]. specialize (IH (n / 10)%Z ((48 + n mod 10)%Z :: acc)). cbn [length] in IH. lia.
Qed.

Lemma dec_text_chars neg u : (0 <= u)%Z -> Forall (fun c => 45 <= c <= 57)%Z (dec_text neg u) /\ dec_text neg u <> [] /\ (zlen (dec_text neg u) < 500)%Z.
Proof.
  intros H. unfold dec_text.
  assert (W: forall l, Forall (fun c => 48 <= c <= 57)%Z l -> Forall (fun c => 45 <= c <= 57)%Z l)
    by (intros l; apply Forall_impl; intros; lia).
  pose proof (Z.mod_pos_bound u 1000000 ltac:(lia)).
  assert (LP: length (pad0 6 (dec_nonneg (u mod 1000000))) = 6%nat).
  { pose proof (pad0_length 6 (u mod 1000000) ltac:(lia) H0) as Q. unfold print_0d in Q. destruct (Z.ltb_spec (u mod 1000000) 0); [lia|exact Q]. }
  split; [|split].
  - apply Forall_app; split; [destruct neg; [apply Forall_cons; [vm_compute; split; discriminate|apply Forall_nil]|apply Forall_nil]|].
    apply Forall_app; split; [apply W, dec_digits_range; [apply Z.div_pos; lia|constructor]|].
    apply Forall_app; split; [apply Forall_cons; [vm_compute; split; discriminate|apply Forall_nil]|].
    apply W. unfold pad0. apply Forall_app; split; [|apply dec_digits_range; [lia|constructor]].
    apply Forall_forall. intros x Hx. apply repeat_spec in Hx. lia.
  - generalize (dec_digits 400 (u / 1000000) []). intros l. destruct neg; [discriminate|]. destruct l; discriminate.
  - unfold zlen. rewrite !app_length, LP. pose proof (dec_digits_len 400 (u / 1000000) []) as L.
    generalize dependent (dec_digits 400 (u / 1000000) []). intros l L. cbn [length] in L.
    change (length (lit ".")) with 1%nat. assert (length (if neg then lit "-" else []) <= 1)%nat by (destruct neg; cbn; lia). lia.
Qed.

Lemma micro_nonneg m e : (0 <= micro m e)%Z.
Proof.
  unfold micro. destruct (Z.leb_spec 0 e).
  - apply Z.mul_nonneg_nonneg; [lia|]. apply Z.pow_nonneg. lia.
  - assert (0 < 2 ^ (- e))%Z by (apply Z.pow_pos_nonneg; lia). unfold div_rne.
    assert (0 <= Z.pos m * 1000000 / 2 ^ (- e))%Z by (apply Z.div_pos; lia).
    destruct (_ <? _)%Z; [auto|]. destruct (_ >? _)%Z; [lia|]. destruct (Z.even _); lia.
Qed.

(** %f never yields separators, comments or line ends. *)
Lemma print_f_chars x : Forall (fun c => 45 <= c <= 122)%Z (print_f x) /\ ~ In 61%Z (print_f x) /\ print_f x <> [] /\ (zlen (print_f x) < 500)%Z.
Proof.
  assert (W: forall neg u, (0 <= u)%Z -> Forall (fun c => 45 <= c <= 122)%Z (dec_text neg u) /\ ~ In 61%Z (dec_text neg u) /\ dec_text neg u <> [] /\ (zlen (dec_text neg u) < 500)%Z).
  { intros neg u H. destruct (dec_text_chars neg u H) as (A & B & C). split; [revert A; apply Forall_impl; intros; lia|].
    split; [intros Q; eapply Forall_forall in A; [|exact Q]; lia|auto]. }
  destruct x as [s|s| |s m e H]; cbn [print_f].
  - apply W. lia.
  - assert (Q: forall l, forallb (fun c => (45 <=? c)%Z && (c <=? 122)%Z && negb (c =? 61)%Z)%bool l = true -> Forall (fun c => 45 <= c <= 122)%Z l /\ ~ In 61%Z l).
    { intros l Hl. rewrite forallb_forall in Hl. split; [apply Forall_forall; intros x Hx; apply Hl in Hx; lia|].
      intros Hx. apply Hl in Hx. discriminate. }
    destruct s; (split; [apply Q; reflexivity|]); (split; [apply Q; reflexivity|]); split; try discriminate; reflexivity.
  - assert (Q: forall l, forallb (fun c => (45 <=? c)%Z && (c <=? 122)%Z && negb (c =? 61)%Z)%bool l = true -> Forall (fun c => 45 <= c <= 122)%Z l /\ ~ In 61%Z l).
    { intros l Hl. rewrite forallb_forall in Hl. split; [apply Forall_forall; intros x Hx; apply Hl in Hx; lia|].
      intros Hx. apply Hl in Hx. discriminate. }
    (split; [apply Q; reflexivity|]); (split; [apply Q; reflexivity|]); split; try discriminate; reflexivity.
  - apply W. apply micro_nonneg.
Qed.

(** An atof as assumed exists. *)
#[local] Open Scope Z_scope.
Definition atof6 (l : list Z) : f64 :=
  let '(neg, d) := match l with c :: t => if c =? 45 then (true, t) else (false, l) | [] => (false, l) end in
  nearest neg (digits_val 0 (filter (fun c => negb (c =? 46)) d)).

Lemma digits_val_acc l : forall acc, all_digits l -> digits_val acc l = acc * 10 ^ zlen l + digits_val 0 l.
Proof.
  induction l as [|c l IH]; intros acc H; cbn [digits_val]; [unfold zlen; cbn; lia|].
  inversion H; subst. replace (is_digit c) with true by (symmetry; apply is_digit_spec; auto).
  rewrite IH by auto. rewrite (IH (0 * 10 + (c - 48))) by auto.
  replace (zlen (c :: l)) with (1 + zlen l) by (unfold zlen; cbn [length]; lia).
  rewrite Z.pow_add_r by (unfold zlen; lia). change (10 ^ 1) with 10. ring.
Qed.

Lemma filter_digits l : all_digits l -> filter (fun c => negb (c =? 46)) l = l.
Proof.
  induction l as [|c l IH]; intros H; cbn [filter]; auto. inversion H; subst.
  replace (c =? 46) with false by lia. cbn [negb]. rewrite IH by auto. reflexivity.
Qed.

Lemma atof6_ok : atof_ok atof6.
Proof.
  intros neg u H. unfold atof6.
  assert (D1: all_digits (dec_digits 400 (u / 1000000) [])) by (apply dec_digits_all; [lia|constructor]).
  assert (D2: all_digits (pad0 6 (dec_nonneg (u mod 1000000)))).
  { pose proof (print_0d_digits 6 (u mod 1000000) ltac:(lia)) as Q. unfold print_0d in Q.
    destruct (Z.ltb_spec (u mod 1000000) 0); [lia|exact Q]. }
  assert (LP: zlen (pad0 6 (dec_nonneg (u mod 1000000))) = 6).
  { pose proof (pad0_length 6 (u mod 1000000) ltac:(lia) ltac:(change (10 ^ Z.of_nat 6) with 1000000; lia)) as Q. unfold print_0d in Q.
    destruct (Z.ltb_spec (u mod 1000000) 0); [lia|]. unfold zlen. rewrite Q. reflexivity. }
  assert (V2: digits_val 0 (pad0 6 (dec_nonneg (u mod 1000000))) = u mod 1000000).
  { pose proof (print_0d_val 6 (u mod 1000000) ltac:(lia)) as Q. unfold print_0d in Q.
    destruct (Z.ltb_spec (u mod 1000000) 0); [lia|exact Q]. }
  assert (V: digits_val 0 (filter (fun c => negb (c =? 46)) (dec_digits 400 (u / 1000000) [] ++ lit "." ++ pad0 6 (dec_nonneg (u mod 1000000)))) = u).
  { rewrite !filter_app, !filter_digits by auto. change (filter (fun c => negb (c =? 46)) (lit ".")) with (@nil Z). cbn [app].
    rewrite digits_val_app by auto. rewrite digits_val_dec; [|split; [lia|]|constructor|lia].
    2:{ apply Z.lt_le_trans with (10 ^ 20); [lia|]. apply Z.pow_le_mono_r; lia. }
    cbn [digits_val]. rewrite filter_digits by exact D2. rewrite (digits_val_acc (pad0 6 (dec_nonneg (u mod 1000000)))) by exact D2. rewrite LP, V2. lia. }
  unfold dec_text. generalize dependent (dec_digits 400 (u / 1000000) []). intros l D1 V. destruct neg.
  - change (lit "-" ++ ?x) with (45 :: x). cbv iota. change (45 =? 45) with true. cbv iota. rewrite V. reflexivity.
  - cbn [app].
    assert (HD: exists c t, l ++ lit "." ++ pad0 6 (dec_nonneg (u mod 1000000)) = c :: t /\ c <> 45).
    { destruct l as [|c t]; [exists 46; eexists; split; [reflexivity|discriminate]|].
      exists c. eexists. split; [reflexivity|]. inversion D1; subst. lia. }
    destruct HD as (c & t & E & N). rewrite E in *. replace (c =? 45) with false by lia. rewrite V. reflexivity.
Qed.
