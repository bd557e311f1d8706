From Coq Require Import Reals Lra.
From Flocq Require Import Core IEEE754.BinarySingleNaN.
From Verif Require Import Base BaseFacts CStr CStrFacts Loops LoopsFacts StringModel StringSpec StringProofs
  DateModel Float ModeProofs ParamModel ParamSpec.

(** ** words *)
Lemma sep_spec c : is_sep c = memz c seps.
Proof. unfold is_sep, memz, seps; cbn. lia. Qed.
Lemma stop_spec c : is_stop c = memz c stops.
Proof. unfold is_stop, memz, stops; cbn. lia. Qed.

Lemma tokens_nil s : tokens s [] = [].
Proof. reflexivity. Qed.
Lemma tokens_sep s c l : memz c s = true -> tokens s (c :: l) = tokens s l.
Proof.
  intros H. rewrite (tokens_unfold s (c :: l)), (tokens_unfold s l). unfold strtok. cbn [skip_while]. rewrite H.
  reflexivity.
Qed.
Lemma tokens_word s w l : w <> [] -> Forall (fun c => memz c s = false) w ->
  (l = [] \/ exists c r, l = c :: r /\ memz c s = true) -> tokens s (w ++ l) = w :: tokens s l.
Proof.
  intros N F R. rewrite tokens_unfold, strtok_clean by auto. f_equal.
  destruct R as [->|(c & r & -> & H)]; cbn [tl]; [reflexivity|]. rewrite tokens_sep; auto.
Qed.

Lemma split_tokens : forall l w, Forall (fun c => memz c seps = false) w ->
  split w l = tokens seps (w ++ take_until stops l).
Proof.
  induction l as [|c t IH]; intros w F; cbn [split take_until].
  - destruct w as [|a w]; [reflexivity|]. rewrite tokens_word; auto; discriminate.
  - rewrite stop_spec. destruct (memz c stops) eqn:S.
    + destruct w as [|a w]; [reflexivity|]. rewrite tokens_word; auto; discriminate.
    + rewrite sep_spec. destruct (memz c seps) eqn:E.
      * rewrite IH by constructor. cbn [app].
        destruct w as [|a w]; [cbn [app]; rewrite tokens_sep; auto|].
        rewrite tokens_word; [|discriminate|auto|right; eauto]. rewrite tokens_sep; auto.
      * rewrite IH; [rewrite <- app_assoc; reflexivity|]. apply Forall_app; split; auto.
Qed.
Lemma words_tokens line : words line = tokens seps (take_until stops line).
Proof. unfold words. rewrite split_tokens by constructor. reflexivity. Qed.

Lemma take_until_In s l c : In c (take_until s l) -> In c l.
Proof. rewrite <- (take_drop_until s l) at 2. intros H; apply in_or_app; auto. Qed.
Lemma strtok_In s l t r c : strtok s l = Some (t, r) -> In c t \/ In c r -> In c l.
Proof.
  unfold strtok. destruct (skip_while_suffix s l) as (p & E & _).
  remember (skip_while s l) as k. destruct k as [|a l'] eqn:K; [discriminate|]. rewrite <- K in *.
  intros X. assert (t = take_until s k /\ r = tl (drop_until s k)) as [-> ->] by (split; congruence).
  rewrite E. intros H. apply in_or_app; right. rewrite <- (take_drop_until s k). apply in_or_app.
  destruct H as [H|H]; [left; auto|right]. destruct (drop_until s k); cbn [tl] in H; [destruct H|right; auto].
Qed.
Lemma tokens_In s : forall l t c, In t (tokens s l) -> In c t -> In c l.
Proof.
  assert (forall n l t c, (length l <= n)%nat -> In t (tokens s l) -> In c t -> In c l) as H.
  { induction n as [|n IH]; intros l t c N I C; rewrite tokens_unfold in I;
      destruct (strtok s l) as [[u r]|] eqn:E; try (destruct I; fail);
      destruct (strtok_token _ _ _ _ E) as (_ & _ & L); [lia|].
    apply (strtok_In _ _ _ _ c E). destruct I as [->|I]; [auto|right].
    apply (IH r t); auto. lia. }
  intros l t c; apply (H (length l)); auto.
Qed.

(** ** conversions *)
Lemma parse_enum_spec l w : parse_enum w l = enum_value l w.
Proof.
  unfold enum_value. induction l as [|[t e] l IH]; cbn [parse_enum find fst]; [reflexivity|].
  destruct (list_eq_dec Z.eq_dec t w) as [->|N].
  - rewrite (proj2 (streq_spec w w) eq_refl). reflexivity.
  - destruct (streq w t) eqn:E; [apply streq_spec in E; congruence|]. exact IH.
Qed.

Lemma digits_val_bound : forall l acc, 0 <= acc -> 0 <= digits_val acc l /\
  digits_val acc l < (acc + 1) * 10 ^ Z.of_nat (length l).
Proof.
  induction l as [|c t IH]; intros acc A; cbn [digits_val length]; [lia|].
  rewrite Nat2Z.inj_succ, Z.pow_succ_r by lia.
  destruct (is_digit c) eqn:D; [apply is_digit_spec in D|].
  - destruct (IH (acc * 10 + (c - 48)) ltac:(lia)) as [B1 B2]. split; auto. nia.
  - split; auto. nia.
Qed.
Lemma skip_space_length l : (length (skip_space l) <= length l)%nat.
Proof. induction l as [|c t IH]; cbn [skip_space]; auto. destruct (is_space c); cbn [length] in *; lia. Qed.
Lemma atoi_short l : (length l <= 4)%nat -> atoi l = Ret (atoi_val l).
Proof.
  intros L. unfold atoi. apply chk_int_ok. unfold atoi_val, in_int.
  pose proof (skip_space_length l) as K.
  assert (forall d, (length d <= 4)%nat -> 0 <= digits_val 0 d < 10000) as B.
  { intros d D. destruct (digits_val_bound d 0) as [B1 B2]; [lia|]. split; auto.
    assert (10 ^ Z.of_nat (length d) <= 10 ^ 4) by (apply Z.pow_le_mono_r; lia). lia. }
  destruct (skip_space l) as [|c t]; [cbn; lia|].
  assert (length t <= 4)%nat as T by (cbn [length] in K; lia).
  assert (length (c :: t) <= 4)%nat as CT by lia.
  pose proof (B _ T). pose proof (B _ CT).
  destruct c as [|p|p]; try lia. do 7 (destruct p as [p|p|]; try lia).
Qed.

Lemma buf_byte_tok line cut o tok k : o <= k < o + zlen tok -> buf_byte line cut o tok k = get_at tok (k - o).
Proof. intros H. unfold buf_byte. replace (k <? o + zlen tok) with true by lia. reflexivity. Qed.

Lemma read_field_tok line cut o tok : Forall (fun c => c <> 0) tok -> forall n k, o <= k ->
  k + Z.of_nat n <= o + zlen tok ->
  read_field n (buf_byte line cut o tok) k = Ret (firstn n (skipn (Z.to_nat (k - o)) tok)).
Proof.
  intros F; induction n as [|n IH]; intros k K N; cbn [read_field]; [reflexivity|].
  rewrite buf_byte_tok by lia.
  destruct (get_at_some tok (k - o)) as (c & C); [lia|]. rewrite C. cbn [of_option bind].
  pose proof (Forall_get_at _ _ _ _ F C) as C0. cbn beta in C0. replace (c =? 0) with false by lia.
  rewrite IH by lia. cbn [bind]. f_equal.
  replace (k - o) with (Z.of_nat (Z.to_nat (k - o))) in C by lia. rewrite get_at_nat in C.
  replace (Z.to_nat (k + 1 - o)) with (S (Z.to_nat (k - o))) by lia.
  set (m := Z.to_nat (k - o)) in *. clearbody m. clear - C.
  revert tok C; induction m as [|m IH]; intros [|a t] C; cbn in C; try discriminate.
  - inversion C; subst. reflexivity.
  - exact (IH t C).
Qed.

Section S.
Context (atof32 : list Z -> f32) (atof64 : list Z -> f64) (fileexist : list Z -> bool).
Notation convert := (convert atof32 atof64).
Notation denote := (denote atof32 atof64).
Notation par_loop := (par_loop atof32 atof64).
Notation parse_parameter := (parse_parameter atof32 atof64).
Notation store_vec := (store_vec atof32 atof64).
Notation line_effect := (line_effect atof32 atof64).
Notation final_par := (final_par atof32 atof64).

Definition date_full (ty : ptype) (w : list Z) : Prop :=
  (exists lo hi, ty = PDate lo hi) -> (10 <= length w)%nat.

Lemma convert_denote ty line l tok : Forall (fun c => c <> 0) tok -> date_full ty tok ->
  convert ty line l tok = denote ty tok.
Proof.
  intros F D. destruct ty; cbn [ParamModel.convert ParamSpec.denote]; try rewrite parse_enum_spec; auto.
  - unfold atoi, chk_int. destruct (in_intb (atoi_val tok)); reflexivity.
  - specialize (D (ex_intro _ _ (ex_intro _ _ eq_refl))).
    unfold parse_date. rewrite !read_field_tok by (auto; unfold zlen; lia). cbn [bind].
    rewrite !atoi_short by (rewrite firstn_length; lia). cbn [bind].
    set (o := zlen _ - zlen _).
    replace (Z.to_nat (o - o)) with 0%nat by lia. replace (Z.to_nat (o + 5 - o)) with 5%nat by lia.
    replace (Z.to_nat (o + 8 - o)) with 8%nat by lia. reflexivity.
  - unfold copy_string. replace (zlen tok >=? NPOW_10) with (negb (zlen tok <? 1024)) by (unfold NPOW_10; lia).
    destruct (zlen tok <? 1024); reflexivity.
Qed.

Lemma omap_length {A B} (f : A -> outcome B) : forall l r, omap f l = Ret r -> length r = length l.
Proof.
  induction l as [|a l IH]; cbn [omap]; intros r H; [inversion H; auto|].
  destruct (f a); cbn [bind] in H; try discriminate.
  destruct (omap f l); cbn [bind] in H; try discriminate. inversion H; subst. cbn; auto.
Qed.

Lemma store_vec_spec ty line : forall fuel l done m,
  (length l < fuel)%nat -> Forall (fun c => c <> 0) l -> Forall (date_full ty) (tokens seps l) ->
  (length (tokens seps l) <= m)%nat ->
  store_vec fuel ty line l (zlen done) (done ++ repeat VNone m) =
  (xs <- omap (denote ty) (tokens seps l) ;; Ret (done ++ xs ++ repeat VNone (m - length (tokens seps l)))).
Proof.
  induction fuel as [|f IH]; intros l done m L F D M; [lia|].
  rewrite (tokens_unfold seps l) in *. cbn [ParamModel.store_vec].
  destruct (strtok seps l) as [[t r]|] eqn:E.
  2:{ cbn [omap bind length app]. rewrite Nat.sub_0_r. reflexivity. }
  destruct (strtok_token _ _ _ _ E) as (_ & _ & LR). inversion D as [|? ? D1 D2]; subst.
  assert (forall c, In c t \/ In c r -> c <> 0) as NZ.
  { intros c C. rewrite Forall_forall in F. apply F. eapply strtok_In; eauto. }
  rewrite convert_denote; [|apply Forall_forall; auto|auto].
  cbn [omap length]. destruct (denote ty t) as [v| |]; cbn [bind]; auto.
  destruct m as [|m]; [cbn [length] in M; lia|]. cbn [repeat length] in *.
  rewrite set_at_app_mid. cbn [of_option bind].
  replace (zlen done + 1) with (zlen (done ++ [v])) by (unfold zlen; rewrite app_length; cbn; lia).
  replace (done ++ v :: repeat VNone m) with ((done ++ [v]) ++ repeat VNone m) by (rewrite <- app_assoc; reflexivity).
  rewrite IH; [|lia|apply Forall_forall; auto|auto|lia].
  destruct (omap (denote ty) (tokens seps r)); cbn [bind]; auto.
  rewrite <- app_assoc. reflexivity.
Qed.

(** ** One line *)
Lemma effect_none ws ps : (forall p, In p ps -> p_set p = false -> hd [] ws <> p_name p) -> (2 <= length ws)%nat ->
  omap (line_effect ws) ps = Ret ps.
Proof.
  intros H L. destruct ws as [|t [|v vs]]; cbn [length] in L; try lia.
  induction ps as [|p ps IH]; cbn [omap]; [reflexivity|].
  assert (line_effect (t :: v :: vs) p = Ret p) as ->.
  { cbn [ParamSpec.line_effect]. destruct (p_set p) eqn:S; auto.
    destruct (list_eq_dec Z.eq_dec t (p_name p)) as [E|E]; auto.
    exfalso; apply (H p); auto. left; auto. }
  cbn [bind]. rewrite IH; [reflexivity|]. intros q Q; apply H; right; auto.
Qed.

Lemma par_loop_none line tag l : forall ps, (forall p, In p ps -> p_set p = false -> tag <> p_name p) ->
  par_loop line tag l ps = Ret ps.
Proof.
  induction ps as [|p ps IH]; intros H; cbn [ParamModel.par_loop]; [reflexivity|].
  assert (par_loop line tag l ps = Ret ps) as R by (apply IH; intros q Q; apply H; right; auto).
  rewrite R. cbn [bind].
  destruct (p_set p) eqn:S; auto.
  destruct (streq tag (p_name p)) eqn:E; [|auto].
  apply streq_spec in E. exfalso; apply (H p); auto. left; auto.
Qed.

Lemma par_loop_spec line l0 tag l : forall ps, zlen line < NPOW_16 ->
  Forall (fun c => c <> 0) line ->
  l0 = take_until stops line -> strtok seps l0 = Some (tag, l) ->
  NoDup (map p_name ps) ->
  (forall p w, In p ps -> In w (tl (words line)) -> (exists lo hi, p_type p = PDate lo hi) ->
     hd [] (words line) = p_name p -> (10 <= length w)%nat) ->
  par_loop line tag l ps = omap (line_effect (words line)) ps.
Proof.
  intros ps LL NZ L0 ST ND D.
  assert (words line = tag :: tokens seps l) as W.
  { rewrite words_tokens, <- L0, tokens_unfold, ST. reflexivity. }
  assert (forall c, In c l -> c <> 0) as NZl.
  { intros c C. rewrite Forall_forall in NZ. apply NZ. apply take_until_In with stops. rewrite <- L0.
    eapply strtok_In; eauto. }
  rewrite W in *. cbn [hd tl] in D.
  induction ps as [|p ps IH]; [reflexivity|].
  inversion ND as [|? ? NI ND']; subst x l1.
  assert (forall q, In q ps -> tag = p_name p -> tag <> p_name q) as NQ.
  { intros q Q E E'. apply NI. rewrite <- E, E'. apply in_map; auto. }
  assert (par_loop line tag l ps = omap (line_effect (tag :: tokens seps l)) ps) as R.
  { apply IH; auto. intros q w Q; apply D; right; auto. }
  cbn [ParamModel.par_loop omap]. unfold line_effect at 1.
  destruct (p_set p) eqn:PS.
  { rewrite R. destruct (tokens seps l); reflexivity. }
  destruct (streq tag (p_name p)) eqn:E.
  2:{ assert (tag <> p_name p) as N by (intros N; rewrite (proj2 (streq_spec _ _) N) in E; discriminate).
      rewrite R. destruct (tokens seps l) as [|v vs]; [reflexivity|].
      destruct (list_eq_dec Z.eq_dec tag (p_name p)); [contradiction|reflexivity]. }
  apply streq_spec in E.
  destruct (strtok seps l) as [[tok l']|] eqn:S2.
  2:{ assert (tokens seps l = []) as T by (rewrite tokens_unfold, S2; reflexivity). rewrite T in *. cbn [bind].
      rewrite <- R, par_loop_none by auto. reflexivity. }
  assert (tokens seps l = tok :: tokens seps l') as T by (rewrite tokens_unfold, S2; reflexivity).
  rewrite T in *.
  destruct (list_eq_dec Z.eq_dec tag (p_name p)) as [_|]; [|contradiction].
  assert (omap (line_effect (tag :: tok :: tokens seps l')) ps = Ret ps) as EP.
  { apply effect_none; [intros q Q _; cbn [hd]; auto|cbn [length]; lia]. }
  rewrite EP. unfold used_words. destruct (p_vec p) as [k|].
  - unfold length_par, copy_string. replace (zlen line >=? NPOW_16) with false by lia. cbn [bind].
    rewrite <- L0. assert (tokens seps l0 = tag :: tok :: tokens seps l') as T0 by (rewrite tokens_unfold, ST, T; reflexivity).
    rewrite T0. replace (zlen (tag :: tok :: tokens seps l') - 1) with (zlen (tok :: tokens seps l')) by (unfold zlen; cbn [length]; lia).
    replace (zlen (tok :: tokens seps l') <? 1) with false by (unfold zlen; cbn [length]; lia).
    rewrite ST.
    pose proof (store_vec_spec (p_type p) line (S (length l)) l [] (Z.to_nat (zlen (tok :: tokens seps l')))) as SV.
    cbn [app] in SV. change (zlen (@nil pval)) with 0 in SV. rewrite SV; clear SV.
    + rewrite T. destruct (omap (denote (p_type p)) (tok :: tokens seps l')) as [xs| |] eqn:X; cbn [bind]; auto.
      rewrite par_loop_none by (intros; auto). cbn [bind]. do 3 f_equal.
      unfold zlen. rewrite Nat2Z.id, Nat.sub_diag. cbn [repeat]. apply app_nil_r.
    + lia.
    + apply Forall_forall; auto.
    + rewrite T. apply Forall_forall. intros w Hw X. apply (D p); auto. left; auto.
    + rewrite T. unfold zlen. lia.
  - cbn [firstn omap]. rewrite convert_denote.
    + destruct (denote (p_type p) tok); cbn [bind]; auto. rewrite par_loop_none by (intros; auto). reflexivity.
    + apply Forall_forall. intros c C. apply NZl. eapply strtok_In; eauto.
    + intros X. apply (D p); auto; left; auto.
Qed.

Lemma parse_parameter_spec ps line : zlen line < 65536 -> cstring line -> NoDup (map p_name ps) ->
  full_dates ps line ->
  parse_parameter ps line = omap (line_effect (words line)) ps.
Proof.
  intros LL CS ND D. unfold ParamModel.parse_parameter, copy_string.
  replace (zlen line >=? NPOW_16) with false by (unfold NPOW_16; lia). cbn [bind].
  destruct (strtok seps (take_until stops line)) as [[tag l]|] eqn:ST.
  - eapply par_loop_spec; eauto. eapply Forall_impl; [|exact CS]. cbn; intros; lia.
  - rewrite words_tokens, tokens_unfold, ST.
    clear. induction ps as [|p ps IH]; cbn [omap]; [reflexivity|]. cbn [ParamSpec.line_effect bind].
    rewrite <- IH. reflexivity.
Qed.

(** ** Whole files *)
Lemma omap_nth {A B} (f : A -> outcome B) : forall l r, omap f l = Ret r ->
  forall i a, nth_error l i = Some a -> exists b, nth_error r i = Some b /\ f a = Ret b.
Proof.
  induction l as [|a l IH]; cbn [omap]; intros r H i x; [destruct i; discriminate|].
  destruct (f a) as [b| |] eqn:FA; cbn [bind] in H; try discriminate.
  destruct (omap f l) as [bs| |] eqn:O; cbn [bind] in H; try discriminate. inversion H; subst.
  destruct i as [|i]; cbn [nth_error]; intros X.
  - inversion X; subst. eauto.
  - eapply IH; eauto.
Qed.
Lemma omap_ok {A B} (f : A -> outcome B) l : (forall a, In a l -> exists b, f a = Ret b) -> exists r, omap f l = Ret r.
Proof.
  induction l as [|a l IH]; intros H; cbn [omap]; [eauto|].
  destruct (H a) as (b & ->); [left; auto|]. destruct IH as (r & ->); [intros; apply H; right; auto|].
  cbn [bind]. eauto.
Qed.

Lemma effect_name ws p p' : line_effect ws p = Ret p' ->
  p_name p' = p_name p /\ p_type p' = p_type p /\ p_vec p' = p_vec p.
Proof.
  unfold ParamSpec.line_effect. destruct ws as [|t [|v vs]]; try (intros X; inversion X; subst; auto; fail).
  destruct (p_set p); [intros X; inversion X; subst; auto|].
  destruct (list_eq_dec Z.eq_dec t (p_name p)); [|intros X; inversion X; subst; auto].
  destruct (omap _ _); cbn [bind]; intros X; inversion X; subst; auto.
Qed.
Lemma effects_same ws : forall ps ps', omap (line_effect ws) ps = Ret ps' ->
  map p_name ps' = map p_name ps /\ map p_type ps' = map p_type ps.
Proof.
  induction ps as [|p ps IH]; cbn [omap]; intros ps' H; [inversion H; auto|].
  destruct (line_effect ws p) as [q| |] eqn:E; cbn [bind] in H; try discriminate.
  destruct (omap (line_effect ws) ps) as [qs| |] eqn:O; cbn [bind] in H; try discriminate. inversion H; subst.
  destruct (IH _ eq_refl) as [I1 I2]. destruct (effect_name _ _ _ E) as (N & T & _). cbn [map]. split; congruence.
Qed.

Lemma full_dates_combine ps line : full_dates ps line <->
  (forall n ty w, In (n, ty) (combine (map p_name ps) (map p_type ps)) -> In w (tl (words line)) ->
    (exists lo hi, ty = PDate lo hi) -> hd [] (words line) = n -> (10 <= length w)%nat).
Proof.
  assert (forall n ty, In (n, ty) (combine (map p_name ps) (map p_type ps)) <-> exists p, In p ps /\ p_name p = n /\ p_type p = ty) as C.
  { intros n ty. induction ps as [|q ps IH]; cbn [map combine]; [split; [intros []|intros (p & [] & _)]|].
    cbn [In]. rewrite IH. split.
    - intros [E|(p & P & E)]; [inversion E; subst; exists q; auto|exists p; auto].
    - intros (p & [->|P] & E1 & E2); [left; congruence|right; eauto]. }
  unfold full_dates; split.
  - intros H n ty w I W DD E. apply C in I. destruct I as (p & P & <- & <-). eauto.
  - intros H p w P W DD E. eapply H; eauto. apply C. eauto.
Qed.

Notation parse_lines := (parse_lines atof32 atof64).

Lemma parse_lines_nth : forall lines ps ps', NoDup (map p_name ps) ->
  Forall (line_fine (map p_name ps) (map p_type ps)) lines ->
  parse_lines ps lines = Ret ps' ->
  length ps' = length ps /\
  forall i p, nth_error ps i = Some p -> exists p', nth_error ps' i = Some p' /\
    (p_set p = true -> p' = p) /\ (p_set p = false -> final_par lines p p').
Proof.
  unfold parse_lines. induction lines as [|l lines IH]; cbn [ofold]; intros ps ps' ND F H.
  - inversion H; subst ps'. split; auto. intros i p P; exists p. split; auto. split; auto. intros _. reflexivity.
  - inversion F as [|? ? (L1 & L2 & L3) F']; subst.
    rewrite parse_parameter_spec in H; auto; [|apply full_dates_combine; auto].
    destruct (omap (line_effect (words l)) ps) as [ps1| |] eqn:E; cbn [bind] in H; try discriminate.
    destruct (effects_same _ _ _ E) as [S1 S2].
    destruct (IH ps1 ps') as [LN N]; [rewrite S1; auto|rewrite S1, S2; auto|auto|].
    pose proof (omap_length _ _ _ E) as LE. split; [lia|].
    intros i p P. destruct (omap_nth _ _ _ E i p P) as (p1 & P1 & EF).
    destruct (N i p1 P1) as (p' & P' & A & B). exists p'. split; auto.
    destruct (effect_name _ _ _ EF) as (N1 & T1 & V1).
    unfold ParamSpec.line_effect in EF. unfold ParamSpec.final_par; cbn [definition_of].
    unfold ParamSpec.final_par in B. rewrite N1, T1 in B.
    destruct (words l) as [|t [|v vs]].
    + assert (p1 = p) by congruence; subst p1. split; auto.
    + assert (p1 = p) by congruence; subst p1. split; auto.
    + destruct (p_set p) eqn:PS.
      * assert (p1 = p) by congruence; subst p1. split; auto. discriminate.
      * split; [discriminate|]. intros _.
        destruct (list_eq_dec Z.eq_dec t (p_name p)) as [EN|EN].
        -- destruct (omap (denote _) _) as [xs| |] eqn:X; cbn [bind] in EF; try discriminate. assert (p1 = set_val p xs) by congruence; subst p1.
           exists xs. split; [auto|exact (A eq_refl)].
        -- assert (p1 = p) by congruence; subst p1. exact (B PS).
Qed.

Lemma parse_lines_total : forall lines ps, NoDup (map p_name ps) ->
  Forall (line_fine (map p_name ps) (map p_type ps)) lines ->
  (forall p ws, In p ps -> p_set p = false -> definition_of (p_name p) lines = Some ws ->
     exists xs, omap (denote (p_type p)) (used_words p ws) = Ret xs) ->
  exists ps', parse_lines ps lines = Ret ps'.
Proof.
  unfold parse_lines. induction lines as [|l lines IH]; cbn [ofold]; intros ps ND F H; [eauto|].
  inversion F as [|? ? (L1 & L2 & L3) F']; subst.
  rewrite parse_parameter_spec; auto; [|apply full_dates_combine; auto].
  destruct (omap_ok (line_effect (words l)) ps) as (ps1 & E).
  { intros p P. unfold ParamSpec.line_effect. destruct (words l) as [|t [|v vs]] eqn:W; eauto.
    destruct (p_set p) eqn:PS; eauto. destruct (list_eq_dec Z.eq_dec t (p_name p)) as [EN|]; eauto.
    destruct (H p (v :: vs)) as (xs & ->); auto; [|cbn [bind]; eauto].
    cbn [definition_of]. rewrite W. destruct (list_eq_dec Z.eq_dec t (p_name p)); [auto|contradiction]. }
  rewrite E. cbn [bind]. destruct (effects_same _ _ _ E) as [S1 S2].
  apply IH; [rewrite S1; auto|rewrite S1, S2; auto|].
  intros p1 ws P1 PS1 DF. apply In_nth_error in P1. destruct P1 as (i & P1).
  assert (exists p, nth_error ps i = Some p) as (p & P).
  { pose proof (omap_length _ _ _ E). destruct (nth_error ps i) eqn:Q; eauto.
    apply nth_error_None in Q. assert (i < length ps1)%nat by (apply nth_error_Some; congruence). lia. }
  destruct (omap_nth _ _ _ E i p P) as (q & Q & EF). assert (q = p1) by congruence. subst q.
  destruct (effect_name _ _ _ EF) as (N1 & T1 & V1). unfold used_words in *. rewrite T1, V1.
  unfold ParamSpec.line_effect in EF.
  assert (forall x : outcome par, x = Ret p -> x = Ret p1 -> p1 = p) as SAME by (intros; congruence).
  destruct (words l) as [|t [|v vs]] eqn:W.
  - assert (p1 = p) by congruence. subst p1. apply (H p); auto. { eapply nth_error_In; eauto. } cbn [definition_of]. rewrite W; auto.
  - assert (p1 = p) by congruence. subst p1. apply (H p); auto. { eapply nth_error_In; eauto. } cbn [definition_of]. rewrite W; auto.
  - destruct (p_set p) eqn:PS. { assert (p1 = p) by congruence. subst. congruence. }
    destruct (list_eq_dec Z.eq_dec t (p_name p)) as [EN|EN].
    + destruct (omap (denote _) _); cbn [bind] in EF; try discriminate. inversion EF; subst p1. discriminate.
    + assert (p1 = p) by congruence. subst p1. apply (H p); auto. { eapply nth_error_In; eauto. }
      cbn [definition_of]. rewrite W. destruct (list_eq_dec Z.eq_dec t (p_name p)); [contradiction|auto].
Qed.

(** ** Checks *)
Lemma float_ok {pr em} (lo x hi : binary_float pr em) : is_finite lo = true -> is_finite hi = true -> is_nan x = false ->
  (flt x lo || flt hi x = false <-> finite_between lo x hi).
Proof.
  intros L H N. unfold flt, finite_between.
  destruct (is_finite x) eqn:F.
  - rewrite (Bltb_correct _ _ x lo F L), (Bltb_correct _ _ hi x H F).
    destruct (Rlt_bool_spec (B2R x) (B2R lo)), (Rlt_bool_spec (B2R hi) (B2R x)); cbn; split; intros Q; try discriminate; auto;
      destruct Q as [_ Q]; lra.
  - split; [|intros [Q _]; discriminate]. intros Q. exfalso.
    destruct x as [s|s| |s m e B]; cbn in F, N; try discriminate.
    destruct lo as [a|a| |a m e B]; cbn in L; try discriminate;
    destruct hi as [b|b| |b m' e' B']; cbn in H; try discriminate; destruct s; cbn in Q; discriminate.
Qed.

Lemma parse_date_ce lo hi d : bad_value fileexist (PDate lo hi) (VDate d) = false <-> ce lo <= ce d <= ce hi.
Proof. cbn [bad_value]. lia. Qed.

Lemma enum_ok l w : ~ In 2147483647 (map snd l) ->
  (negb (existsb (fun e => enum_value l w =? snd e) l) = false <-> In w (map fst l)).
Proof.
  intros NI. unfold enum_value.
  destruct (find _ l) as [[t e]|] eqn:FD.
  - apply find_some in FD. destruct FD as [I T]. cbn [fst snd] in *.
    destruct (list_eq_dec Z.eq_dec t w) as [->|]; [|discriminate].
    assert (existsb (fun e0 => e =? snd e0) l = true) as -> by (apply existsb_exists; exists (w, e); split; auto; cbn; lia).
    cbn. split; auto. intros _. apply in_map_iff. exists (w, e); auto.
  - assert (existsb (fun e => 2147483647 =? snd e) l = false) as ->.
    { apply not_true_is_false. intros X. apply existsb_exists in X. destruct X as (x & I & X). apply NI.
      apply in_map_iff. exists x. split; auto. lia. }
    cbn. split; [discriminate|]. intros X. apply in_map_iff in X. destruct X as (x & E & I).
    pose proof (find_none _ _ FD x I) as Y. cbn beta in Y. destruct (list_eq_dec Z.eq_dec (fst x) w); [discriminate|contradiction].
Qed.

Lemma strstr_char c w : (if strstr w [c] then true else false) = true <-> In c w.
Proof.
  pose proof (strstr_spec [c] w) as H. destruct (strstr w [c]) as [i|].
  - split; auto. intros _. destruct H as [(pre & post & -> & _) _]. apply in_or_app; right; left; auto.
  - split; [discriminate|]. intros I. exfalso. apply in_split in I. destruct I as (p & q & ->).
    apply (H (length p)). exists p, q. split; auto.
Qed.

Lemma streq_false a b : streq a b = false <-> a <> b.
Proof. rewrite <- (streq_spec a b). destruct (streq a b); split; intros; congruence. Qed.

Lemma char_test_ok t w : bad_char fileexist t w = false <-> char_ok fileexist t w.
Proof.
  assert ((if strstr w (` "/") then true else false) || (if strstr w (` ".") then false else true) = false <->
          ~ In 47 w /\ In 46 w) as B.
  { pose proof (strstr_char 47 w) as A. pose proof (strstr_char 46 w) as C.
    change (` "/") with [47]. change (` ".") with [46].
    assert (forall b c : bool, b || (if c then false else true) = false <-> b <> true /\ c = true) as BB
      by (intros [] []; cbn; split; intros X; try discriminate; try (destruct X; congruence); split; congruence).
    replace (if strstr w [46] then false else true) with (if (if strstr w [46] then true else false) then false else true)
      by (destruct (strstr w [46]); reflexivity).
    rewrite BB, A, C. tauto. }
  pose proof (streq_spec w (` "NULL")) as SE. unfold bad_char, char_ok.
  destruct t; try tauto.
  - rewrite andb_false_iff, !negb_false_iff, SE. tauto.
  - rewrite negb_false_iff. tauto.
  - rewrite andb_false_iff, B, negb_false_iff, SE. tauto.
Qed.

Lemma value_ok ty w v : type_ok ty -> not_nan atof32 atof64 ty w -> denote ty w = Ret v ->
  (bad_value fileexist ty v = false <-> word_ok atof32 atof64 fileexist ty w).
Proof.
  intros T N D. destruct ty; cbn [ParamSpec.denote] in D.
  - destruct (in_intb (atoi_val w)); inversion D; subst v. cbn [bad_value word_ok]. lia.
  - inversion D; subst v. apply enum_ok; auto.
  - inversion D; subst v. destruct T. apply float_ok; auto.
  - inversion D; subst v. destruct T. apply float_ok; auto.
  - inversion D; subst v. apply enum_ok; auto.
  - inversion D; subst v. apply parse_date_ce.
  - destruct (zlen w <? 1024); inversion D; subst v. apply char_test_ok.
Qed.

Lemma values_ok ty : type_ok ty -> forall ws vs, Forall (not_nan atof32 atof64 ty) ws -> omap (denote ty) ws = Ret vs ->
  (existsb (bad_value fileexist ty) vs = false <-> Forall (word_ok atof32 atof64 fileexist ty) ws).
Proof.
  intros T. induction ws as [|w ws IH]; cbn [omap]; intros vs N H.
  - inversion H; subst. cbn. split; auto.
  - inversion N as [|? ? N1 N2]; subst.
    destruct (denote ty w) as [v| |] eqn:D; cbn [bind] in H; try discriminate.
    destruct (omap (denote ty) ws) as [r| |] eqn:O; cbn [bind] in H; try discriminate. inversion H; subst vs.
    cbn [existsb]. rewrite orb_false_iff, (value_ok ty w v), IH; auto. split.
    + intros []; constructor; auto.
    + intros X; inversion X; auto.
Qed.

Lemma par_check lines p p' : p_set p = false -> type_ok (p_type p) ->
  (forall ws, definition_of (p_name p) lines = Some ws -> Forall (not_nan atof32 atof64 (p_type p)) (used_words p ws)) ->
  final_par lines p p' ->
  (bad_par fileexist p' = false <-> par_ok atof32 atof64 fileexist lines p).
Proof.
  intros PS T N F. unfold ParamSpec.final_par, par_ok in *.
  destruct (definition_of (p_name p) lines) as [ws|] eqn:D.
  2:{ subst p'. unfold bad_par. rewrite PS. cbn. split; [discriminate|intros (ws & X & _); discriminate]. }
  destruct F as (xs & O & ->). pose proof (values_ok _ T _ _ (N ws eq_refl) O) as V.
  pose proof (omap_length _ _ _ O) as L.
  assert (ws <> []) as NE.
  { clear - D. induction lines as [|l lines IH]; cbn [definition_of] in D; [discriminate|].
    destruct (words l) as [|t [|v vs]]; auto. destruct (list_eq_dec Z.eq_dec t (p_name p)); auto. inversion D; discriminate. }
  unfold bad_par, set_val. cbn [p_set p_type p_vec p_val negb]. unfold used_words in *.
  destruct (p_vec p) as [k|].
  - assert (0 < zlen xs) as Z0 by (unfold zlen; rewrite L; destruct ws; [congruence|cbn [length]; lia]).
    replace (zlen xs =? 0) with false by lia.
    assert (zlen xs = zlen ws) as ZL by (unfold zlen; lia).
    destruct ((k >? 0) && negb (zlen xs =? k)) eqn:B.
    + split; [discriminate|]. intros (ws' & E & K & _). inversion E; subst ws'. specialize (K k eq_refl). lia.
    + rewrite V. split.
      * intros X. exists ws. split; auto. split; auto. intros k' E K. inversion E; subst. lia.
      * intros (ws' & E & _ & X). inversion E; subst; auto.
  - rewrite V. split.
    + intros X. exists ws. split; auto. split; auto. discriminate.
    + intros (ws' & E & _ & X). inversion E; subst; auto.
Qed.

Lemma check_success lines ps ps' : NoDup (map p_name ps) ->
  Forall (line_fine (map p_name ps) (map p_type ps)) lines ->
  (forall p, In p ps -> p_set p = false /\ type_ok (p_type p) /\
    forall ws, definition_of (p_name p) lines = Some ws -> Forall (not_nan atof32 atof64 (p_type p)) (used_words p ws)) ->
  parse_lines ps lines = Ret ps' ->
  (check_parameter fileexist ps' = SUCCESS <-> forall p, In p ps -> par_ok atof32 atof64 fileexist lines p).
Proof.
  intros ND F H P. destruct (parse_lines_nth lines ps ps' ND F P) as [LN N].
  unfold check_parameter. destruct (existsb (bad_par fileexist) ps') eqn:E.
  - split; [discriminate|]. intros A. exfalso. apply existsb_exists in E. destruct E as (p' & I & B).
    apply In_nth_error in I. destruct I as (i & I).
    assert (exists p, nth_error ps i = Some p) as (p & Q).
    { destruct (nth_error ps i) eqn:Q; eauto. apply nth_error_None in Q.
      assert (i < length ps')%nat by (apply nth_error_Some; congruence). lia. }
    destruct (N i p Q) as (p2 & Q2 & _ & FP). assert (p2 = p') by congruence. subst p2.
    pose proof (nth_error_In _ _ Q) as IP. destruct (H p IP) as (PS & T & NN).
    pose proof (proj2 (par_check lines p p' PS T NN (FP PS)) (A p IP)). congruence.
  - split; auto. intros _ p IP. apply In_nth_error in IP. destruct IP as (i & Q).
    destruct (N i p Q) as (p' & Q' & _ & FP). pose proof (nth_error_In _ _ Q) as IP. destruct (H p IP) as (PS & T & NN).
    apply (par_check lines p p' PS T NN (FP PS)).
    destruct (bad_par fileexist p') eqn:B; auto. exfalso.
    assert (existsb (bad_par fileexist) ps' = true); [|congruence]. apply existsb_exists. exists p'. split; auto.
    eapply nth_error_In; eauto.
Qed.

(** ** The fgets loop on a file whose lines are short *)
Lemma parse_file_lines : forall lines fuel ps, 
  Forall (fun l => Forall (fun c => c <> 10) l /\ zlen l + 1 < 65536) lines ->
  (length lines < fuel)%nat ->
  parse_file atof32 atof64 fuel ps (concat (map (fun l => l ++ [10]) lines)) =
  parse_lines ps (map (fun l => l ++ [10]) lines).
Proof.
  unfold ParamModel.parse_lines. induction lines as [|l lines IH]; intros fuel ps F L; destruct fuel as [|f]; cbn [length] in L; try lia.
  - cbn [map concat parse_file fgets ofold]. reflexivity.
  - inversion F as [|? ? (N & LL) F']; subst. cbn [map concat parse_file ofold].
    rewrite <- app_assoc. cbn [app]. rewrite fgets_newline by (auto; unfold NPOW_16; lia).
    destruct (parse_parameter ps (l ++ [10])); cbn [bind]; auto. apply IH; auto. lia.
Qed.
End S.
