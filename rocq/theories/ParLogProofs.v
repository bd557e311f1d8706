(** Proofs about the parameter log. *)
From Verif Require Import Base BaseFacts CStr Loops LoopsFacts StringModel StringProofs DateModel Float ParamModel ParLogModel ParLogSpec.

(** The log holds the text T, cut to the buffer. *)
Definition rep (st : list Z * Z) (T : list Z) : Prop :=
  zlen (fst st) = NPOW_14 /\ snd st = zlen T /\ exists rest, fst st = firstn (Z.to_nat (NPOW_14 - 1)) T ++ 0 :: rest.

Lemma put_rep st T t : rep st T -> zlen T < NPOW_14 -> exists st', put st t = Ret st' /\ rep st' (T ++ t).
Proof.
  destruct st as [buf cur]. intros (L & C & rest & B) H. cbn [fst snd] in *. subst cur.
  set (N := Z.to_nat (NPOW_14 - 1)) in *. assert (HN: Z.of_nat N = NPOW_14 - 1) by (unfold N, NPOW_14; lia).
  assert (firstn N T = T) as FT by (apply firstn_all2; unfold zlen in *; lia). rewrite FT in B.
  unfold put. destruct (Z.ltb_spec (zlen T) NPOW_14); [|lia]. unfold snprintf_at.
  set (out := firstn (Z.to_nat (NPOW_14 - zlen T - 1)) t ++ [0]).
  assert (LO: zlen out <= NPOW_14 - zlen T).
  { unfold out, zlen. rewrite app_length. cbn [length]. rewrite firstn_length. unfold zlen in *. lia. }
  pose proof (zlen_nonneg T).
  destruct (Z.leb_spec 0 (zlen T)); [|lia]. destruct (Z.leb_spec (zlen T + zlen out) (zlen buf)); [|lia].
  destruct (Z.ltb_spec 0 (NPOW_14 - zlen T)); [|lia]. cbn [andb bind].
  replace (Z.to_nat (zlen T)) with (length T) by (unfold zlen; lia).
  assert (EB: firstn (length T) buf = T) by (rewrite B, firstn_app, Nat.sub_diag, firstn_all; cbn; apply app_nil_r).
  rewrite EB. eexists. split; [reflexivity|]. split; [|split]; cbn [fst snd].
  - unfold zlen in *. rewrite !app_length, skipn_length. lia.
  - unfold zlen. rewrite app_length. lia.
  - exists (skipn (length T + length out) buf). fold N. rewrite firstn_app, FT. unfold out.
    replace (N - length T)%nat with (Z.to_nat (NPOW_14 - zlen T - 1)) by (unfold N, zlen; lia).
    rewrite <- !app_assoc. reflexivity.
Qed.

Lemma put_exit st T t : rep st T -> NPOW_14 <= zlen T -> put st t = Exit.
Proof.
  destruct st as [buf cur]. intros (_ & C & _) H. cbn [snd] in C. subst cur. unfold put.
  destruct (Z.ltb_spec (zlen T) NPOW_14); [lia|reflexivity].
Qed.

(** f appends the text t or ends the program because the log is full. *)
Definition logs (f : list Z * Z -> outcome (list Z * Z)) (t : list Z) : Prop :=
  forall st T, rep st T ->
    (f st = Exit /\ NPOW_14 <= zlen (T ++ t)) \/ exists st', f st = Ret st' /\ rep st' (T ++ t).

Lemma logs_put t : logs (fun st => put st t) t.
Proof.
  intros st T R. destruct (Z.lt_ge_cases (zlen T) NPOW_14).
  - right. apply put_rep; auto.
  - left. split; [eapply put_exit; eauto|]. unfold zlen in *. rewrite app_length. lia.
Qed.

Lemma logs_bind f g t u : logs f t -> logs g u -> logs (fun st => st' <- f st ;; g st') (t ++ u).
Proof.
  intros F G st T R. destruct (F st T R) as [[E L]|(st' & E & R')]; rewrite E; cbn [bind].
  - left. split; auto. rewrite app_assoc. unfold zlen in *. rewrite app_length. lia.
  - rewrite app_assoc. apply G. exact R'.
Qed.

Lemma logs_ret : logs (fun st => Ret st) [].
Proof. intros st T R. right. exists st. rewrite app_nil_r. auto. Qed.

Lemma logs_ext f g t : (forall st, f st = g st) -> logs f t -> logs g t.
Proof. intros E F st T R. rewrite <- E. apply F; auto. Qed.

Section S.
Variables (show_f32 : f32 -> list Z) (show_f64 : f64 -> list Z) (s : list Z).
Notation vt := (value_text show_f32 show_f64).

Lemma show_set v : v <> VNone -> show show_f32 show_f64 v = Ret (vt v).
Proof. destruct v; intros H; try reflexivity. congruence. Qed.

Lemma logs_values : forall rest vals k, Forall (fun v => v <> VNone) rest ->
  (forall j, get_at vals (k + j) = get_at rest j \/ j < 0) -> zlen vals = k + zlen rest -> 0 <= k ->
  logs (ofold (fun st n =>
             v <- of_option (get_at vals n) ;;
             t <- show show_f32 show_f64 v ;;
             e <- eol_string (Some s) n (zlen vals) ;;
             put st (t ++ e)) (zrange k (zlen vals - 1))) (join (lit " " ++ s) (map vt rest)).
Proof.
  induction rest as [|v rest IH]; intros vals k F G L K.
  - rewrite zrange_nil by (unfold zlen in *; cbn in L; lia). cbn [ofold map join]. apply logs_ret.
  - assert (zlen (v :: rest) = 1 + zlen rest) as Lz by (unfold zlen; cbn [length]; lia).
    pose proof (zlen_nonneg rest). rewrite zrange_cons by lia. cbn [ofold].
    assert (get_at vals k = Some v) as Gk.
    { destruct (G 0) as [E|]; [|lia]. rewrite Z.add_0_r in E. exact E. }
    pose proof (Forall_inv F) as Fv. cbv beta in Fv. pose proof (Forall_inv_tail F) as Fr.
    assert (IHr: logs (ofold (fun st n =>
             v <- of_option (get_at vals n) ;;
             t <- show show_f32 show_f64 v ;;
             e <- eol_string (Some s) n (zlen vals) ;;
             put st (t ++ e)) (zrange (k + 1) (zlen vals - 1))) (join (lit " " ++ s) (map vt rest))).
    { apply IH; auto; try lia. intros j. destruct (G (1 + j)) as [E|]; [|right; lia].
      destruct (Z.lt_ge_cases j 0); [right; auto|left]. rewrite <- Z.add_assoc, E.
      unfold get_at. destruct (Z.ltb_spec (1 + j) 0), (Z.ltb_spec j 0); try lia.
      replace (Z.to_nat (1 + j)) with (S (Z.to_nat j)) by lia. reflexivity. }
    destruct rest as [|w rest].
    + cbn [map join]. rewrite <- (app_nil_r (vt v)). eapply logs_ext; [|apply logs_bind; [apply (logs_put (vt v))|exact IHr]].
      intros st. cbv beta. rewrite Gk. cbn [of_option bind]. rewrite show_set by auto. cbn [bind].
      unfold eol_string. destruct (Z.eqb_spec k (zlen vals - 1)); [|unfold zlen in *; cbn in *; lia]. cbn [bind].
      rewrite app_nil_r. reflexivity.
    + replace (join (lit " " ++ s) (map vt (v :: w :: rest))) with
        ((vt v ++ (lit " " ++ s)) ++ join (lit " " ++ s) (map vt (w :: rest))) by (cbn [map join]; rewrite <- !app_assoc; reflexivity).
      eapply logs_ext; [|apply logs_bind; [apply (logs_put (vt v ++ (lit " " ++ s)))|exact IHr]].
      intros st. cbv beta. rewrite Gk. cbn [of_option bind]. rewrite show_set by auto. cbn [bind].
      unfold eol_string. destruct (Z.eqb_spec k (zlen vals - 1)); [unfold zlen in *; cbn [length] in *; lia|]. cbn [bind].
      reflexivity.
Qed.

Lemma logs_one i p : par_set p ->
  logs (log_one show_f32 show_f64 (Some s) i p) ((if i >? 0 then lit ", " else []) ++ par_text show_f32 show_f64 (lit " " ++ s) p).
Proof.
  intros [F S1]. unfold log_one.
  apply (logs_bind (fun st => if i >? 0 then put st (lit ", ") else Ret st)).
  { destruct (i >? 0); [apply logs_put|apply logs_ret]. }
  unfold par_text. rewrite app_assoc.
  apply (logs_bind (fun st => put st (p_name p ++ lit ": "))); [apply logs_put|].
  destruct (p_vec p) as [e|].
  - rewrite zupto_zrange. apply logs_values; auto; try lia.
  - specialize (S1 eq_refl). destruct (p_val p) as [|v [|w l]]; try discriminate.
    cbn [map join]. pose proof (Forall_inv F) as Fv. eapply logs_ext; [|apply (logs_put (vt v))].
    intros st. cbn [get_at Z.ltb Z.compare Z.to_nat nth_error of_option bind]. rewrite show_set by auto. reflexivity.
Qed.

Lemma logs_loop ps : Forall par_set ps -> forall i, 0 <= i ->
  logs (log_loop show_f32 show_f64 (Some s) i ps)
       ((if (i >? 0) && negb (match ps with [] => true | _ => false end) then lit ", " else []) ++ log_text show_f32 show_f64 (lit " " ++ s) ps).
Proof.
  induction ps as [|p ps IH]; intros F i Hi.
  - cbn [negb]. rewrite andb_false_r. apply logs_ret.
  - cbn [negb]. rewrite andb_true_r. cbn [log_loop].
    pose proof (logs_bind _ _ _ _ (logs_one i p (Forall_inv F)) (IH (Forall_inv_tail F) (i + 1) ltac:(lia))) as H.
    assert (E: forall a b : list Z, a = b -> logs (fun st => st' <- log_one show_f32 show_f64 (Some s) i p st ;;
        log_loop show_f32 show_f64 (Some s) (i + 1) ps st') a -> logs (fun st => st' <- log_one show_f32 show_f64 (Some s) i p st ;;
        log_loop show_f32 show_f64 (Some s) (i + 1) ps st') b) by (intros a b ->; auto).
    eapply E; [|exact H]. unfold log_text. destruct (Z.gtb_spec (i + 1) 0); [|lia]. destruct ps as [|q ps].
    + cbn [negb andb map join]. rewrite !app_nil_r. reflexivity.
    + cbn [negb andb]. rewrite <- app_assoc. f_equal.
Qed.

Lemma log_loop_app : forall ps qs i st,
  log_loop show_f32 show_f64 (Some s) i (ps ++ qs) st =
  (st' <- log_loop show_f32 show_f64 (Some s) i ps st ;; log_loop show_f32 show_f64 (Some s) (i + zlen ps) qs st').
Proof.
  induction ps as [|p ps IH]; intros qs i st; cbn [app log_loop bind].
  - unfold zlen; cbn. rewrite Z.add_0_r. reflexivity.
  - destruct (log_one show_f32 show_f64 (Some s) i p st); cbn [bind]; auto. rewrite IH.
    replace (i + zlen (p :: ps)) with (i + 1 + zlen ps) by (unfold zlen; cbn [length]; lia). reflexivity.
Qed.
End S.

Lemma fresh_rep buf : zlen buf = NPOW_14 -> get_at buf 0 = Some 0 -> rep (buf, 0) [].
Proof.
  intros L G. split; [exact L|]. split; [reflexivity|]. destruct buf as [|b rest]; [discriminate|].
  exists rest. cbn [fst]. rewrite firstn_nil. cbn. cbn in G. congruence.
Qed.
