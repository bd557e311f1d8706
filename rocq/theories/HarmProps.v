(** Interpolation with harmonic models: the claims. *)
From Verif Require Import Base Loops BaseFacts LoopsFacts ChunkProofs ParamProofs L1Model L1Cal HarmModel HarmSpec TsaProofs HarmProofs.
From Flocq Require Import Core.
From Coq Require Import Reals Lra Lia ZifyBool.
#[local] Open Scope Z_scope.

Lemma stored_short x v : short_of x = Ret v <-> stored x v.
Proof.
  unfold stored, short_of, in_shortb. split.
  - match goal with |- (if ?b then _ else _) = _ -> _ => destruct b eqn:B end; [|discriminate]. intros H. assert (Ztrunc x = v) by congruence. lia.
  - intros (-> & B). match goal with |- (if ?b then _ else _) = _ => destruct b eqn:C end; [auto|lia].
Qed.
Lemma F2_iff {A B} (P Q : A -> B -> Prop) : (forall a b, P a b <-> Q a b) -> forall l r, Forall2 P l r <-> Forall2 Q l r.
Proof. intros H l r. split; induction 1; constructor; auto; now apply H. Qed.
Lemma residual_iff p nodata c o x : residual p nodata c o x <-> residual_of (fun d => dot (row p d) c) nodata o x.
Proof.
  unfold residual, residual_of. destruct (Z.eqb_spec (snd o) nodata).
  - split; [intros ->; split; [auto|congruence]|intros (H & _); auto].
  - rewrite stored_short. split; [intros H; split; [congruence|auto]|intros (_ & H); auto].
Qed.

(** ** C132: the interpolated values and the residuals *)
(** Missing: how well the curve of the robust regression fits (the regression is GSL's). *)
Theorem C132_curve_partial : forall fit p nodata obs steps nrt, 1 <= h_modes p -> n_coef p <= zlen (filter (in_fit p nodata) obs) ->
  zlen nrt = zlen (later (h_hi p) obs) ->
  exists f, harmonics (h_modes p) (h_trend p) f /\
    forall tsi r, harmonic fit p nodata false obs steps nrt = Ret (Some (tsi, r)) <->
      Forall2 (fun d v => stored (f d) v) steps tsi /\ (if h_nrt p then Forall2 (residual_of f nodata) (later (h_hi p) obs) r else r = nrt).
Proof.
  intros fit p nodata obs steps nrt M N L. pose proof (harmonic_run fit p nodata obs steps nrt M N) as E. cbv zeta in E.
  set (c := fit _) in E. exists (fun d => dot (row p d) c). split; [apply curve; auto|]. intros tsi r. rewrite E.
  assert (forall a, omap (fun d => short_of (dot (row p d) c)) steps = Ret a <-> Forall2 (fun d v => stored (dot (row p d) c) v) steps a) as T.
  { intros a. rewrite omap_F2. apply F2_iff. intros d b. apply stored_short. }
  assert (forall b, (if h_nrt p then residuals p nodata c obs 0 nrt else Ret nrt) = Ret b <->
    if h_nrt p then Forall2 (residual_of (fun d => dot (row p d) c) nodata) (later (h_hi p) obs) b else b = nrt) as Q.
  { intros b. destruct (h_nrt p); [|split; congruence]. rewrite (residuals_ok p nodata c obs 0 [] nrt b eq_refl L). cbn [app].
    rewrite <- (F2_iff _ _ (residual_iff p nodata c)). split; [intros (xs & -> & F); auto|intros F; exists b; auto]. }
  rewrite <- T, <- Q. destruct (omap _ steps) as [a| |]; cbn [bind]; [|split; [discriminate|intros (H & _); discriminate]|split; [discriminate|intros (H & _); discriminate]].
  destruct (if h_nrt p then _ else _) as [b| |]; cbn [bind]; [|split; [discriminate|intros (_ & H); discriminate]|split; [discriminate|intros (_ & H); discriminate]].
  split; [intros H; inversion H; auto|intros (H1 & H2); congruence].
Qed.

(** The days and values of the observations of the period of the fit are all that counts for the series. *)
Lemma used_same p nodata obs : filter (in_fit p nodata) obs = clear_between (h_lo p) (h_hi p) nodata obs.
Proof. unfold clear_between. apply filter_ext. intros (d, v). unfold in_fit. cbn [fst snd]. lia. Qed.
Theorem C132_fit_range : forall fit p nodata masked obs obs' steps nrt nrt' tsi tsi' r r', 1 <= h_modes p ->
  clear_between (h_lo p) (h_hi p) nodata obs = clear_between (h_lo p) (h_hi p) nodata obs' ->
  harmonic fit p nodata masked obs steps nrt = Ret (Some (tsi, r)) -> harmonic fit p nodata masked obs' steps nrt' = Ret (Some (tsi', r')) -> tsi = tsi'.
Proof.
  intros fit p nodata masked obs obs' steps nrt nrt' tsi tsi' r r' M S H H'. rewrite <- !used_same in S. rename S into U.
  destruct masked. { unfold harmonic in H, H'. destruct (n_coef p <? 3); [discriminate|]. congruence. }
  destruct (Z_lt_le_dec (zlen (filter (in_fit p nodata) obs)) (n_coef p)) as [F|F].
  - unfold harmonic in H, H'. destruct (n_coef p <? 3); [discriminate|]. rewrite <- U in H'. destruct (Z.ltb_spec (zlen (filter (in_fit p nodata) obs)) (n_coef p)); [congruence|lia].
  - rewrite harmonic_run in H by auto. rewrite harmonic_run in H' by (auto; now rewrite <- U). rewrite <- U in H'.
    destruct (omap _ steps) as [a| |]; cbn [bind] in H, H'; try discriminate.
    destruct (if h_nrt p then _ else _) as [b| |] in H; cbn [bind] in H; try discriminate. destruct (if h_nrt p then _ else _) as [b'| |] in H'; cbn [bind] in H'; try discriminate. congruence.
Qed.
(** Without a trend, days 365 days apart get the same value. *)
Theorem C132_season : forall fit p nodata masked obs steps nrt tsi r i j d e k, 1 <= h_modes p -> h_trend p = false ->
  harmonic fit p nodata masked obs steps nrt = Ret (Some (tsi, r)) ->
  get_at steps i = Some d -> get_at steps j = Some e -> e = d + 365 * k -> exists v, get_at tsi i = Some v /\ get_at tsi j = Some v.
Proof.
  intros fit p nodata masked obs steps nrt tsi r i j d e k M T H I J E.
  assert (forall g : Z -> outcome Z, (forall x, g (x + 365 * k) = g x) -> omap g steps = Ret tsi -> exists v, get_at tsi i = Some v /\ get_at tsi j = Some v) as G.
  { intros g P O. assert (forall q x, get_at steps q = Some x -> exists v, get_at tsi q = Some v /\ g x = Ret v) as GG.
    { intros q x Q. unfold get_at in Q |- *. destruct (q <? 0); [discriminate|]. apply (omap_nth g steps tsi O _ _ Q). }
    destruct (GG i d I) as (v & V1 & V2). destruct (GG j e J) as (w & W1 & W2). rewrite E, P in W2. assert (v = w) by congruence. subst w. eauto. }
  destruct (Z_lt_le_dec (zlen (filter (in_fit p nodata) obs)) (n_coef p)) as [F|F]; [|destruct masked].
  1,2: apply (G (fun _ => Ret nodata)); [auto|]; assert (tsi = map (fun _ => nodata) steps) as ->.
  - unfold harmonic in H. destruct (n_coef p <? 3); [discriminate|]. destruct masked; [congruence|]. destruct (Z.ltb_spec (zlen (filter (in_fit p nodata) obs)) (n_coef p)); [congruence|lia].
  - clear. induction steps as [|x l IH]; cbn [omap map bind]; auto. rewrite IH. reflexivity.
  - unfold harmonic in H. destruct (n_coef p <? 3); [discriminate|]. congruence.
  - clear. induction steps as [|x l IH]; cbn [omap map bind]; auto. rewrite IH. reflexivity.
  - rewrite harmonic_run in H by auto. match type of H with context [omap ?g _] => apply (G g) end.
    + intros x. rewrite curve_period; auto.
    + destruct (omap _ steps) as [a| |]; cbn [bind] in H; try discriminate. destruct (if h_nrt p then _ else _) as [b| |] in H; cbn [bind] in H; try discriminate. congruence.
Qed.
(** Masked pixels and pixels with fewer observations than coefficients have no interpolated values. *)
Theorem C132_too_few : forall fit p nodata masked obs steps nrt, 1 <= h_modes p ->
  masked = true \/ zlen (filter (in_fit p nodata) obs) < 1 + (if h_trend p then 1 else 0) + 2 * Z.min 3 (h_modes p) ->
  exists tsi r, harmonic fit p nodata masked obs steps nrt = Ret (Some (tsi, r)) /\ zlen tsi = zlen steps /\ Forall (eq nodata) tsi.
Proof.
  intros fit p nodata masked obs steps nrt M H. exists (map (fun _ => nodata) steps), nrt. split; [|split; [apply zlen_map|apply Forall_forall; intros x X; apply in_map_iff in X; destruct X as (y & <- & _); auto]].
  assert (n_coef p = 1 + (if h_trend p then 1 else 0) + 2 * Z.min 3 (h_modes p)) as N.
  { unfold n_coef. destruct (Z.geb_spec (h_modes p) 1), (Z.geb_spec (h_modes p) 2), (Z.geb_spec (h_modes p) 3); lia. }
  unfold harmonic. destruct (Z.ltb_spec (n_coef p) 3); [destruct (h_trend p); lia|]. destruct masked; auto. destruct H as [H|H]; [discriminate|].
  rewrite <- N in H. destruct (Z.ltb_spec (zlen (filter (in_fit p nodata) obs)) (n_coef p)); [auto|lia].
Qed.
(** Refuted: such pixels are not nodata in the near real time product: they show a residual of 0. *)
Theorem C132_nrt_nodata_refuted : ~ forall fit p nodata masked obs steps tsi r, 1 <= h_modes p -> h_nrt p = true ->
  harmonic fit p nodata masked obs steps (repeat 0 (length (later (h_hi p) obs))) = Ret (Some (tsi, r)) ->
  Forall (eq nodata) tsi -> Forall (eq nodata) r.
Proof.
  intros H. specialize (H (fun _ => []) (mkHpar 1 false 1 365 true) (-9999) false [(100, 500); (400, 520)] [10] [-9999] [0] ltac:(cbn; lia) eq_refl eq_refl ltac:(constructor; auto)).
  inversion H; discriminate.
Qed.

(** A fit with the offset only: three observations of 500, one later image of 520. *)
Example C132_example :
  let p := mkHpar 1 false 1 365 true in let obs := [(50, 500); (100, 500); (110, -9999); (200, 500); (400, 520); (410, -9999)] in
  harmonic (fun _ => [500; 0; 0]%R) p (-9999) false obs [10; 20] (repeat 0 2) = Ret (Some ([500; 500], [20; -9999])) /\
  1 <= h_modes p /\ n_coef p <= zlen (filter (in_fit p (-9999)) obs) /\ zlen (repeat 0 2) = zlen (later (h_hi p) obs).
Proof.
  cbv zeta. split; [|split; [cbn; lia|split; vm_compute; congruence]].
  rewrite harmonic_run; [|cbn; lia|vm_compute; congruence].
  assert (forall d, dot (row (mkHpar 1 false 1 365 true) d) [500; 0; 0]%R = 500%R) as D by (intros d; change (row (mkHpar 1 false 1 365 true) d) with (1%R :: wave 2 d); unfold wave; cbn [dot]; lra).
  assert (short_of 500 = Ret 500) as S1 by (rewrite stored_short; unfold stored; rewrite Ztrunc_IZR; lia).
  assert (short_of (IZR 520 - 500) = Ret 20) as S2 by (rewrite stored_short; unfold stored; replace (IZR 520 - 500)%R with (IZR 20) by lra; rewrite Ztrunc_IZR; lia).
  cbn [h_nrt omap]. rewrite !D, S1. cbn [bind omap residuals h_hi Z.leb Z.compare].
  change (50 <=? 365) with true. change (100 <=? 365) with true. change (110 <=? 365) with true. change (200 <=? 365) with true. change (400 <=? 365) with false. change (410 <=? 365) with false.
  change (520 =? -9999) with false. change (-9999 =? -9999) with true. cbn iota. rewrite !checked_ok. cbn [bind]. rewrite D, S2. reflexivity.
Qed.

Print Assumptions C132_curve_partial.
Print Assumptions C132_fit_range.
Print Assumptions C132_season.
Print Assumptions C132_too_few.
Print Assumptions C132_nrt_nodata_refuted.
