(** Lemmas about harmonic models. *)
From Verif Require Import Base Loops BaseFacts LoopsFacts ChunkProofs ParamProofs L1Model HarmModel HarmSpec TsaProofs.
From Flocq Require Import Core.
From Coq Require Import Reals Lra.
#[local] Open Scope Z_scope.

Lemma row_length p d : zlen (row p d) = n_coef p.
Proof.
  unfold row, n_coef, zlen. rewrite !app_length. destruct (h_trend p), (h_modes p >=? 1), (h_modes p >=? 2), (h_modes p >=? 3); reflexivity.
Qed.
Lemma checked_ok p d : checked_row p d = Ret (row p d).
Proof. unfold checked_row. rewrite row_length, Z.leb_refl. reflexivity. Qed.

Lemma dot_app a b : forall c, dot (a ++ b) c = (dot a c + dot b (skipn (length a) c))%R.
Proof.
  induction a as [|x a IH]; intros c; cbn [app dot length skipn]; [lra|]. destruct c as [|y c]; [destruct b; cbn [dot]; lra|]. rewrite IH. lra.
Qed.
Lemma dot_nil b : dot b [] = 0%R.
Proof. destruct b; reflexivity. Qed.
Lemma dot_1 x c : dot [x] c = (x * nth 0 c 0)%R.
Proof. destruct c; cbn [dot nth]; lra. Qed.
Lemma dot_2 x y c : dot [x; y] c = (x * nth 0 c 0 + y * nth 1 c 0)%R.
Proof. destruct c as [|u [|v c]]; cbn [dot nth]; lra. Qed.

Lemma skipn_skipn {A} a : forall b (l : list A), skipn a (skipn b l) = skipn (b + a) l.
Proof. induction b as [|b IH]; intros l; cbn [Nat.add]; [reflexivity|]. destruct l as [|x l]; [cbn; destruct a; reflexivity|]. cbn [skipn]. apply IH. Qed.
(** The fitted curve. *)
Lemma curve p c : 1 <= h_modes p -> harmonics (h_modes p) (h_trend p) (fun d => dot (row p d) c).
Proof.
  intros M. unfold row. destruct (Z.geb_spec (h_modes p) 1); [|lia].
  assert (W : forall k d, (IZR (2 * k) * PI / 365 * IZR d = IZR k * (2 * PI * (IZR d / 365)))%R) by (intros k d; rewrite mult_IZR; field).
  set (t := if h_trend p then 1%nat else 0%nat).
  exists (nth 0 c 0)%R, (if h_trend p then nth 0 (skipn 1 c) 0 else 0)%R, (nth 0 (skipn (1 + t) c) 0)%R, (nth 1 (skipn (1 + t) c) 0)%R,
    (if h_modes p >=? 2 then nth 0 (skipn (3 + t) c) 0 else 0)%R, (if h_modes p >=? 2 then nth 1 (skipn (3 + t) c) 0 else 0)%R,
    (if h_modes p >=? 3 then nth 0 (skipn (5 + t) c) 0 else 0)%R, (if h_modes p >=? 3 then nth 1 (skipn (5 + t) c) 0 else 0)%R.
  split; [intros ->; auto|]. split; [destruct (Z.geb_spec (h_modes p) 2); [lia|auto]|]. split; [destruct (Z.geb_spec (h_modes p) 3); [lia|auto]|].
  intros d w. rewrite !dot_app, !skipn_skipn. rewrite dot_1. unfold wave. change (IZR 2) with (IZR (2 * 1)). change (IZR 4) with (IZR (2 * 2)). change (IZR 6) with (IZR (2 * 3)). rewrite !W. fold w. rewrite !Rmult_1_l. change (IZR (2 * 1)) with 2%R.
  change (IZR 2 * w)%R with (2 * w)%R. change (IZR 3 * w)%R with (3 * w)%R. subst t.
  destruct (h_trend p), (Z.geb_spec (h_modes p) 2), (Z.geb_spec (h_modes p) 3); try lia; cbn [length Nat.add]; rewrite ?dot_2, ?dot_1, ?(eq_refl : dot [] _ = 0%R); cbn [dot]; lra.
Qed.

(** Without a trend the curve repeats after a year of 365 days. *)
Lemma curve_period p c d k : h_trend p = false -> 1 <= h_modes p -> dot (row p (d + 365 * k)) c = dot (row p d) c.
Proof.
  intros T M. destruct (curve p c M) as (a & b & c1 & s1 & c2 & s2 & c3 & s3 & B & _ & _ & F). pose proof (F d) as F1. pose proof (F (d + 365 * k)) as F2. cbv zeta beta in F1, F2.
  rewrite F1, F2. rewrite (B T). assert (P : forall (m : nat) x j, (cos (x + 2 * (INR m * IZR j) * PI) = cos x /\ sin (x + 2 * (INR m * IZR j) * PI) = sin x)%R).
  { intros m x j. assert (forall n : Z, cos (x + 2 * IZR n * PI) = cos x /\ sin (x + 2 * IZR n * PI) = sin x)%R as Z1.
    { intros n. destruct (Z_le_gt_dec 0 n) as [L|L].
      - rewrite <- (Z2Nat.id n L), <- INR_IZR_INZ. split; [apply cos_period|apply sin_period].
      - assert (forall y, y = x + 2 * IZR n * PI -> cos y = cos x /\ sin y = sin x)%R as Q; [|apply Q; auto]. intros y Y.
        assert (x = y + 2 * INR (Z.to_nat (- n)) * PI)%R as X. { rewrite INR_IZR_INZ, Z2Nat.id, opp_IZR by lia. rewrite Y. ring. }
        rewrite X. rewrite cos_period, sin_period. auto. }
    rewrite INR_IZR_INZ, <- mult_IZR. apply Z1. }
  destruct (P 1%nat (2 * PI * (IZR d / 365))%R k) as (P1 & P2). destruct (P 2%nat (2 * (2 * PI * (IZR d / 365)))%R k) as (P3 & P4). destruct (P 3%nat (3 * (2 * PI * (IZR d / 365)))%R k) as (P5 & P6).
  rewrite plus_IZR, mult_IZR.
  replace (2 * PI * ((IZR d + 365 * IZR k) / 365))%R with (2 * PI * (IZR d / 365) + 2 * (INR 1 * IZR k) * PI)%R by (cbn [INR]; field).
  replace (2 * (2 * PI * (IZR d / 365) + 2 * (INR 1 * IZR k) * PI))%R with (2 * (2 * PI * (IZR d / 365)) + 2 * (INR 2 * IZR k) * PI)%R by (cbn [INR]; field).
  replace (3 * (2 * PI * (IZR d / 365) + 2 * (INR 1 * IZR k) * PI))%R with (3 * (2 * PI * (IZR d / 365)) + 2 * (INR 3 * IZR k) * PI)%R by (cbn [INR]; field).
  rewrite P1, P2, P3, P4, P5, P6. lra.
Qed.

(** ** residuals *)
Definition residual (p : hpar) (nodata : Z) (c : list R) (o : Z * Z) (x : Z) : Prop :=
  if snd o =? nodata then x = nodata else short_of (IZR (snd o) - dot (row p (fst o)) c)%R = Ret x.

Lemma residuals_ok p nodata c : forall obs k done rest r, zlen done = k -> zlen rest = zlen (later (h_hi p) obs) ->
  residuals p nodata c obs k (done ++ rest) = Ret r <-> exists xs, r = done ++ xs /\ Forall2 (residual p nodata c) (later (h_hi p) obs) xs.
Proof.
  induction obs as [|(d, v) obs IH]; intros k done rest r D L; cbn [residuals later filter fst] in *.
  - destruct rest; [|discriminate]. split.
    + intros H. inversion H. exists []. split; auto.
    + intros (xs & -> & F). inversion F. reflexivity.
  - fold (later (h_hi p) obs) in *. rewrite Z.leb_antisym. destruct (h_hi p <? d); cbn [negb]; [|apply IH; auto].
    destruct rest as [|z rest]; [unfold zlen in L; cbn [length] in L; lia|].
    assert (forall x, (nrt <- of_option (set_at (done ++ z :: rest) k x) ;; residuals p nodata c obs (k + 1) nrt) = residuals p nodata c obs (k + 1) ((done ++ [x]) ++ rest)) as ST.
    { intros x. unfold set_at. subst k. unfold zlen. match goal with |- context [if ?b then _ else _] => destruct b eqn:B end.
      - rewrite app_length in B. cbn [length] in B. lia.
      - cbn [of_option bind]. f_equal. rewrite Nat2Z.id. rewrite <- app_assoc. cbn [app]. clear. induction done as [|y done IH]; cbn [app length list_set]; [reflexivity|congruence]. }
    assert (forall x, residuals p nodata c obs (k + 1) ((done ++ [x]) ++ rest) = Ret r <-> exists xs, r = done ++ x :: xs /\ Forall2 (residual p nodata c) (later (h_hi p) obs) xs) as NX.
    { intros x. rewrite (IH (k + 1) (done ++ [x]) rest r); [|unfold zlen in *; rewrite app_length; cbn [length]; lia|unfold zlen in *; cbn [length] in L; lia].
      split; intros (xs & E & F); exists xs; (split; [rewrite E, <- ?app_assoc; reflexivity|auto]). }
    assert (forall o : outcome Z, (forall x, residual p nodata c (d, v) x <-> o = Ret x) ->
      ((x <- o ;; nrt <- of_option (set_at (done ++ z :: rest) k x) ;; residuals p nodata c obs (k + 1) nrt) = Ret r <->
       exists xs, r = done ++ xs /\ Forall2 (residual p nodata c) ((d, v) :: later (h_hi p) obs) xs)) as G.
    { intros o O. destruct o as [x| |]; cbn [bind].
      - rewrite ST, NX. split.
        + intros (xs & E & F). exists (x :: xs). split; auto. constructor; auto. now apply O.
        + intros (xs & E & F). inversion F as [|a y l ys R FS]; subst. apply O in R. inversion R; subst. exists ys. auto.
      - split; [discriminate|]. intros (xs & _ & F). inversion F as [|a y l ys R FS]; subst. apply O in R. discriminate.
      - split; [discriminate|]. intros (xs & _ & F). inversion F as [|a y l ys R FS]; subst. apply O in R. discriminate. }
    apply G. intros x. unfold residual. cbn [fst snd]. rewrite checked_ok. cbn [bind]. destruct (v =? nodata); [split; congruence|reflexivity].
Qed.

Lemma used_In p nodata obs o : In o (filter (in_fit p nodata) obs) <-> fitted (h_lo p) (h_hi p) nodata obs o.
Proof. rewrite filter_In. unfold in_fit, fitted. split; [intros (I & B)|intros (I & B & N)]; split; auto; lia. Qed.

(** What is done with enough observations. *)
Lemma harmonic_run fit p nodata obs steps nrt : 1 <= h_modes p -> n_coef p <= zlen (filter (in_fit p nodata) obs) ->
  let c := fit (map (fun o => (row p (fst o), snd o)) (filter (in_fit p nodata) obs)) in
  harmonic fit p nodata false obs steps nrt =
    (tsi <- omap (fun d => short_of (dot (row p d) c)) steps ;;
     nrt <- (if h_nrt p then residuals p nodata c obs 0 nrt else Ret nrt) ;; Ret (Some (tsi, nrt))).
Proof.
  intros M E c. unfold harmonic. assert (3 <= n_coef p) as N3 by (unfold n_coef; destruct (Z.geb_spec (h_modes p) 1), (Z.geb_spec (h_modes p) 2), (Z.geb_spec (h_modes p) 3), (h_trend p); lia).
  destruct (Z.ltb_spec (n_coef p) 3); [lia|]. destruct (Z.ltb_spec (zlen (filter (in_fit p nodata) obs)) (n_coef p)); [lia|].
  assert (forall l, omap (fun o : Z * Z => r <- checked_row p (fst o) ;; Ret (r, snd o)) l = Ret (map (fun o => (row p (fst o), snd o)) l)) as ->.
  { induction l as [|o l IH]; cbn [omap map]; auto. rewrite checked_ok. cbn [bind]. rewrite IH. reflexivity. }
  cbn [bind]. fold c.
  assert (forall l, omap (fun d => r <- checked_row p d ;; short_of (dot r c)) l = omap (fun d => short_of (dot (row p d) c)) l) as ->; auto.
  induction l as [|o l IH]; cbn [omap]; auto. rewrite checked_ok. cbn [bind]. rewrite IH. reflexivity.
Qed.
