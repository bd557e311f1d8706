(** Proofs about the ImproPhe prediction. *)
From Coq Require Import Reals Lra Lia ZifyBool ZifyNat Psatz Sorting.Sorted Arith.
From Flocq Require Import Core.
From Verif Require Import Base BaseFacts Loops LoopsFacts RoundModel RoundFacts StatsModel StatsSpec StatsProofs CsoProofs ChunkProofs LsmProofs ImpModel ImpSpec.
From Verif Require LsmModel.
#[local] Open Scope R_scope.

(** ** The circle *)
Lemma kdist_le ii jj h : (0 <= h <= 2047)%Z -> (ii * ii + jj * jj <= h * h)%Z -> kdist ii jj <= IZR h.
Proof.
  intros H D. unfold kdist. rewrite <- (rnd32_int h) by lia. apply rnd32_le. rewrite <- (rnd64_int h) by lia. apply rnd64_le.
  apply IZR_le in D. rewrite mult_IZR in D. assert (0 <= IZR h) as P by (apply IZR_le; lia). rewrite <- (sqrt_Rsqr (IZR h)) by auto. apply sqrt_le_1_alt. exact D.
Qed.
Lemma kdist_gt ii jj h : (0 <= h <= 2047)%Z -> (h * h < ii * ii + jj * jj)%Z -> IZR h < kdist ii jj.
Proof.
  intros H D. set (y := IZR (h * 4096 + 1) * bpow radix2 (-12)).
  assert (y = IZR h + / 4096) as Y. { unfold y. rewrite plus_IZR, mult_IZR. change (bpow radix2 (-12)) with (/ 4096). field. }
  apply Rlt_le_trans with y; [rewrite Y; lra|]. unfold kdist.
  assert (rnd32 y = y) as E32 by (apply rnd32_dyadic; lia). assert (rnd64 y = y) as E64 by (apply rnd64_dyadic; lia).
  rewrite <- E32. apply rnd32_le. rewrite <- E64. apply rnd64_le.
  assert (0 <= IZR h <= 2047) as P by (split; apply IZR_le; lia). assert (0 <= y) as Py by (rewrite Y; lra). rewrite <- (sqrt_Rsqr y) by auto. apply sqrt_le_1_alt.
  assert (IZR (h * h + 1) <= IZR (ii * ii + jj * jj)) as D' by (apply IZR_le; lia). rewrite plus_IZR, mult_IZR in D'. unfold Rsqr. rewrite Y. nra.
Qed.
Lemma kdist_test ii jj h : (0 <= h <= 2047)%Z -> Rlt_bool (IZR h) (kdist ii jj) = (h * h <? ii * ii + jj * jj)%Z.
Proof.
  intros H. destruct (h * h <? ii * ii + jj * jj)%Z eqn:C; [apply Rlt_bool_true, kdist_gt|apply Rlt_bool_false, kdist_le]; auto; lia.
Qed.

(** ** Reading the images *)
Lemma get_rval (b : list R) q : (0 <= q < zlen b)%Z -> get_at b q = Some (rval b q).
Proof.
  intros H. destruct (get_at_some b q H) as (x & G). rewrite G. f_equal. unfold rval. unfold get_at in G. replace (q <? 0)%Z with false in G by lia. symmetry. now apply nth_error_nth.
Qed.
Lemma get_zval (b : list Z) q : (0 <= q < zlen b)%Z -> get_at b q = Some (zval b q).
Proof.
  intros H. destruct (get_at_some b q H) as (x & G). rewrite G. f_equal. unfold zval. unfold get_at in G. replace (q <? 0)%Z with false in G by lia. symmetry. now apply nth_error_nth.
Qed.
Lemma row_rval bufs n q : Forall (fun b => zlen b = n) bufs -> (0 <= q < n)%Z -> row_at bufs q = Ret (map (fun b => rval b q) bufs).
Proof.
  intros F H. unfold row_at. induction F as [|b bufs L F IH]; cbn [omap map]; auto. rewrite get_rval by lia. cbn [of_option bind]. now rewrite IH.
Qed.
Lemma row_zval bufs n q : Forall (fun b => zlen b = n) bufs -> (0 <= q < n)%Z -> row_at bufs q = Ret (map (fun b => zval b q) bufs).
Proof.
  intros F H. unfold row_at. induction F as [|b bufs L F IH]; cbn [omap map]; auto. rewrite get_zval by lia. cbn [of_option bind]. now rewrite IH.
Qed.
Lemma spectral_spec (hr : list (list R)) p q : spectral (map (fun b => rval b p) hr) (map (fun b => rval b q) hr) = difference hr p q.
Proof.
  unfold spectral, difference, mean. rewrite zlen_map, sum_map, size_map. unfold size, zlen. rewrite INR_IZR_INZ. f_equal.
  assert (forall a, fold_left (fun s xy => s + Rabs (fst xy - snd xy)) (combine (map (fun b => rval b p) hr) (map (fun b => rval b q) hr)) a = a + sum (fun b => Rabs (rval b p - rval b q)) hr) as G.
  { induction hr as [|b hr IH]; intros a; cbn [map combine fold_left sum fst snd]; [lra|]. rewrite IH. lra. }
  rewrite G. lra.
Qed.
Lemma difference_nonneg hr p q : 0 <= difference hr p q.
Proof.
  unfold difference, mean. destruct hr as [|b hr]; [cbn; lra|]. apply Rmult_le_pos; [rewrite sum_map; apply sum_nonneg; intros; apply Rabs_pos|].
  left. apply Rinv_0_lt_compat, size_pos. cbn; congruence.
Qed.
Lemma difference_self hr p : difference hr p p = 0.
Proof.
  unfold difference, mean. rewrite sum_map. assert (sum (fun b : list R => Rabs (rval b p - rval b p)) hr = 0) as ->.
  { induction hr as [|b hr IH]; cbn; auto. rewrite IH, Rminus_diag_eq, Rabs_R0 by auto. lra. } unfold Rdiv. ring.
Qed.

(** ** Classes of difference *)
Definition lim (s : Z) : R := nth (Z.to_nat s) limits 0.
Lemma class_spec S : match class_of S 0 thresholds with
  | Some c => (0 <= c <= 4)%Z /\ forall s, (0 <= s <= 4)%Z -> ((c <=? s)%Z = true <-> S < lim s)
  | None => 0.4 <= S end.
Proof.
  unfold thresholds, class_of.
  destruct (Rlt_bool_spec S 0.025) as [H0|H0]; [|destruct (Rlt_bool_spec S 0.05) as [H1|H1]; [|destruct (Rlt_bool_spec S 0.1) as [H2|H2]; [|destruct (Rlt_bool_spec S 0.2) as [H3|H3]; [|destruct (Rlt_bool_spec S 0.4) as [H4|H4]; [|auto]]]]].
  all: split; [lia|intros s Hs; assert (s = 0 \/ s = 1 \/ s = 2 \/ s = 3 \/ s = 4)%Z as [-> |[-> |[-> |[-> | ->]]]] by lia].
  all: change (lim 0) with 0.025; change (lim 1) with 0.05; change (lim 2) with 0.1; change (lim 3) with 0.2; change (lim 4) with 0.4.
  all: split; intros Q; try reflexivity; try discriminate Q; lra.
Qed.
Lemma class_some S c : class_of S 0 thresholds = Some c -> (0 <= c <= 4)%Z /\ S < 0.4.
Proof.
  intros E. pose proof (class_spec S) as H. rewrite E in H. destruct H as (R & H). split; auto. apply (H 4%Z); lia.
Qed.

(** ** Consequences of the specification of weights *)
Lemma rescaled_ge1 f qs q r : 0 <= f q -> rescaled f qs q r -> 1 <= r.
Proof.
  intros P (Z & W). destruct (Rle_lt_or_eq_dec _ _ P) as [L|E]; [|rewrite Z; lra]. destruct (W L) as (q1 & q2 & I1 & I2 & P1 & B & E1 & E2).
  destruct (Rle_lt_or_eq_dec (f q1) (f q2)) as [Lt|Eq].
  - apply (B q1 I1 P1).
  - rewrite E2 by auto. pose proof (exp_pos (25 * ((f q - f q1) / (f q2 - f q1)) - 7.5)). lra.
  - rewrite E1 by auto. lra.
Qed.
Lemma rescaled_mono f qs q q' r r' : In q qs -> In q' qs -> 0 <= f q -> f q <= f q' -> rescaled f qs q r -> rescaled f qs q' r' -> r <= r'.
Proof.
  intros I I' P L W W'. destruct (Rle_lt_or_eq_dec _ _ P) as [Lt|E].
  2:{ destruct W as (Z & _). rewrite Z by auto. apply (rescaled_ge1 f qs q'); auto. lra. }
  destruct W as (_ & W), W' as (_ & W'). destruct (W Lt) as (q1 & q2 & I1 & I2 & P1 & B & E1 & E2), (W' ltac:(lra)) as (q1' & q2' & I1' & I2' & P1' & B' & E1' & E2').
  assert (f q1 = f q1') as Eq1 by (pose proof (B q1' I1' P1'); pose proof (B' q1 I1 P1); lra).
  assert (f q2 = f q2') as Eq2. { pose proof (B q1 I1 P1). pose proof (B' q1' I1' P1'). pose proof (B q2' I2' ltac:(lra)). pose proof (B' q2 I2 ltac:(lra)). lra. }
  rewrite <- Eq1, <- Eq2 in *. pose proof (B q1 I1 P1). destruct (Rle_lt_or_eq_dec (f q1) (f q2)) as [Ls|Es]; [lra| |rewrite E1, E1' by auto; lra].
  rewrite E2, E2' by auto. apply Rplus_le_compat_l.
  assert (25 * ((f q - f q1) / (f q2 - f q1)) - 7.5 <= 25 * ((f q' - f q1) / (f q2 - f q1)) - 7.5) as Le.
  { assert ((f q - f q1) / (f q2 - f q1) <= (f q' - f q1) / (f q2 - f q1)); [|lra]. unfold Rdiv. apply Rmult_le_compat_r; [|lra]. left. apply Rinv_0_lt_compat. lra. }
  destruct (Rle_lt_or_eq_dec _ _ Le) as [Lx|Ex]; [left; now apply exp_increasing|rewrite Ex; lra].
Qed.
Lemma product_ge1 a b c : 1 <= a -> 1 <= b -> 1 <= c -> 1 <= a * b * c.
Proof. intros. assert (1 <= a * b) by nra. nra. Qed.
Lemma weights_pos S T U qs w q : (forall q, In q qs -> 0 <= S q /\ 0 <= T q /\ 0 <= U q) -> weights S T U qs w -> In q qs -> 0 < w q <= 1.
Proof.
  intros N W I. destruct (W q I) as (a & b & c & A & B & C & ->). destruct (N q I) as (NS & NT & NU). apply rescaled_ge1 in A, B, C; auto.
  pose proof (product_ge1 a b c A B C) as P. split; [apply Rdiv_lt_0_compat; lra|]. unfold Rdiv. rewrite Rmult_1_l, <- Rinv_1. apply Rinv_le_contravar; lra.
Qed.
Lemma weights_antitone S T U qs w q q' : (forall q, In q qs -> 0 <= S q /\ 0 <= T q /\ 0 <= U q) -> weights S T U qs w -> In q qs -> In q' qs ->
  S q <= S q' -> T q <= T q' -> U q <= U q' -> w q' <= w q.
Proof.
  intros N W I I' LS LT LU. destruct (W q I) as (a & b & c & A & B & C & ->), (W q' I') as (a' & b' & c' & A' & B' & C' & ->). destruct (N q I) as (NS & NT & NU), (N q' I') as (NS' & NT' & NU').
  pose proof (rescaled_mono S qs q q' a a' I I' NS LS A A'). pose proof (rescaled_mono T qs q q' b b' I I' NT LT B B'). pose proof (rescaled_mono U qs q q' c c' I I' NU LU C C').
  apply rescaled_ge1 in A, B, C; auto. pose proof (product_ge1 a b c A B C) as P. unfold Rdiv. rewrite !Rmult_1_l. apply Rinv_le_contravar; [lra|].
  apply Rmult_le_compat; try lra; [nra|]. apply Rmult_le_compat; lra.
Qed.
Lemma sum_pos (w : Z -> R) qs : qs <> [] -> (forall q, In q qs -> 0 < w q) -> 0 < sum w qs.
Proof.
  intros NE P. destruct qs as [|q qs]; [congruence|]. cbn [sum]. assert (0 < w q) by (apply P; left; auto).
  assert (0 <= sum w qs); [|lra]. assert (forall q, In q qs -> 0 < w q) as P' by (intros; apply P; right; auto). clear -P'. induction qs as [|x qs IH]; cbn [sum]; [lra|].
  assert (0 < w x) by (apply P'; left; auto). assert (0 <= sum w qs) by (apply IH; intros; apply P'; right; auto). lra.
Qed.
Lemma weighted_mean_between w x qs a b : qs <> [] -> (forall q, In q qs -> 0 < w q) -> (forall q, In q qs -> a <= x q <= b) -> a <= weighted_mean w x qs <= b.
Proof.
  intros NE P B. pose proof (sum_pos w qs NE P) as S. unfold weighted_mean.
  assert (a * sum w qs <= sum (fun q => w q * x q) qs <= b * sum w qs) as G.
  { clear NE S. induction qs as [|q qs IH]; cbn [sum]; [lra|]. assert (0 < w q) by (apply P; left; auto). assert (a <= x q <= b) by (apply B; left; auto).
    destruct IH; [intros; apply P; right; auto|intros; apply B; right; auto|]. nra. }
  split; [apply Rmult_le_reg_r with (sum w qs)|apply Rmult_le_reg_r with (sum w qs)]; auto; unfold Rdiv; rewrite Rmult_assoc, Rinv_l, Rmult_1_r by lra; apply G.
Qed.

(** ** The neighbours *)
(** Images of the same size, at least one fine band, textures of all coarse bands, standard deviations as textures, coarse values are shorts. *)
Definition scene_ok (sc : scene) : Prop :=
  (0 < s_nx sc)%Z /\ (0 < s_ny sc)%Z /\ s_hr sc <> [] /\
  Forall (fun b => zlen b = s_nx sc * s_ny sc)%Z (s_hr sc) /\ Forall (fun b => zlen b = s_nx sc * s_ny sc)%Z (s_mr sc) /\
  Forall (fun b => zlen b = s_nx sc * s_ny sc)%Z (s_mrtex sc) /\ (zlen (s_hrtex sc) = s_nx sc * s_ny sc)%Z /\ zlen (s_mrtex sc) = zlen (s_mr sc) /\
  Forall (Forall in_short) (s_mr sc) /\ Forall (fun x => 0 <= x <= 2147483647) (s_hrtex sc) /\ Forall (Forall (fun x => 0 <= x <= 2147483647)) (s_mrtex sc).

(** The range of the positive values. *)
Lemma range_gen c f : forall l r, let r' := fold_left (fun r n =>
    if (n_class n <=? c)%Z && Rlt_bool 0 (f n)
    then (if Rlt_bool (f n) (fst r) then f n else fst r, if Rlt_bool (snd r) (f n) then f n else snd r)
    else r) l r in
  (forall n, In n l -> (n_class n <=? c)%Z = true -> 0 < f n -> fst r' <= f n <= snd r') /\ fst r' <= fst r /\ snd r <= snd r' /\
  (fst r' = fst r \/ exists n, In n l /\ (n_class n <=? c)%Z = true /\ 0 < f n /\ fst r' = f n) /\
  (snd r' = snd r \/ exists n, In n l /\ (n_class n <=? c)%Z = true /\ 0 < f n /\ snd r' = f n).
Proof.
  induction l as [|n l IH]; intros r; cbn [fold_left].
  - cbv zeta. split; [intros ? []|]. do 2 (split; [lra|]). auto.
  - destruct ((n_class n <=? c)%Z && Rlt_bool 0 (f n)) eqn:C.
    + apply andb_prop in C. destruct C as (C & P). destruct (Rlt_bool_spec 0 (f n)) as [P'|]; [|discriminate].
      set (r1 := (_, _)). destruct (IH r1) as (A & B1 & B2 & C1 & C2). cbv zeta in *. unfold r1 in B1, B2, C1, C2. cbn [fst snd] in B1, B2, C1, C2. fold r1 in B1, B2, C1, C2.
      destruct (Rlt_bool_spec (f n) (fst r)) as [L1|L1], (Rlt_bool_spec (snd r) (f n)) as [L2|L2].
      all: (split; [intros m [<-|Im] Cm Pm; [lra|auto]|]); (split; [lra|]); (split; [lra|]).
      all: split; [destruct C1 as [C1|(m & Im & Q)]; [|right; exists m; cbn; tauto]|destruct C2 as [C2|(m & Im & Q)]; [|right; exists m; cbn; tauto]].
      all: first [left; exact C1|left; exact C2|right; exists n; cbn; auto].
    + destruct (IH r) as (A & B1 & B2 & C1 & C2). cbv zeta in *. split; [intros m [<-|Im] Cm Pm; [|auto]|].
      { rewrite Cm in C. cbn [andb] in C. rewrite Rlt_bool_true in C by auto. discriminate C. }
      split; auto. split; auto. split; [destruct C1 as [C1|(m & Im & Q)]; [left; auto|right; exists m; cbn; tauto]|destruct C2 as [C2|(m & Im & Q)]; [left; auto|right; exists m; cbn; tauto]].
Qed.

Section Predict.
Context (sc : scene) (h i j : Z) (OK : scene_ok sc) (H : (0 <= h <= 2047)%Z) (I : (0 <= i < s_ny sc)%Z) (J : (0 <= j < s_nx sc)%Z).
Let nx := s_nx sc.
Let ny := s_ny sc.
Let p := (i * nx + j)%Z.
Let pos (d : Z * Z) : Z := (nx * (i + fst d) + (j + snd d))%Z.
Let D (q : Z) : R := difference (s_hr sc) p q.
Let cls (q : Z) : Z := match class_of (D q) 0 thresholds with Some c => c | None => 5 end.
Let hp := map (fun b => rval b p) (s_hr sc).
Definition nb (q : Z) : neighbour :=
  mkNb (cls q) (D q) (rval (s_hrtex sc) q) (map (fun b => rval b q) (s_mrtex sc)) (map (fun b => zval b q) (s_mr sc)).
Definition inb (d : Z * Z) : bool := ((0 <=? i + fst d) && (0 <=? j + snd d) && (i + fst d <? ny) && (j + snd d <? nx))%Z.
Definition usable (q : Z) : bool :=
  negb (Req_bool (match s_hr sc with b :: _ => rval b q | [] => 0 end) (s_nohr sc)) && negb (existsb (fun b => zval b q =? s_nomr sc)%Z (s_mr sc)).
Definition cand (d : Z * Z) : bool := inb d && (fst d * fst d + snd d * snd d <=? h * h)%Z && usable (pos d) && Rlt_bool (D (pos d)) 0.4.

Lemma p_range : (0 <= p < nx * ny)%Z.
Proof. unfold p. apply pos_range; auto. Qed.
Lemma pos_ok d : inb d = true -> (0 <= pos d < nx * ny)%Z /\ (pos d / nx = i + fst d)%Z /\ (pos d mod nx = j + snd d)%Z.
Proof.
  intros B. unfold inb in B. unfold pos. replace (nx * (i + fst d) + (j + snd d))%Z with ((i + fst d) * nx + (j + snd d))%Z by ring.
  split; [apply pos_range; lia|]. rewrite at_row, at_col by lia. auto.
Qed.
Lemma neighbour_spec d : neighbour_at sc h i j hp d = Ret (if cand d then Some (nb (pos d)) else None).
Proof.
  pose proof OK as (NX & NY & HR & Fh & Fm & Fu & Lt & _). unfold neighbour_at, cand. fold nx ny.
  assert (((i + fst d <? 0) || (j + snd d <? 0) || (i + fst d >=? ny) || (j + snd d >=? nx))%Z = negb (inb d)) as -> by (unfold inb; lia).
  destruct (inb d) eqn:B; cbn [negb andb]; auto. rewrite kdist_test by auto. rewrite Z.ltb_antisym.
  destruct (fst d * fst d + snd d * snd d <=? h * h)%Z; cbn [negb andb]; auto.
  destruct (pos_ok d B) as (Rq & _). fold (pos d). rewrite (row_rval (s_hr sc) (nx * ny) (pos d) Fh Rq). cbn [bind]. unfold usable.
  assert (exists b0 hr, s_hr sc = b0 :: hr) as (b0 & hr & Eh) by (clear -HR; destruct (s_hr sc); [congruence|eauto]). rewrite Eh. cbn [map]. destruct (Req_bool (rval b0 (pos d)) (s_nohr sc)); cbn [negb andb]; auto.
  rewrite (row_zval (s_mr sc) (nx * ny) (pos d) Fm Rq). cbn [bind]. unfold any_nodata.
  assert (existsb (fun v => (v =? s_nomr sc)%Z) (map (fun b => zval b (pos d)) (s_mr sc)) = existsb (fun b => (zval b (pos d) =? s_nomr sc)%Z) (s_mr sc)) as ->.
  { clear. induction (s_mr sc); cbn; congruence. }
  destruct (existsb _ (s_mr sc)); cbn [negb andb]; auto.
  change (rval b0 (pos d) :: map (fun b => rval b (pos d)) hr) with (map (fun b => rval b (pos d)) (b0 :: hr)). unfold hp. rewrite Eh, spectral_spec, <- Eh. fold (D (pos d)).
  pose proof (class_spec (D (pos d))) as C. destruct (class_of (D (pos d)) 0 thresholds) as [c|] eqn:Ec.
  - assert (D (pos d) < 0.4) as L by (apply (proj2 C 4%Z); lia). rewrite Rlt_bool_true by auto.
    rewrite get_rval by lia. cbn [of_option bind]. rewrite (row_rval (s_mrtex sc) (nx * ny) (pos d) Fu Rq). cbn [bind]. unfold nb, cls. now rewrite Ec.
  - rewrite Rlt_bool_false; auto.
Qed.
Lemma gather_spec nk : (kernel_cells h <= nk)%Z -> gather sc h nk i j hp = Ret (map (fun d => nb (pos d)) (filter cand (LsmModel.kernel h))).
Proof.
  intros NK. unfold gather.
  assert (zlen (LsmModel.kernel h) <= nk)%Z as Lk by (rewrite kernel_len by lia; unfold LsmModel.ksize, kernel_cells in *; lia).
  assert (forall l acc, (zlen acc + zlen l <= nk)%Z ->
    ofold (fun acc d => n <- neighbour_at sc h i j hp d ;; match n with None => Ret acc | Some x => if (zlen acc <? nk)%Z then Ret (acc ++ [x]) else UB end) l acc =
    Ret (acc ++ map (fun d => nb (pos d)) (filter cand l))) as G.
  { induction l as [|d l IH]; intros acc L; cbn [ofold filter map]; [now rewrite app_nil_r|].
    assert (zlen (d :: l) = zlen l + 1)%Z as Lc by (unfold zlen; cbn; lia). assert (0 <= zlen l)%Z by (unfold zlen; lia).
    rewrite neighbour_spec. cbn [bind]. destruct (cand d); cbn [bind].
    - replace (zlen acc <? nk)%Z with true by lia. cbn [bind]. rewrite IH; [cbn [map]; now rewrite <- app_assoc|]. unfold zlen in *. rewrite app_length. cbn [length]. lia.
    - apply IH. lia. }
  rewrite G; auto.
Qed.

(** ** As sets of pixels *)
Definition found : list Z := map pos (filter cand (LsmModel.kernel h)).
Lemma kernel_NoDup : NoDup (LsmModel.kernel h).
Proof.
  pose proof (kernel_sorted h) as S. induction S as [|a l S IH F]; constructor; auto. intros In. rewrite Forall_forall in F. specialize (F a In). unfold lexlt in F. lia.
Qed.
Lemma found_NoDup : NoDup found.
Proof.
  unfold found. assert (NoDup (filter cand (LsmModel.kernel h))) as N by apply NoDup_filter, kernel_NoDup.
  assert (forall d, In d (filter cand (LsmModel.kernel h)) -> inb d = true) as B.
  { intros d Id. apply filter_In in Id. destruct Id as (_ & C). unfold cand in C. destruct (inb d); auto. }
  induction N as [|d l Nd N IH]; cbn [map]; constructor; [|apply IH; intros; apply B; right; auto].
  rewrite in_map_iff. intros (d' & E & Id). apply Nd. destruct (pos_ok d (B d ltac:(left; auto))) as (_ & E1 & E2), (pos_ok d' (B d' ltac:(right; auto))) as (_ & E1' & E2').
  rewrite E in E1', E2'. replace d with d'; auto. destruct d, d'; cbn in *. f_equal; lia.
Qed.
Definition around q : Prop := usable_at nx ny (s_hr sc) (s_nohr sc) (s_mr sc) (s_nomr sc) h i j q.
Lemma usable_spec q : usable q = true <-> has_fine (s_hr sc) (s_nohr sc) q /\ has_coarse (s_mr sc) (s_nomr sc) q.
Proof.
  pose proof OK as (_ & _ & HR & _). unfold usable, has_fine, has_coarse. destruct (s_hr sc) as [|b0 hr]; [congruence|]. cbn [hd_error]. split.
  - intros U. apply andb_prop in U. destruct U as (U1 & U2). split.
    + exists b0. split; auto. intros E. rewrite Req_bool_true in U1 by auto. discriminate U1.
    + intros b Ib E. assert (existsb (fun b => (zval b q =? s_nomr sc)%Z) (s_mr sc) = true) as X by (apply existsb_exists; exists b; split; auto; lia). rewrite X in U2. discriminate U2.
  - intros ((b & E & N) & C). injection E as <-. rewrite Req_bool_false by auto. cbn [negb andb].
    destruct (existsb (fun b => (zval b q =? s_nomr sc)%Z) (s_mr sc)) eqn:X; auto. exfalso. apply existsb_exists in X. destruct X as (b & Ib & Eb). apply (C b Ib). lia.
Qed.
Lemma found_spec q : In q found <-> around q /\ D q < 0.4.
Proof.
  pose proof OK as (NX & NY & _). unfold found, around, usable_at. rewrite in_map_iff. split.
  - intros (d & <- & Id). apply filter_In in Id. destruct Id as (_ & C). unfold cand in C. apply andb_prop in C. destruct C as (C & L). apply andb_prop in C. destruct C as (C & U). apply andb_prop in C. destruct C as (B & K).
    apply usable_spec in U. destruct (pos_ok d B) as (R & E1 & E2). destruct U as (U1 & U2). destruct (Rlt_bool_spec (D (pos d)) 0.4) as [L'|]; [|discriminate].
    repeat split; auto; try apply R. rewrite E1, E2. lia.
  - intros (((R & K) & U1 & U2) & L). pose proof (row_range nx ny q NX R) as (Rr & Rc).
    exists (q / nx - i, q mod nx - j)%Z. assert (inb (q / nx - i, q mod nx - j)%Z = true) as B by (unfold inb; cbn [fst snd]; lia).
    assert (pos (q / nx - i, q mod nx - j)%Z = q) as E. { unfold pos. cbn [fst snd]. pose proof (at_pos nx q NX). lia. }
    split; auto. apply filter_In. split; [apply kernel_In; clear -K H; generalize dependent (q / nx - i)%Z; generalize dependent (q mod nx - j)%Z; intros; split; nia|]. unfold cand. rewrite B, E. cbn [fst snd andb].
    replace ((q / nx - i) * (q / nx - i) + (q mod nx - j) * (q mod nx - j) <=? h * h)%Z with true by lia. cbn [andb].
    rewrite (proj2 (usable_spec q)) by auto. cbn [andb]. now apply Rlt_bool_true.
Qed.
Lemma cls_spec q : In q found -> (0 <= cls q <= 4)%Z /\ forall s, (0 <= s <= 4)%Z -> ((cls q <=? s)%Z = true <-> D q < lim s).
Proof.
  intros Q. apply found_spec in Q. destruct Q as (_ & L). unfold cls. pose proof (class_spec (D q)) as C. destruct (class_of (D q) 0 thresholds); auto. lra.
Qed.

(** ** The class used *)
Definition used (c : Z) : list Z := filter (fun q => cls q <=? c)%Z found.
Lemma used_NoDup c : NoDup (used c).
Proof. apply NoDup_filter, found_NoDup. Qed.
Lemma lim_le s : (0 <= s <= 4)%Z -> lim s <= 0.4.
Proof.
  intros Hs. assert (s = 0 \/ s = 1 \/ s = 2 \/ s = 3 \/ s = 4)%Z as [-> |[-> |[-> |[-> | ->]]]] by lia.
  all: try change (lim 0) with 0.025; try change (lim 1) with 0.05; try change (lim 2) with 0.1; try change (lim 3) with 0.2; try change (lim 4) with 0.4; lra.
Qed.
Lemma used_spec c q : (0 <= c <= 4)%Z -> In q (used c) <-> around q /\ D q < lim c.
Proof.
  intros C. unfold used. rewrite filter_In. split.
  - intros (Q & K). destruct (cls_spec q Q) as (_ & S). apply found_spec in Q. split; [apply Q|]. now apply S.
  - intros (A & L). assert (In q found) as Q by (apply found_spec; pose proof (lim_le c C); split; auto; lra). split; auto. now apply (cls_spec q Q).
Qed.
Lemma count_used s : count_class (map nb found) s = zlen (used s).
Proof.
  unfold count_class, used. clear. induction found as [|q l IH]; cbn [map filter]; auto. cbn [nb n_class]. destruct (cls q <=? s)%Z; auto. unfold zlen in *. cbn [length]. lia.
Qed.
Lemma same_size (P : Z -> Prop) l n : NoDup l -> (forall q, In q l <-> P q) -> has_size P n -> n = zlen l.
Proof.
  intros N S (l' & N' & S' & <-). unfold zlen. f_equal. apply Nat.le_antisymm; apply NoDup_incl_length; auto; intros q Q.
  - apply S. now apply S'.
  - apply S'. now apply S.
Qed.
Lemma cutoff_spec mink : let c := cutoff mink (map nb found) in (0 <= c <= 4)%Z /\ chosen D around mink (lim c).
Proof.
  unfold cutoff. change (zupto 5) with [0; 1; 2; 3; 4]%Z. cbn [find]. rewrite !count_used.
  assert (forall s n, (0 <= s <= 4)%Z -> has_size (fun q => around q /\ D q < lim s) n -> n = zlen (used s)) as U.
  { intros s n Hs. apply same_size; [apply used_NoDup|]. intros q. now apply used_spec. }
  assert (forall s, (0 <= s <= 4)%Z -> has_size (fun q => around q /\ D q < lim s) (zlen (used s))) as E.
  { intros s Hs. exists (used s). split; [apply used_NoDup|]. split; auto. intros q. now apply used_spec. }
  unfold chosen, limits. change (lim 0) with 0.025 in *.
  pose proof (U 0%Z) as U0. pose proof (U 1%Z) as U1. pose proof (U 2%Z) as U2. pose proof (U 3%Z) as U3.
  pose proof (E 0%Z ltac:(lia)) as E0. pose proof (E 1%Z ltac:(lia)) as E1. pose proof (E 2%Z ltac:(lia)) as E2. pose proof (E 3%Z ltac:(lia)) as E3.
  change (lim 0) with 0.025 in *. change (lim 1) with 0.05 in *. change (lim 2) with 0.1 in *. change (lim 3) with 0.2 in *. clear U E.
  destruct (mink <=? zlen (used 0))%Z eqn:B0; [|destruct (mink <=? zlen (used 1))%Z eqn:B1; [|destruct (mink <=? zlen (used 2))%Z eqn:B2; [|destruct (mink <=? zlen (used 3))%Z eqn:B3; [|destruct (mink <=? zlen (used 4))%Z]]]]; (split; [lia|]).
  - exists [], [0.05; 0.1; 0.2; 0.4]. split; [reflexivity|]. split; [intros ? []|]. right. exists (zlen (used 0)). split; auto. lia.
  - exists [0.025], [0.1; 0.2; 0.4]. split; [reflexivity|]. split; [intros l [<-|[]] n Sn; rewrite (U0 n); auto; lia|]. right. exists (zlen (used 1)). split; auto. lia.
  - exists [0.025; 0.05], [0.2; 0.4]. split; [reflexivity|]. split; [intros l [<-|[<-|[]]] n Sn; [rewrite (U0 n)|rewrite (U1 n)]; auto; lia|]. right. exists (zlen (used 2)). split; auto. lia.
  - exists [0.025; 0.05; 0.1], [0.4]. split; [reflexivity|]. split; [intros l [<-|[<-|[<-|[]]]] n Sn; [rewrite (U0 n)|rewrite (U1 n)|rewrite (U2 n)]; auto; lia|]. right. exists (zlen (used 3)). split; auto. lia.
  - exists [0.025; 0.05; 0.1; 0.2], []. split; [reflexivity|]. split; [intros l [<-|[<-|[<-|[<-|[]]]]] n Sn; [rewrite (U0 n)|rewrite (U1 n)|rewrite (U2 n)|rewrite (U3 n)]; auto; lia|]. auto.
  - exists [0.025; 0.05; 0.1; 0.2], []. split; [reflexivity|]. split; [intros l [<-|[<-|[<-|[<-|[]]]]] n Sn; [rewrite (U0 n)|rewrite (U1 n)|rewrite (U2 n)|rewrite (U3 n)]; auto; lia|]. auto.
Qed.

(** ** Weights and sums *)
Lemma rescaled_spec c (f : neighbour -> R) (fq : Z -> R) q : (forall q, f (nb q) = fq q) -> (forall q, In q found -> 0 <= fq q <= 2147483647) -> In q (used c) ->
  rescaled fq (used c) q (rescale_weight (fq q) (fst (range c f (map nb found))) (snd (range c f (map nb found)))).
Proof.
  intros E B Q. unfold range. set (r := (IZR 2147483647, IZR (-2147483648))). destruct (range_gen c f (map nb found) r) as (A & _ & _ & C1 & C2). cbv zeta in *.
  set (r' := fold_left _ _ r) in *. unfold r in C1, C2. cbn [fst snd] in C1, C2.
  assert (forall q', In q' (used c) -> 0 < fq q' -> fst r' <= fq q' <= snd r') as A'.
  { intros q' Q' P'. unfold used in Q'. apply filter_In in Q'. destruct Q' as (Q' & C'). rewrite <- E. apply A; [now apply in_map|auto|rewrite E; auto]. }
  unfold rescaled, rescale_weight. split; [intros Z0; now rewrite Req_bool_true|]. intros P. rewrite (Req_bool_false (fq q) 0) by lra.
  assert (forall x, (exists n, In n (map nb found) /\ (n_class n <=? c)%Z = true /\ 0 < f n /\ x = f n) -> exists q', In q' (used c) /\ 0 < fq q' /\ x = fq q') as T.
  { intros x (n & In & Cn & Pn & ->). apply in_map_iff in In. destruct In as (q' & <- & I'). exists q'. rewrite E in *. split; auto. unfold used. apply filter_In. split; auto. }
  assert (exists q1, In q1 (used c) /\ 0 < fq q1 /\ fst r' = fq q1) as (q1 & I1 & P1 & E1).
  { destruct C1 as [C1|C1]; [|auto]. exists q. split; auto. split; auto. pose proof (A' q Q P). pose proof (B q ltac:(unfold used in Q; apply filter_In in Q; apply Q)). lra. }
  assert (exists q2, In q2 (used c) /\ 0 < fq q2 /\ snd r' = fq q2) as (q2 & I2 & P2 & E2).
  { destruct C2 as [C2|C2]; [|auto]. exfalso. pose proof (A' q Q P). lra. }
  exists q1, q2. rewrite E1, E2 in *. do 3 (split; auto). split; [intros q' Q' P'; now apply A'|].
  split; [intros Eq; now rewrite Req_bool_true|intros Lt; rewrite Req_bool_false by lra; reflexivity].
Qed.
Lemma val_ok (P : R -> Prop) img q : Forall P img -> zlen img = (nx * ny)%Z -> In q found -> P (rval img q).
Proof.
  intros F L Q. apply found_spec in Q. destruct Q as (((R & _) & _) & _). assert (get_at img q = Some (rval img q)) as G by (apply get_rval; lia). apply get_at_In in G. rewrite Forall_forall in F. auto.
Qed.
Section Band.
Context (c b : Z) (band : list Z) (tex : list R) (Gm : get_at (s_mr sc) b = Some band) (Gt : get_at (s_mrtex sc) b = Some tex).
Let L := map nb found.
Let ub := fun n => match get_at (n_U n) b with Some x => x | None => 0 end.
Definition wt (q : Z) : R := 1 / (rescale_weight (D q) (fst (range c n_S L)) (snd (range c n_S L)) *
   rescale_weight (rval (s_hrtex sc) q) (fst (range c n_T L)) (snd (range c n_T L)) * rescale_weight (rval tex q) (fst (range c ub L)) (snd (range c ub L))).
Lemma weight_of_spec q : weight_of c b L (nb q) = Ret (wt q).
Proof.
  unfold weight_of. cbn [nb n_U n_S n_T]. rewrite get_map, Gt. cbn [of_option bind]. reflexivity.
Qed.
Lemma band_sums_spec : band_sums c b L = Ret (sum (fun q => wt q * IZR (zval band q)) (used c), sum wt (used c)).
Proof.
  unfold band_sums.
  assert (forall l a s, ofold (fun acc n => if (c <? n_class n)%Z then Ret acc else w <- weight_of c b L n ;; m <- of_option (get_at (n_M n) b) ;; Ret (fst acc + w * IZR m, snd acc + w)) (map nb l) (a, s) =
    Ret (a + sum (fun q => wt q * IZR (zval band q)) (filter (fun q => cls q <=? c)%Z l), s + sum wt (filter (fun q => cls q <=? c)%Z l))) as G.
  { induction l as [|q l IH]; intros a s; cbn [map ofold filter sum]; [now rewrite !Rplus_0_r|]. cbn [nb n_class]. rewrite Z.ltb_antisym. destruct (cls q <=? c)%Z; cbn [negb].
    - fold (nb q). rewrite weight_of_spec. cbn [bind]. cbn [nb n_M]. rewrite get_map, Gm. cbn [option_map of_option bind fst snd]. rewrite IH. cbn [sum]. f_equal. f_equal; ring.
    - cbn [bind]. apply IH. }
  unfold L at 2. rewrite G. unfold used. now rewrite !Rplus_0_l.
Qed.
Lemma wt_weights : weights D (rval (s_hrtex sc)) (rval tex) (used c) wt.
Proof.
  pose proof OK as (_ & _ & _ & _ & _ & Fu & Lt & _ & _ & Ft & Fut). rewrite Forall_forall in Fu, Fut.
  pose proof (get_at_In _ _ _ Gt) as It.
  intros q Q. do 3 eexists. split; [|split; [|split; [|reflexivity]]].
  - apply (rescaled_spec c n_S D q); auto. intros q' Q'. apply found_spec in Q'. pose proof (difference_nonneg (s_hr sc) p q'). fold (D q') in *. lra.
  - apply (rescaled_spec c n_T (rval (s_hrtex sc)) q); auto. intros q' Q'. apply (val_ok (fun x => 0 <= x <= 2147483647)); auto.
  - apply (rescaled_spec c ub (rval tex) q); auto.
    + intros q'. unfold ub. cbn [nb n_U]. now rewrite get_map, Gt.
    + intros q' Q'. apply (val_ok (fun x => 0 <= x <= 2147483647)); auto.
Qed.
End Band.

(** ** The prediction *)
Lemma used_nonneg c tex q : In tex (s_mrtex sc) -> In q (used c) -> 0 <= D q /\ 0 <= rval (s_hrtex sc) q /\ 0 <= rval tex q.
Proof.
  pose proof OK as (_ & _ & _ & _ & _ & Fu & Lt & _ & _ & Ft & Fut). rewrite Forall_forall in Fu, Fut.
  intros It Q. unfold used in Q. apply filter_In in Q. destruct Q as (Q & _). split; [apply difference_nonneg|].
  pose proof (val_ok (fun x => 0 <= x <= 2147483647) (s_hrtex sc) q Ft Lt Q) as V1. pose proof (val_ok (fun x => 0 <= x <= 2147483647) tex q (Fut tex It) (Fu tex It) Q) as V2. cbv beta in V1, V2. lra.
Qed.
Lemma predict_spec c b band tex : used c <> [] -> get_at (s_mr sc) b = Some band -> get_at (s_mrtex sc) b = Some tex ->
  predict_band c (map nb found) b = Ret (Ztrunc (rnd32 (weighted_mean (wt c b tex) (fun q => IZR (zval band q)) (used c)))).
Proof.
  intros NE Gm Gt. unfold predict_band. rewrite (band_sums_spec c b band tex Gm Gt). cbn [bind fst snd].
  pose proof (wt_weights c b tex Gt) as W. pose proof (get_at_In _ _ _ Gt) as It. pose proof (get_at_In _ _ _ Gm) as Im.
  assert (forall q, In q (used c) -> 0 < wt c b tex q) as P. { intros q Q. apply (weights_pos D (rval (s_hrtex sc)) (rval tex) (used c) (wt c b tex) q); auto. intros q' Q'. now apply (used_nonneg c tex). }
  pose proof (sum_pos _ _ NE P) as S. rewrite Req_bool_false by lra. unfold real_short. fold (weighted_mean (wt c b tex) (fun q => IZR (zval band q)) (used c)).
  assert (-32768 <= rnd32 (weighted_mean (wt c b tex) (fun q => IZR (zval band q)) (used c)) <= 32767) as B.
  { apply rnd32_between; [lia|lia|]. apply weighted_mean_between; auto. intros q Q. unfold used in Q. apply filter_In in Q. destruct Q as (Q & _). apply found_spec in Q. destruct Q as (((R & _) & _) & _).
    pose proof OK as (_ & _ & _ & _ & Fm & _ & _ & _ & Fs & _). rewrite Forall_forall in Fm, Fs. specialize (Fm band Im). specialize (Fs band Im). rewrite Forall_forall in Fs.
    assert (in_short (zval band q)) as X. { apply Fs. apply (get_at_In _ q). apply get_zval. lia. } unfold in_short in X. split; apply IZR_le; lia. }
  assert (in_shortb (Ztrunc (rnd32 (weighted_mean (wt c b tex) (fun q => IZR (zval band q)) (used c)))) = true) as ->; auto.
  apply in_shortb_spec. unfold in_short. destruct B as (B1 & B2). apply Ztrunc_le in B1, B2. rewrite Ztrunc_IZR in B1, B2. lia.
Qed.
End Predict.
