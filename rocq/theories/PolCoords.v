(** The polar coordinates of a series. *)
From Coq Require Import Reals Lra.
From Flocq Require Import Core IEEE754.BinarySingleNaN.
From Verif Require Import Base BaseFacts Float FloatFacts FloatInt RoundModel RoundFacts InterpModel PolModel PolSpec PolFloat PolSeasons PolEvents.
#[local] Open Scope R_scope.

Lemma rnd32_abs_le x m e : (Z.abs m < 2 ^ 24)%Z -> (-149 <= e)%Z -> Rabs x <= IZR m * bpow radix2 e ->
  Rabs (rnd32 x) <= IZR m * bpow radix2 e.
Proof.
  intros M E H. pose proof (rnd32_dyadic m e M E) as D.
  assert (- (IZR m * bpow radix2 e) <= x <= IZR m * bpow radix2 e) as [H1 H2] by (split; unfold Rabs in H; destruct (Rcase_abs x); lra).
  apply rnd32_le in H1. apply rnd32_le in H2. rewrite rnd32_opp, D in H1. rewrite D in H2. apply Rabs_le. lra.
Qed.

Lemma bpow15 : bpow radix2 15 = 32768.
Proof. reflexivity. Qed.

(** A linear interpolation stays within the range of short. *)
Lemma blend_ok (vl vr cl cr ce : f32) a b c l r : isZ vl a -> isZ vr b -> isZ cl l -> isZ cr r -> isZ ce c ->
  in_short a -> in_short b -> (0 <= l <= c)%Z -> (c <= r)%Z -> (l < r)%Z -> (r < 2 ^ 24)%Z ->
  let v := f32_div (f32_add (f32_mul vl (f32_sub cr ce)) (f32_mul vr (f32_sub ce cl))) (f32_sub cr cl) in
  fin v /\ Rabs (B2R v) <= 32768.
Proof.
  intros Va Vb Cl Cr Cc Ra Rb H1 H2 H3 H4 v. unfold in_short in Ra, Rb.
  destruct (isZ32_sub cr ce r c Cr Cc ltac:(lia)) as [F1 E1].
  destruct (isZ32_sub ce cl c l Cc Cl ltac:(lia)) as [F2 E2].
  destruct (isZ32_sub cr cl r l Cr Cl ltac:(lia)) as [F3 E3].
  destruct Va as [Fa Ea], Vb as [Fb Eb].
  assert (forall x d, (-32768 <= x <= 32767)%Z -> (0 <= d)%Z -> Rabs (IZR x * IZR d) <= IZR d * bpow radix2 15) as P.
  { intros x d X D. rewrite Rabs_mult, <- !abs_IZR. rewrite bpow15, Rmult_comm.
    rewrite (Z.abs_eq d) by auto. apply Rmult_le_compat_l; [apply (IZR_le 0); auto|]. apply IZR_le. lia. }
  assert (IZR (r - l) * bpow radix2 15 <= 16777216 * 32768) as B0.
  { rewrite bpow15. apply Rmult_le_compat_r; [lra|]. apply (IZR_le _ 16777216). lia. }
  pose proof bpow128_big as B1.
  assert (forall x d, (-32768 <= x <= 32767)%Z -> (0 <= d <= r - l)%Z ->
     Rabs (rnd32 (IZR x * IZR d)) <= IZR d * bpow radix2 15 /\ Rabs (rnd32 (IZR x * IZR d)) < bpow radix2 128) as P2.
  { intros x d X D. pose proof (rnd32_abs_le (IZR x * IZR d) d 15 ltac:(lia) ltac:(lia) (P x d X ltac:(lia))) as Q. split; auto.
    assert (IZR d * bpow radix2 15 <= IZR (r - l) * bpow radix2 15).
    { apply Rmult_le_compat_r; [apply bpow_ge_0|]. apply IZR_le. lia. } lra. }
  destruct (P2 a (r - c)%Z ltac:(lia) ltac:(lia)) as [Q1 Q1'].
  destruct (P2 b (c - l)%Z ltac:(lia) ltac:(lia)) as [Q2 Q2'].
  destruct (mul32_R vl (f32_sub cr ce) Fa F1) as [G1 K1]; [rewrite Ea, E1; auto|].
  destruct (mul32_R vr (f32_sub ce cl) Fb F2) as [G2 K2]; [rewrite Eb, E2; auto|].
  unfold fmul in K1, K2. rewrite Ea, E1 in K1. rewrite Eb, E2 in K2.
  assert (Rabs (rnd32 (B2R (f32_mul vl (f32_sub cr ce)) + B2R (f32_mul vr (f32_sub ce cl)))) <= IZR (r - l) * bpow radix2 15) as Q3.
  { apply rnd32_abs_le; [lia|lia|]. rewrite K1, K2. eapply Rle_trans; [apply Rabs_triang|].
    replace (IZR (r - l)) with (IZR (r - c) + IZR (c - l)) by (rewrite <- plus_IZR; f_equal; lia). lra. }
  destruct (add32_R _ _ G1 G2) as [G3 K3]; [lra|]. unfold fadd in K3.
  assert (0 < IZR (r - l)) as W by (apply (IZR_lt 0); lia).
  assert (Rabs (B2R (f32_add (f32_mul vl (f32_sub cr ce)) (f32_mul vr (f32_sub ce cl))) / B2R (f32_sub cr cl)) <= IZR 1 * bpow radix2 15) as Q4.
  { rewrite E3, K3. unfold Rdiv. rewrite Rabs_mult, (Rabs_pos_eq (/ IZR (r - l))) by (apply Rlt_le, Rinv_0_lt_compat; auto).
    apply Rmult_le_reg_r with (IZR (r - l)); auto. rewrite Rmult_assoc, Rinv_l by lra. lra. }
  apply rnd32_abs_le in Q4; [|reflexivity|lia].
  destruct (div32_R _ (f32_sub cr cl) G3) as [G4 K4]; [rewrite E3; lra| |].
  - rewrite bpow15 in Q4. lra.
  - fold v in G4, K4. split; auto. rewrite K4. unfold fdiv. rewrite bpow15 in Q4. lra.
Qed.

(** The neighbour with data before an observation, as far as the loop has come. *)
Definition left_ok (nodata c : Z) (left : f32 * f32) : Prop :=
  left = (f32_of_Z INT_MIN, f32_of_Z nodata) \/
  exists l v, left = (f32_of_Z l, f32_of_Z v) /\ (0 < l < c)%Z /\ in_short v.

Lemma int_min_neg : flt zero32 (f32_of_Z INT_MIN) = false.
Proof. reflexivity. Qed.
Lemma pos_flt l : (0 < l < 2 ^ 24)%Z -> flt zero32 (f32_of_Z l) = true.
Proof. intros H. apply flt_R; [reflexivity|apply isZ32; lia|]. destruct (isZ32 l) as [_ ->]; [lia|]. cbn. apply (IZR_lt 0). lia. Qed.

Lemma next_valid_ok nodata year_min ny step l none : forall c, (0 < c)%Z -> (1 <= step)%Z -> Forall (legal_obs year_min ny) l ->
  match l with [] => True | q :: _ => (o_ce q = c + step)%Z /\ every_step step l end ->
  next_valid nodata l none = none \/
  exists r v, next_valid nodata l none = (f32_of_Z r, f32_of_Z v) /\ (c < r < 2 ^ 24)%Z /\ in_short v /\ (exists o, In o l /\ o_val o <> nodata).
Proof.
  induction l as [|o l IH]; intros c C S F E; cbn [next_valid]; [left; auto|].
  inversion F as [|? ? Fo Fl]; subst. destruct E as [E1 E2].
  destruct (o_val o =? nodata)%Z eqn:V.
  - destruct (IH (o_ce o) ltac:(lia) S Fl) as [H|(r & v & H1 & H2 & H3 & q & Hq & Hv)].
    { destruct l as [|q l]; auto. }
    + left; auto.
    + right. exists r, v. split; auto. split; [lia|]. split; auto. exists q. split; [right|]; auto.
  - right. exists (o_ce o), (o_val o). split; auto. unfold legal_obs in Fo. split; [lia|]. split; [tauto|].
    exists o. split; [left; auto|lia].
Qed.

Definition clamp (v : f32) : f32 := if flt v zero32 then zero32 else v.
Lemma clamp_ok v : fin v -> Rabs (B2R v) <= 65536 -> val_ok (clamp v).
Proof.
  intros F A. unfold clamp. destruct (flt v zero32) eqn:E.
  - split; [reflexivity|]. cbn. lra.
  - split; auto. split.
    + destruct (Rle_lt_dec 0 (B2R v)) as [H|H]; auto. apply (proj2 (flt_R v zero32 F eq_refl)) in H. congruence.
    + unfold Rabs in A. destruct (Rcase_abs (B2R v)); lra.
Qed.
Lemma short_fin v : in_short v -> isZ (f32_of_Z v) v /\ Rabs (B2R (f32_of_Z v)) <= 65536.
Proof.
  unfold in_short. intros H. destruct (isZ32 v) as [A B]; [lia|]. split; [split; auto|]. rewrite B, <- abs_IZR. apply IZR_le. lia.
Qed.

Lemma fill_ok nodata year_min ny step left o r : in_short nodata -> (1 <= step)%Z -> legal_obs year_min ny o -> Forall (legal_obs year_min ny) r ->
  every_step step (o :: r) -> left_ok nodata (o_ce o) left ->
  fin (fst (fill nodata left o r)) /\ Rabs (B2R (fst (fill nodata left o r))) <= 65536 /\
  (o_val o <> nodata -> fill nodata left o r = (f32_of_Z (o_val o), true)).
Proof.
  intros N S Fo Fr E Lo. unfold fill. destruct (o_val o =? nodata)%Z eqn:V.
  2:{ destruct (short_fin (o_val o)) as [[A _] B]; [apply Fo|]. cbn [fst]. auto. }
  destruct (short_fin nodata N) as [[NA _] NB].
  assert (0 < o_ce o)%Z as Cp by (unfold legal_obs in Fo; lia).
  assert (match r with [] => True | q :: _ => (o_ce q = o_ce o + step)%Z /\ every_step step r end) as Er.
  { destruct r as [|q r]; [exact I|]. destruct E as [E1 E2]. split; [exact E1|exact E2]. }
  destruct (next_valid_ok nodata year_min ny step r (f32_of_Z INT_MIN, f32_of_Z nodata) (o_ce o) Cp S Fr Er) as [Hn|(rc & rv & Hn & Rr & Rv & _)].
  - rewrite Hn. cbn [fst snd]. rewrite int_min_neg, andb_false_r.
    destruct Lo as [->|(l & v & -> & Rl & Rv)]; cbn [fst snd].
    + rewrite int_min_neg. cbn [fst]. repeat split; auto. lia.
    + rewrite pos_flt by (unfold legal_obs in Fo; lia). cbn [fst]. destruct (short_fin v Rv) as [[A _] B]. repeat split; auto. lia.
  - rewrite Hn. cbn [fst snd]. rewrite (pos_flt rc) by (unfold legal_obs in Fo; lia). rewrite andb_true_r.
    destruct (short_fin rv Rv) as [[RA RA'] RB].
    destruct Lo as [->|(l & v & -> & Rl & Lv)]; cbn [fst snd].
    + rewrite int_min_neg. cbn [fst]. repeat split; auto. lia.
    + rewrite pos_flt by (unfold legal_obs in Fo; lia). cbn [fst].
      destruct (short_fin v Lv) as [A _].
      destruct (blend_ok (f32_of_Z v) (f32_of_Z rv) (f32_of_Z l) (f32_of_Z rc) (f32_of_Z (o_ce o)) v rv (o_ce o) l rc) as [G K]; auto;
        try lia; try (split; auto); try (apply isZ32; unfold legal_obs in Fo; lia).
      split; [lra|]. lia.
Qed.

(** The coordinates: dates, values and whether there was any observation. *)
Definition of_obs (year_min : Z) (o : obs) (p : polar) : Prop :=
  p_ce p = day_number (o_year o - year_min) (back (o_doy o)) /\ val_ok (p_val p).

Lemma coords_ok L nodata year_min ny step : in_short nodata -> (1 <= step)%Z ->
  forall l left, (match l with [] => True | o :: _ => left_ok nodata (o_ce o) left end) ->
  Forall (legal_obs year_min ny) l -> every_step step l ->
  exists ps ok, coords L nodata year_min left l = Ret (ps, ok) /\ Forall2 (of_obs year_min) l ps /\
    Forall2 (fun o p => o_val o <> nodata -> p_val p = clamp (f32_of_Z (o_val o))) l ps.
Proof.
  intros N S. induction l as [|o r IH]; intros left Lo F E.
  { exists [], true. cbn. auto. }
  inversion F as [|? ? Fo Fr]; subst. cbn [coords].
  destruct (fill_ok nodata year_min ny step left o r N S Fo Fr E Lo) as (G1 & G2 & G3).
  destruct (fill nodata left o r) as [v ok] eqn:Ef. cbn [fst] in G1, G2.
  assert (chk_int (o_year o - year_min) = Ret (o_year o - year_min)%Z) as ->.
  { unfold chk_int, in_intb. unfold legal_obs in Fo.
    replace ((-2147483648 <=? o_year o - year_min) && (o_year o - year_min <=? 2147483647))%Z with true by lia. reflexivity. }
  cbn [bind]. fold (clamp v).
  destruct (coord_date L (o_doy o) (clamp v) (o_year o - year_min)) as (p & Ep & P1 & P2 & P3); [unfold legal_obs in Fo; lia..|].
  rewrite Ep. cbn [bind].
  destruct (IH (if (o_val o =? nodata)%Z then left else (f32_of_Z (o_ce o), f32_of_Z (o_val o)))) as (ps & ok' & Ec & F1 & F2); auto.
  { destruct r as [|q r]; auto. cbn [every_step] in E. destruct E as [E1 E2].
    destruct (o_val o =? nodata)%Z.
    - destruct Lo as [->|(l & w & -> & H)]; [left; auto|]. right. exists l, w. split; auto. split; [lia|tauto].
    - right. exists (o_ce o), (o_val o). split; auto. unfold legal_obs in Fo. split; [lia|tauto]. }
  { cbn [every_step] in E. destruct r; auto. destruct E; auto. }
  rewrite Ec. cbn [bind fst snd]. exists (p :: ps), (ok && ok')%bool. split; [reflexivity|]. split; constructor; auto.
  - split; [exact P3|]. rewrite P1. apply clamp_ok; auto.
  - intros W. rewrite P1. specialize (G3 W). injection G3 as -> _. reflexivity.
Qed.

(** Dates in order. *)
#[local] Open Scope Z_scope.
Lemma back_range d : d - 1 <= back d <= d.
Proof. unfold back. destruct (existsb (Z.eqb d) lost_days); lia. Qed.
Lemma date_rel year_min ny o p : legal_obs year_min ny o -> of_obs year_min o p -> o_ce o - 365 * year_min - 1 <= p_ce p <= o_ce o - 365 * year_min.
Proof. intros Fo [E _]. rewrite E. unfold legal_obs, day_number in *. pose proof (back_range (o_doy o)). lia. Qed.

Lemma dates_asc year_min ny step l ps : 1 <= step -> Forall (legal_obs year_min ny) l -> every_step step l -> Forall2 (of_obs year_min) l ps ->
  asc (map p_ce ps) /\ days_in_order (step + 1) (map p_ce ps).
Proof.
  intros S F E G.
  assert (asc (map p_ce ps) /\ days_in_order (step + 1) (map p_ce ps) /\
    match l, ps with o :: _, p :: _ => Forall (fun q => p_ce p <= p_ce q /\ o_ce o - 365 * year_min - 1 <= p_ce q) ps | _, _ => True end) as H; [|tauto].
  revert E F. induction G as [|o p r ps H G IH]; intros E F; [cbn; auto|].
  inversion F as [|? ? Fo Fr]; subst. pose proof (date_rel _ _ _ _ Fo H) as D.
  destruct r as [|o' r].
  - inversion G; subst. split; [cbn; auto|split; [cbn; auto|constructor; [lia|constructor]]].
  - inversion G as [|? p' ? ps' H' G']; subst. cbn [every_step] in E. destruct E as [E1 E2].
    destruct (IH E2 Fr) as (I1 & I2 & I3). inversion Fr as [|? ? Fo' _]; subst. pose proof (date_rel _ _ _ _ Fo' H') as D'.
    assert (p_ce p <= p_ce p') as Q by lia.
    split; [|split].
    + split; auto. apply Forall_map. eapply Forall_impl; [|exact I3]. cbv beta. intros; lia.
    + cbn [map days_in_order days_from] in *. split; auto. lia.
    + constructor; [lia|]. eapply Forall_impl; [|exact I3]. cbv beta. intros; lia.
Qed.
