(** Lemmas about the view geometry and the time of the sun position. *)
From Coq Require Import Reals Lra Lia ZifyBool.
From Flocq Require Import Core.
From Verif Require Import Base RoundModel RoundFacts DateModel TopModel TopGeo L1Cal ViewModel ViewSpec.
From Verif Require DateSpec DateProofs.

(** ** Corners *)
Section Scan.
Variables (nx ny : Z) (off : Z -> bool).
Hypotheses (px : 0 < nx) (py : 0 < ny).
Definition upto (n : nat) (p : Z) : Prop := 0 <= p < Z.of_nat n /\ off p = false.
Definition good (n : nat) (c : corners) : Prop :=
  ((forall p, ~ upto n p) /\ c = corners0 nx ny) \/
  (exists a b l z, first_pixel (upto n) a /\ right_pixel nx (upto n) b /\ left_pixel nx (upto n) l /\ last_pixel (upto n) z /\
     c = mkCorners (a / nx) (a mod nx) (b / nx) (b mod nx) (l / nx) (l mod nx) (z / nx) (z mod nx)).
Lemma upto_S n p : upto (S n) p <-> upto n p \/ (p = Z.of_nat n /\ off p = false).
Proof. unfold upto. split; intros; [assert (p < Z.of_nat n \/ p = Z.of_nat n) as [|] by lia; [left|right]; intuition|]. intuition lia. Qed.
Lemma scan_good n : (Z.of_nat n <= nx * ny) -> good n (scan nx ny off n).
Proof.
  induction n as [|n IH]; intros L; cbn [scan]; [left; split; [intros p (H & _); lia|reflexivity]|]. specialize (IH ltac:(lia)). remember (Z.of_nat n) as q eqn:EQ. destruct (off q) eqn:OQ.
  - assert (E : forall p, upto (S n) p <-> upto n p) by (intros p; rewrite upto_S; split; [intros [?|(-> & ?)]; [auto|congruence]|auto]). destruct IH as [(N & ->)|(a & b & l & z & A & B & LL & ZZ & ->)]; [left; split; [intros p P; apply (N p), E, P|reflexivity]|].
    right. exists a, b, l, z. destruct A as (A1 & A2), B as (B1 & B2), LL as (L1 & L2), ZZ as (Z1 & Z2). split; [|split; [|split; [|split]]]; [split|split|split|split|reflexivity]; try (apply E; assumption); intros p P; apply E in P; auto.
  - assert (Q : upto (S n) q) by (apply upto_S; right; split; [lia|exact OQ]). pose proof (Z.mod_pos_bound q nx px) as MB. assert (QR : 0 <= q / nx) by (apply Z.div_pos; lia).
    right. destruct IH as [(N & ->)|(a & b & l & z & (A1 & A2) & (B1 & B2) & (L1 & L2) & (Z1 & Z2) & ->)].
    + exists q, q, q, q. assert (U : forall p, upto (S n) p -> p = q) by (intros p P; apply upto_S in P as [P|(P & _)]; [exfalso; exact (N p P)|lia]).
      repeat split; auto; try (intros p P; apply U in P; subst; lia); try apply Q. unfold see, corners0. cbn [uly ulx ury urx lly llx lry lrx Z.eqb Pos.eqb]. replace (q mod nx >? -1) with true by lia. cbn [uly ulx ury urx lly llx lry lrx].
      assert (q mod nx <= nx * ny) by nia. replace (q mod nx <=? nx * ny) with true by lia. cbn [uly ulx ury urx lly llx lry lrx]. replace (q / nx >=? -1) with true by lia. reflexivity.
    + assert (AR : 0 <= a / nx) by (apply Z.div_pos; destruct A1; lia). assert (ZR : z / nx <= q / nx) by (apply Z.div_le_mono; [lia|destruct Z1; lia]).
      exists a, (if q mod nx >? b mod nx then q else b), (if q mod nx <=? l mod nx then q else l), q. split; [|split; [|split; [|split]]].
      * split; [apply upto_S; auto|]. intros p P. apply upto_S in P as [P|(-> & _)]; [auto|]. destruct A1. lia.
      * split; [destruct (q mod nx >? b mod nx); [auto|apply upto_S; auto]|]. intros p P. apply upto_S in P as [P|(-> & _)].
        { destruct (B2 p P); destruct (Z.gtb_spec (q mod nx) (b mod nx)); lia. }
        { rewrite <- EQ. destruct (Z.gtb_spec (q mod nx) (b mod nx)); [lia|]. destruct B1. lia. }
      * split; [destruct (q mod nx <=? l mod nx); [auto|apply upto_S; auto]|]. intros p P. apply upto_S in P as [P|(-> & _)].
        { destruct P as (P & P'). destruct (L2 p (conj P P')); destruct (Z.leb_spec (q mod nx) (l mod nx)); lia. }
        { rewrite <- EQ. destruct (Z.leb_spec (q mod nx) (l mod nx)); lia. }
      * split; [auto|]. intros p P. apply upto_S in P as [(P & _)|(-> & _)]; lia.
      * unfold see. cbn [uly ulx ury urx lly llx lry lrx]. replace (a / nx =? -1) with false by lia. cbn [uly ulx ury urx lly llx lry lrx].
        destruct (q mod nx >? b mod nx); cbn [uly ulx ury urx lly llx lry lrx]; destruct (q mod nx <=? l mod nx); cbn [uly ulx ury urx lly llx lry lrx]; replace (q / nx >=? z / nx) with true by lia; reflexivity.
Qed.
End Scan.

#[local] Open Scope R_scope.
(** ** Distance, zenith, azimuth *)
Lemma distance_line x1 y1 x2 y2 x y d : distance (nadir_line (x1, y1, x2, y2)) x y = Some d -> distance_to_line (IZR x1) (IZR y1) (IZR x2) (IZR y2) x y (Rabs d).
Proof.
  unfold distance, nadir_line. destruct ((y1 - y2 =? 0) && (x2 - x1 =? 0))%Z eqn:Z0; [discriminate|]. intros H. injection H as <-. rewrite !minus_IZR, !mult_IZR.
  set (a := IZR y1 - IZR y2). set (b := IZR x2 - IZR x1). assert (N : 0 < a * a + b * b).
  { assert (a <> 0 \/ b <> 0) as [K|K]; [|nra|nra]. destruct (Z.eq_dec (y1 - y2) 0) as [E|E]; [right|left]; unfold a, b; rewrite <- minus_IZR; intros K; apply eq_IZR in K; lia. }
  exists (((x - IZR x1) * b - (y - IZR y1) * a) / (a * a + b * b)). cbv zeta. replace (IZR y2 - IZR y1) with (- a) by (unfold a; ring). fold b.
  replace (a * x + b * y + (IZR y2 * IZR x1 - IZR x2 * IZR y1)) with (a * (x - IZR x1) + b * (y - IZR y1)) by (unfold a, b; ring). set (u := x - IZR x1). set (v := y - IZR y1). clearbody a b.
  replace (x - (IZR x1 + (u * b - v * a) / (a * a + b * b) * b)) with (u - (u * b - v * a) / (a * a + b * b) * b) by (unfold u; ring). replace (y - (IZR y1 + (u * b - v * a) / (a * a + b * b) * - a)) with (v - (u * b - v * a) / (a * a + b * b) * - a) by (unfold v; ring). clearbody u v.
  split; [field; lra|]. split; [|apply Rabs_pos]. rewrite <- Rabs_mult, Rabs_pos_eq by (apply Rle_0_sqr). assert (SQ : sqrt (a * a + b * b) * sqrt (a * a + b * b) = a * a + b * b) by (apply sqrt_sqrt; lra). assert (S0 : 0 < sqrt (a * a + b * b)) by (apply sqrt_lt_R0; exact N).
  replace ((a * u + b * v) / sqrt (a * a + b * b) * ((a * u + b * v) / sqrt (a * a + b * b))) with ((a * u + b * v) * (a * u + b * v) / (sqrt (a * a + b * b) * sqrt (a * a + b * b))) by (field; lra). rewrite SQ. field. lra.
Qed.
Lemma zenith_atan H res d : 0 < H -> 0 < res -> view_zenith H res (Some d) = atan (res * Rabs d / H).
Proof.
  intros HH R. unfold view_zenith. set (q := res * Rabs d). assert (Q : 0 <= q) by (apply Rmult_le_pos; [lra|apply Rabs_pos]). replace (res * d * res * d) with (q * q). 2:{ unfold q. replace (res * Rabs d * (res * Rabs d)) with (res * res * (Rabs d * Rabs d)) by ring. rewrite <- Rabs_mult, (Rabs_pos_eq (d * d)) by apply Rle_0_sqr. ring. }
  assert (Q1 : 0 <= q / H) by (apply Rmult_le_pos; [exact Q|left; apply Rinv_0_lt_compat; exact HH]). assert (A : 0 <= atan (q / H)) by (destruct Q1 as [Q1|Q1]; [left; rewrite <- atan_0; apply atan_increasing; exact Q1|rewrite <- Q1, atan_0; lra]).
  pose proof (atan_bound (q / H)) as B. rewrite <- (acos_cos (atan (q / H))) by (pose proof PI_RGT_0; lra). f_equal. rewrite atan_cos, root_ratio, Rabs_pos_eq by lra. field. split; [lra|apply Rgt_not_eq, sqrt_lt_R0; nra].
Qed.
(** ** Masked cells *)
Lemma ratio10 : ratio 10 5000 = IZR 8589935 * bpow radix2 (-32).
Proof. unfold ratio. apply rnd32_near; [lia|lia|]. change (bpow radix2 (-32)) with (/ 4294967296). apply Rabs_def1; lra. Qed.
Lemma masked_all e i n : (0 <= e < 150)%Z -> (e * 500 <= i < (e + 1) * 500)%Z -> (i <= n - 1)%Z -> masked 10 5000 n e i.
Proof.
  intros E I N. unfold masked. rewrite ratio10. change (bpow radix2 (-32)) with (/ 4294967296).
  assert (K : forall k, IZR k / (IZR 8589935 * / 4294967296) = IZR k * (4294967296 / 8589935)) by (intros k; field). rewrite !K. split; [|split; [|exact N]].
  - apply Z.le_trans with (e * 500)%Z; [|lia]. rewrite <- (Ztrunc_IZR (e * 500)). apply Ztrunc_le. rewrite <- (rnd32_int (e * 500)) by lia. apply rnd32_le. rewrite mult_IZR. assert (0 <= IZR e) by (apply IZR_le; lia). nra.
  - assert (E1 : IZR (e + 1) = IZR e + 1) by (rewrite plus_IZR; reflexivity). assert (E0 : 0 <= IZR e <= 149) by (split; apply IZR_le; lia). assert (I1 : IZR i <= IZR e * 500 + 499) by (rewrite <- mult_IZR, <- plus_IZR; apply IZR_le; lia).
    pose proof (rnd32_err (IZR (e + 1) * (4294967296 / 8589935)) 100000 ltac:(lra)) as R. rewrite Rabs_pos_eq in R by (rewrite E1; nra). specialize (R ltac:(rewrite E1; nra)). apply Rabs_le_inv in R. rewrite E1 in *. lra.
Qed.
Lemma masked_extra : masked 10 5000 10980 1 499.
Proof.
  unfold masked. rewrite ratio10. change (bpow radix2 (-32)) with (/ 4294967296). change (1 + 1)%Z with 2%Z. split; [|split; [|lia]].
  - rewrite (rnd32_near 16383999 (-15)); [|lia|lia|]; change (bpow radix2 (-15)) with (/ 32768); [|apply Rabs_def1; lra]. apply Z.eq_le_incl. rewrite Ztrunc_floor by lra. apply Zfloor_imp. rewrite plus_IZR. lra.
  - apply Rlt_le_trans with (IZR 900); [lra|]. rewrite <- (rnd32_int 900) by (cbn; lia). apply rnd32_le. lra.
Qed.
(** ** Julian date *)
Lemma floor_div k n m : (0 < m)%Z -> Zfloor (IZR n / IZR m + IZR k) = (n / m + k)%Z.
Proof. intros M. replace (IZR n / IZR m + IZR k) with (IZR (n + k * m) / IZR m) by (rewrite plus_IZR, mult_IZR; field; apply IZR_neq; lia). rewrite Zfloor_div by lia. apply Z.div_add. lia. Qed.
Definition jy (y : Z) : Z := (1461 * (y + 4716) / 4 + (2 - y / 100 + y / 100 / 4))%Z.
Definition jm (m : Z) : Z := (306001 * (m + 1) / 10000)%Z.
Lemma julian_int y m d : (julian y m d = IZR (jy (if m <=? 2 then y - 1 else y) + jm (if m <=? 2 then m + 12 else m) + d - 1524) - 5 / 10)%R.
Proof.
  assert (K : forall y m, IZR (Zfloor (36525 / 100 * IZR (y + 4716))) + IZR (Zfloor (306001 / 10000 * IZR (m + 1))) + IZR d + IZR (2 - Zfloor (IZR y / 100) + Zfloor (IZR (Zfloor (IZR y / 100)) / 4)) - 15245 / 10 = IZR (jy y + jm m + d - 1524) - 5 / 10).
  { intros y' m'. replace (36525 / 100 * IZR (y' + 4716)) with (IZR (1461 * (y' + 4716)) / IZR 4) by (rewrite mult_IZR; field). replace (306001 / 10000 * IZR (m' + 1)) with (IZR (306001 * (m' + 1)) / IZR 10000) by (rewrite mult_IZR; field). rewrite !Zfloor_div by lia. unfold jy, jm. rewrite !minus_IZR, !plus_IZR, !minus_IZR. lra. }
  unfold julian. destruct (m <=? 2)%Z; apply K.
Qed.
Lemma step_div n y : (0 < n)%Z -> (y / n = (y - 1) / n + (if y mod n =? 0 then 1 else 0))%Z.
Proof.
  intros N. pose proof (Z.div_mod y n ltac:(lia)) as D. pose proof (Z.mod_pos_bound y n N) as B. destruct (Z.eqb_spec (y mod n) 0) as [E|E].
  - assert (K : ((y - 1) / n = y / n - 1)%Z) by (symmetry; apply (Z.div_unique _ _ _ (n - 1)); lia). lia.
  - assert (K : ((y - 1) / n = y / n)%Z) by (symmetry; apply (Z.div_unique _ _ _ (y mod n - 1)); lia). lia.
Qed.
Lemma jy_step y : (jy y = jy (y - 1) + (if leap y then 366 else 365))%Z.
Proof.
  unfold jy. replace (1461 * (y + 4716))%Z with (y + (365 * (y + 4716) + 1179) * 4)%Z by ring. replace (1461 * (y - 1 + 4716))%Z with (y - 1 + (365 * (y - 1 + 4716) + 1179) * 4)%Z by ring. rewrite !Z.div_add by lia. rewrite !Z.div_div by lia. change (100 * 4)%Z with 400%Z.
  rewrite (step_div 4 y), (step_div 100 y), (step_div 400 y) by lia. unfold leap. assert (A : (y mod 400 = 0 -> y mod 100 = 0)%Z) by (intros; lia). assert (B : (y mod 100 = 0 -> y mod 4 = 0)%Z) by (intros; lia).
  destruct (Z.eqb_spec (y mod 4) 0), (Z.eqb_spec (y mod 100) 0), (Z.eqb_spec (y mod 400) 0); cbn [andb orb negb]; lia.
Qed.
Lemma julian_next y m d : is_date y m d -> let '(y', m', d') := next_day y m d in julian y' m' d' = julian y m d + 1.
Proof.
  intros ((M1 & M2) & D). unfold next_day. destruct (Z.ltb_spec d (month_length y m)) as [L|L]; [rewrite !julian_int, !minus_IZR, !plus_IZR; lra|].
  assert (E : d = month_length y m) by lia. subst d. clear D L. pose proof (jy_step y) as J.
  assert (M : (m = 1 \/ m = 2 \/ m = 3 \/ m = 4 \/ m = 5 \/ m = 6 \/ m = 7 \/ m = 8 \/ m = 9 \/ m = 10 \/ m = 11 \/ m = 12)%Z) by lia.
  assert (K : forall a b : Z, (a = b + 1)%Z -> IZR a - 5 / 10 = IZR b - 5 / 10 + 1) by (intros a b ->; rewrite plus_IZR; lra).
  repeat (destruct M as [M|M]); subst m; cbn [Z.ltb Z.compare Pos.compare Pos.compare_cont Z.add Pos.add Pos.succ]; rewrite !julian_int; apply K; unfold month_length; cbn [Z.leb Z.eqb Pos.eqb Z.compare Pos.compare Pos.compare_cont orb]; unfold jm; cbn -[jy]; try (replace (y + 1 - 1)%Z with y by ring); try lia.
  destruct (leap y); lia.
Qed.
(** *** In floats *)
Lemma year_range y m d : (1900 <= y <= 2199)%Z -> is_date y m d -> (2400000 <= jy (if m <=? 2 then y - 1 else y) + jm (if m <=? 2 then m + 12 else m) + d - 1524 <= 2600000)%Z.
Proof.
  intros Y ((M1 & M2) & D). set (y' := (if m <=? 2 then y - 1 else y)%Z). set (m' := (if m <=? 2 then m + 12 else m)%Z).
  assert (Y' : (1899 <= y' <= 2199)%Z) by (unfold y'; destruct (m <=? 2)%Z; lia). assert (M' : (3 <= m' <= 14)%Z) by (unfold m'; destruct (Z.leb_spec m 2); lia). assert (D' : (1 <= d <= 31)%Z) by (unfold month_length in D; destruct (m =? 2)%Z, (leap y), ((m =? 4) || (m =? 6) || (m =? 9) || (m =? 11))%Z; lia). clearbody y' m'. unfold jy, jm. lia.
Qed.
Lemma julian_now_step y m d j t : (1900 <= y <= 2199)%Z -> is_date y m d -> (0 <= j <= 4)%Z -> 6 * IZR j - 299 / 100 <= t <= 6 * IZR j + 299 / 100 -> 0 <= t <= 24 -> julian_now y m d t = julian y m d + IZR j / 4.
Proof.
  intros Y D J T T0. pose proof (year_range y m d Y D) as K. unfold julian_now. rewrite julian_int. set (k := (jy (if m <=? 2 then y - 1 else y) + jm (if m <=? 2 then m + 12 else m) + d - 1524)%Z) in *. clearbody k.
  assert (E1 : rnd32 (IZR k - 5 / 10) = IZR k - 5 / 10). { replace (IZR k - 5 / 10) with (IZR (2 * k - 1) * bpow radix2 (-1)) by (change (bpow radix2 (-1)) with (/ 2); rewrite minus_IZR, mult_IZR; lra). apply rnd32_dyadic; lia. } rewrite E1.
  assert (K' : 2400000 <= IZR k <= 2600000) by (split; apply IZR_le; lia). assert (J' : 0 <= IZR j <= 4) by (split; apply IZR_le; lia).
  pose proof (rnd64_err (t / 24) 1 ltac:(lra) ltac:(apply Rabs_le; lra)) as R1. apply Rabs_le_inv in R1. set (u := rnd64 (t / 24)) in *. clearbody u.
  pose proof (rnd64_err (IZR k - 5 / 10 + u) 3000000 ltac:(lra) ltac:(apply Rabs_le; lra)) as R2. apply Rabs_le_inv in R2. set (v := rnd64 (IZR k - 5 / 10 + u)) in *. clearbody v.
  replace (IZR k - 5 / 10 + IZR j / 4) with (IZR (4 * k - 2 + j) * bpow radix2 (-2)) by (change (bpow radix2 (-2)) with (/ 4); rewrite plus_IZR, minus_IZR, mult_IZR; lra). apply rnd32_near; [lia|lia|]. change (bpow radix2 (-2)) with (/ 4). rewrite plus_IZR, minus_IZR, mult_IZR. apply Rabs_def1; lra.
Qed.
(** ** Time in GMT *)
Lemma doy_set d y h m s : (1 <= y <= 365)%Z -> let r := set_time (set_date_doy d y) h m s in doy r = y /\ hh r = h /\ mm r = m /\ ss r = s /\ year r = year d.
Proof. intros Y. pose proof (DateProofs.doy2md_correct y Y) as (V & S). unfold set_time, set_date_doy, set_date_month_day. cbn [doy hh mm ss year]. split; [|auto]. rewrite DateProofs.md2doy_correct by apply V. exact S. Qed.
Lemma trunc_bounds x : 0 <= x -> IZR (Ztrunc x) <= x < IZR (Ztrunc x) + 1 /\ (0 <= Ztrunc x)%Z.
Proof. intros X. rewrite Ztrunc_floor by exact X. pose proof (Zfloor_lb x). pose proof (Zfloor_ub x). split; [lra|]. apply Zfloor_lub. exact X. Qed.
Lemma clock g : 0 <= g <= 24 -> let h := Ztrunc g in let lm := (g - IZR h) * 60 in let m := Ztrunc lm in let s := Ztrunc ((lm - IZR m) * 60) in
  (0 <= h <= 24)%Z /\ (0 <= m <= 59)%Z /\ (0 <= s <= 59)%Z /\ 0 <= g - (IZR h + IZR m / 60 + IZR s / 3600) < / 3600.
Proof.
  intros G h lm m s. destruct (trunc_bounds g ltac:(lra)) as (H1 & H2). fold h in H1, H2. assert (LM : 0 <= lm < 60) by (unfold lm; lra). destruct (trunc_bounds lm ltac:(lra)) as (M1 & M2). fold m in M1, M2. destruct (trunc_bounds ((lm - IZR m) * 60) ltac:(lra)) as (S1 & S2). fold s in S1, S2.
  assert (P : forall z n, IZR z < IZR n -> (z <= n - 1)%Z) by (intros z n Q; apply lt_IZR in Q; lia). repeat split; auto.
  - apply (P h 25%Z). lra. - apply (P m 60%Z). lra. - apply (P s 60%Z). lra. - unfold lm in *. lra. - unfold lm in *. lra.
Qed.
Lemma gmt_ok d local lon : (1 < doy d < 365)%Z -> 0 <= local <= 24 -> -180 <= lon <= 180 -> let r := localtime2gmt d local lon in
  (0 <= hh r <= 24)%Z /\ (0 <= mm r <= 59)%Z /\ (0 <= ss r <= 59)%Z /\ year r = year d /\
  0 <= local - lon / 15 - (24 * IZR (doy r - doy d) + IZR (hh r) + IZR (mm r) / 60 + IZR (ss r) / 3600) < / 3600.
Proof.
  intros D L LON r. unfold r, localtime2gmt. set (g := local - lon / 15).
  assert (K : forall g' y, 0 <= g' <= 24 -> (1 <= y <= 365)%Z -> g = g' + 24 * IZR (y - doy d) -> let h := Ztrunc g' in let lm := (g' - IZR h) * 60 in let m := Ztrunc lm in let ls := (lm - IZR m) * 60 in let r := set_time (set_date_doy d y) h m (Ztrunc ls) in
    (0 <= hh r <= 24)%Z /\ (0 <= mm r <= 59)%Z /\ (0 <= ss r <= 59)%Z /\ year r = year d /\ 0 <= g - (24 * IZR (doy r - doy d) + IZR (hh r) + IZR (mm r) / 60 + IZR (ss r) / 3600) < / 3600).
  { intros g' y G' Y E h lm m ls. destruct (doy_set d y h m (Ztrunc ls) Y) as (E1 & E2 & E3 & E4 & E5). cbv zeta. rewrite E1, E2, E3, E4, E5. destruct (clock g' G') as (A & B & C & F). fold h in A, B, C, F. fold lm in B, C, F. fold m in B, C, F. fold ls in C, F. repeat split; try tauto; lra. }
  unfold Rlt_bool. destruct (Rcompare_spec 24 g) as [G|G|G].
  - assert (g - 24 < 13) by (unfold g; lra). destruct (Rcompare_spec (g - 24) 0); [| |]. 1:lra. 1:lra. replace (doy d + 1 >? 365)%Z with false by lia. apply K; [lra|lia|]. replace (doy d + 1 - doy d)%Z with 1%Z by ring. lra.
  - destruct (Rcompare_spec g 0); [lra|lra|]. apply K; [lra|lia|]. rewrite Z.sub_diag. lra.
  - destruct (Rcompare_spec g 0) as [G2|G2|G2]; [|apply K; [lra|lia|rewrite Z.sub_diag; lra]..]. assert (-13 < g) by (unfold g; lra). replace (doy d - 1 <? 1)%Z with false by lia. apply K; [lra|lia|]. replace (doy d - 1 - doy d)%Z with (-1)%Z by ring. lra.
Qed.
Lemma gmt_new_year d lon : doy d = 1%Z -> 150 < lon <= 180 -> let r := localtime2gmt d 10 lon in doy r = 1%Z /\ year r = year d /\
  24 <= 24 * IZR (doy r - doy d) + IZR (hh r) + IZR (mm r) / 60 + IZR (ss r) / 3600 - (10 - lon / 15) + / 3600.
Proof.
  intros D L r. unfold r, localtime2gmt. set (g := 10 - lon / 15). assert (G : -2 <= g < 0) by (unfold g; lra). clearbody g. unfold Rlt_bool. destruct (Rcompare_spec 24 g); [lra|lra|]. destruct (Rcompare_spec g 0); [|lra|lra]. rewrite D. change (1 - 1 <? 1)%Z with true. cbv iota.
  match goal with |- context [set_time (set_date_doy d 1) ?h ?m ?s] => destruct (doy_set d 1 h m s ltac:(lia)) as (E1 & E2 & E3 & E4 & E5) end. rewrite E1, E2, E3, E4, E5. split; [reflexivity|]. split; [reflexivity|]. destruct (clock (g + 24) ltac:(lra)) as (A & B & C & F). cbv zeta in F. replace (1 - 1)%Z with 0%Z by reflexivity. lra.
Qed.
(** ** Local time of the overpass *)
Lemma asin_sym x : -1 <= x <= 1 -> asin (- x) = - asin x.
Proof. intros X. apply asin_opp. Qed.
Lemma overpass_opp r i e t : overpass r i e = Some t -> overpass (- r) i e = Some (2 * e - t).
Proof.
  unfold overpass. rewrite tan_neg. replace (- tan r / tan i) with (- (tan r / tan i)) by (unfold Rdiv; ring). set (s := tan r / tan i). destruct (Rle_bool_spec (-1) s), (Rle_bool_spec s 1); cbn [andb]; try discriminate. intros E. injection E as <-.
  destruct (Rle_bool_spec (-1) (- s)); [|lra]. destruct (Rle_bool_spec (- s) 1); [|lra]. cbn [andb]. f_equal. rewrite asin_opp. unfold Rdiv. ring.
Qed.
Lemma degree_pos : 0 < degree. Proof. unfold degree. pose proof PI_RGT_0. lra. Qed.
Lemma overpass_near r i e t : overpass r i e = Some t -> Rabs (t - e) <= 6.
Proof.
  unfold overpass. set (s := tan r / tan i). destruct (Rle_bool_spec (-1) s), (Rle_bool_spec s 1); cbn [andb]; try discriminate. intros E. injection E as <-. pose proof (asin_bound s) as B. pose proof degree_pos as P.
  replace (e - asin s / degree / 15 - e) with (- (asin s / degree / 15)) by ring. rewrite Rabs_Ropp. assert (K : -90 <= asin s / degree <= 90). { replace (-90) with (- (PI / 2) / degree) by (unfold degree; field; apply PI_neq0). replace 90 with (PI / 2 / degree) by (unfold degree; field; apply PI_neq0). split; apply Rmult_le_compat_r; try (left; apply Rinv_0_lt_compat; exact P); lra. } apply Rabs_le. lra.
Qed.
Lemma tan_incl i : 90 < i < 180 -> tan (i * degree) = - tan ((180 - i) * degree) /\ 0 < tan ((180 - i) * degree).
Proof.
  intros I. pose proof degree_pos as P. assert (D : 180 * degree = PI) by (unfold degree; field). set (x := (180 - i) * degree). assert (X : 0 < x < PI / 2) by (unfold x; nra). replace (i * degree) with (PI - x) by (unfold x; nra). split; [|apply tan_gt_0; lra]. assert (C : cos x <> 0) by (apply Rgt_not_eq, cos_gt_0; lra). unfold tan. rewrite Rtrigo_facts.sin_pi_minus, Rtrigo_facts.cos_pi_minus. field. exact C.
Qed.
Lemma tan_mono x y : - (PI / 2) < x -> x <= y -> y < PI / 2 -> tan x <= tan y.
Proof. intros A [B| ->] C; [left; apply tan_increasing; lra|lra]. Qed.
Lemma overpass_def i e lat : 90 < i < 180 -> Rabs lat < 90 -> (exists t, overpass (lat * degree) (i * degree) e = Some t) <-> Rabs lat <= 180 - i.
Proof.
  intros I L. destruct (tan_incl i I) as (T1 & T2). pose proof degree_pos as P. assert (D : 90 * degree = PI / 2) by (unfold degree; field). apply Rabs_def2 in L. unfold overpass. rewrite T1. set (T := tan ((180 - i) * degree)) in *.
  assert (S : forall a, a / - T = - (a / T)) by (intros a; field; lra). rewrite S. set (s := tan (lat * degree) / T).
  assert (ST : tan (lat * degree) = s * T) by (unfold s; field; lra). split.
  - intros (t & H). destruct (Rle_bool_spec (-1) (- s)); [|discriminate]. destruct (Rle_bool_spec (- s) 1); [|discriminate]. apply Rnot_lt_le. intros N. unfold Rabs in N. destruct (Rcase_abs lat).
    + assert (T < tan (- (lat * degree))) by (apply tan_increasing; nra). rewrite tan_neg, ST in *. nra.
    + assert (T < tan (lat * degree)) by (apply tan_increasing; nra). rewrite ST in *. nra.
  - intros A. apply Rabs_le_inv in A. assert (A1 : tan (lat * degree) <= T) by (apply tan_mono; nra). assert (A2 : tan (- (lat * degree)) <= T) by (apply tan_mono; nra). rewrite tan_neg in A2. rewrite ST in *. destruct (Rle_bool_spec (-1) (- s)); [|nra]. destruct (Rle_bool_spec (- s) 1); [|nra]. cbn [andb]. eauto.
Qed.
