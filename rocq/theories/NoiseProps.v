(** Noise screening of a time series (C32, C46). *)
From Coq Require Import Lia.
From Flocq Require Import Core IEEE754.BinarySingleNaN.
From Verif Require Import Base BaseFacts Loops Float FloatSign NoiseModel NoiseSpec NoiseProofs.
#[local] Open Scope Z_scope.

(** A series as the reader produces it: as many values and days as mask entries,
    16 bit values, days in order; ABOVE_NOISE and BELOW_NOISE are not negative. *)
Definition series (msk : list bool) (dat ce : list Z) : Prop :=
  zlen dat = zlen msk /\ zlen ce = zlen msk /\ Forall in_short dat /\ nondecreasing ce.

(** Short series: nothing happens. *)
Lemma short_series fuel above below nodata masked msk dat ce : zlen msk < 3 ->
  screen_noise fuel above below nodata masked msk dat ce = Some (Ret msk).
Proof.
  intros H. unfold screen_noise. destruct (_ && _); [reflexivity|]. destruct (Z.ltb_spec (zlen msk) 3); [reflexivity|lia].
Qed.

(** C32: for every series and all thresholds the filter ends within one round per
    observation, without touching memory outside the series.  If it drops
    anything, at least three clear observations are left. *)
Theorem C32_terminates_partial fuel above below nodata masked msk dat ce :
  series msk dat ce -> flt above zero32 = false -> zlen msk < Z.of_nat fuel ->
  exists m, screen_noise fuel above below nodata masked msk dat ce = Some (Ret m) /\ zlen m = zlen msk /\
    (subset msk m \/ 3 <= nclear m).
Proof.
  intros (A & B & C & D) HA HF. destruct (Z_lt_ge_dec (zlen msk) 3) as [S|S].
  - exists msk. rewrite short_series by lia. split; [reflexivity|]. split; [reflexivity|]. left; apply subset_refl.
  - destruct (screen_ok dat ce (zlen msk) above A B C D ltac:(lia) HA fuel below nodata masked msk eq_refl HF)
      as (m & E & L & X & _). exists m. auto.
Qed.

(** C32: with BELOW_NOISE = 0 the filter never makes an observation clear. *)
Theorem C32_only_removes_partial fuel above below nodata masked msk dat ce m :
  series msk dat ce -> flt above zero32 = false -> feq below zero32 = true -> zlen msk < Z.of_nat fuel ->
  screen_noise fuel above below nodata masked msk dat ce = Some (Ret m) -> subset m msk.
Proof.
  intros (A & B & C & D) HA HB HF E. destruct (Z_lt_ge_dec (zlen msk) 3) as [S|S].
  - rewrite short_series in E by lia. injection E as <-. apply subset_refl.
  - destruct (screen_ok dat ce (zlen msk) above A B C D ltac:(lia) HA fuel below nodata masked msk eq_refl HF)
      as (m' & E' & _ & _ & _ & _ & X). rewrite E in E'. injection E' as <-.
    intros t Ct. destruct (get_at msk t) as [[|]|] eqn:G; [exact G| |].
    + rewrite (X t Ct) in HB; [discriminate|]. unfold clear. rewrite G. discriminate.
    + rewrite (X t Ct) in HB; [discriminate|]. unfold clear. rewrite G. discriminate.
Qed.

(** C32: every dropped observation belongs to a triplet of neighbouring clear
    observations (of a mask reached on the way, with at least four of them)
    whose middle does not lie on the interpolation. *)
Theorem C32_removed_partial fuel above below nodata masked msk dat ce m t :
  series msk dat ce -> flt above zero32 = false -> zlen msk < Z.of_nat fuel ->
  screen_noise fuel above below nodata masked msk dat ce = Some (Ret m) ->
  clear msk t -> ~ clear m t ->
  exists stage l mid r y, subset stage msk /\ 4 <= nclear stage /\ bracket stage l mid r /\ clear stage mid /\
    (t = l \/ t = mid \/ t = r) /\ residual dat ce l mid r = Ret y /\ y <> zero32.
Proof.
  intros (A & B & C & D) HA HF E Ct Nt. destruct (Z_lt_ge_dec (zlen msk) 3) as [S|S].
  - rewrite short_series in E by lia. injection E as <-. contradiction.
  - destruct (screen_ok dat ce (zlen msk) above A B C D ltac:(lia) HA fuel below nodata masked msk eq_refl HF)
      as (m' & E' & _ & _ & X & _). rewrite E in E'. injection E' as <-.
    destruct (X t Ct) as [|(m1 & y & P1 & (l & mid & r & Q1 & Q2 & Q3 & Q4) & P3 & P4)]; [contradiction|].
    exists m1, l, mid, r, y. auto 10.
Qed.

(** C32: an observation that becomes clear has a value, lies between two clear
    neighbours, and its residual is below BELOW_NOISE times the noise. *)
Theorem C32_restored_partial fuel above below nodata masked msk dat ce m t :
  series msk dat ce -> flt above zero32 = false -> zlen msk < Z.of_nat fuel ->
  screen_noise fuel above below nodata masked msk dat ce = Some (Ret m) ->
  clear m t -> ~ clear msk t ->
  feq below zero32 = false /\ (exists v, get_at dat t = Some v /\ v <> nodata) /\
  exists stage noise l r y, bracket stage l t r /\ residual dat ce l t r = Ret y /\ plus_sign noise /\
    flt (f32_div y noise) below = true.
Proof.
  intros (A & B & C & D) HA HF E Ct Nt. destruct (Z_lt_ge_dec (zlen msk) 3) as [S|S].
  - rewrite short_series in E by lia. injection E as <-. contradiction.
  - destruct (screen_ok dat ce (zlen msk) above A B C D ltac:(lia) HA fuel below nodata masked msk eq_refl HF)
      as (m' & E' & _ & _ & _ & X & Y). rewrite E in E'. injection E' as <-.
    split; [exact (Y t Ct Nt)|]. destruct (X t Ct) as [|(nz & r0 & m0 & PS & R1 & R2 & m1 & l & r & y & S1 & S2 & S3 & S4)]; [contradiction|].
    split; [exact R2|]. exists m1, nz, l, r, y. auto.
Qed.

(** C32: with BELOW_NOISE = 0 a second run changes nothing. *)
Theorem C32_idempotent fuel above below nodata masked msk dat ce m m' :
  series msk dat ce -> flt above zero32 = false -> feq below zero32 = true -> zlen msk < Z.of_nat fuel ->
  screen_noise fuel above below nodata masked msk dat ce = Some (Ret m) ->
  screen_noise fuel above below nodata masked m dat ce = Some (Ret m') -> m' = m.
Proof.
  intros (A & B & C & D) HA HB HF E E'. destruct (Z_lt_ge_dec (zlen msk) 3) as [S|S].
  - rewrite short_series in E by lia. injection E as <-. rewrite short_series in E' by lia. congruence.
  - exact (screen_idempotent dat ce (zlen msk) above A B C D ltac:(lia) HA fuel below nodata masked msk m m' eq_refl HF HB E E').
Qed.

Definition T := true.
Definition F := false.
Lemma short_list l : forallb in_shortb l = true -> Forall in_short l.
Proof. intros H. apply Forall_forall. intros x Hx. apply in_shortb_spec. exact (proj1 (forallb_forall _ _) H x Hx). Qed.
Fixpoint sortedb (l : list Z) : bool :=
  match l with a :: ((b :: _) as r) => (a <=? b) && sortedb r | _ => true end.
Lemma sortedb_spec : forall l, sortedb l = true -> nondecreasing l.
Proof.
  assert (G : forall l a x i, sortedb (a :: l) = true -> get_at (a :: l) i = Some x -> a <= x).
  { induction l as [|b l IH]; intros a x i H E.
    - pose proof (get_at_inv _ _ _ E) as R. replace i with 0 in E by (unfold zlen in R; cbn in R; lia). cbv in E. injection E as <-. lia.
    - cbn [sortedb] in H. apply andb_prop in H. destruct H as (H1 & H2). apply Z.leb_le in H1.
      destruct (Z.eq_dec i 0) as [->|N]; [cbv in E; injection E as <-; lia|].
      pose proof (get_at_inv _ _ _ E) as R. rewrite <- (Z2Nat.id i) in E by lia. rewrite get_at_nat in E.
      replace (Z.to_nat i) with (S (Z.to_nat (i - 1))) in E by lia. cbn [nth_error] in E. rewrite <- get_at_nat in E.
      specialize (IH b x _ H2 E). lia. }
  induction l as [|a l IH]; intros H i j x y Hij Ei Ej.
  - pose proof (get_at_inv _ _ _ Ei) as R. unfold zlen in R. cbn [length] in R. lia.
  - destruct (Z.eq_dec i 0) as [->|N].
    + cbv in Ei. injection Ei as <-. exact (G l a y j H Ej).
    + assert (H' : sortedb l = true) by (destruct l; [reflexivity|]; cbn [sortedb] in H; apply andb_prop in H; tauto).
      pose proof (get_at_inv _ _ _ Ei). pose proof (get_at_inv _ _ _ Ej).
      apply (IH H' (i - 1) (j - 1) x y); try lia.
      * rewrite <- (Z2Nat.id i) in Ei by lia. rewrite get_at_nat in Ei. replace (Z.to_nat i) with (S (Z.to_nat (i - 1))) in Ei by lia.
        cbn [nth_error] in Ei. rewrite <- get_at_nat, Z2Nat.id in Ei by lia. exact Ei.
      * rewrite <- (Z2Nat.id j) in Ej by lia. rewrite get_at_nat in Ej. replace (Z.to_nat j) with (S (Z.to_nat (j - 1))) in Ej by lia.
        cbn [nth_error] in Ej. rewrite <- get_at_nat, Z2Nat.id in Ej by lia. exact Ej.
Qed.
Lemma series_check msk dat ce : zlen dat = zlen msk -> zlen ce = zlen msk -> forallb in_shortb dat = true -> sortedb ce = true ->
  series msk dat ce.
Proof. intros. split; [auto|]. split; [auto|]. split; [now apply short_list|now apply sortedb_spec]. Qed.

(** A series with one outlier: the outlier is dropped, a screened value restored. *)
Example C32_example :
  let msk := [T; T; T; F; T; T; T; T] in
  let dat := [500; 510; 500; 505; 510; 9000; 500; 510] in
  let ce := [0; 2; 4; 5; 6; 8; 10; 12] in
  let above := f32_div (f32_of_Z 3) (f32_of_Z 2) in
  series msk dat ce /\ flt above zero32 = false /\
  screen_noise 9 above (f32_of_Z 1) (-9999) false msk dat ce = Some (Ret [T; T; T; T; T; F; T; T]).
Proof. split; [apply series_check; reflexivity|]. split; vm_compute; reflexivity. Qed.

(** C32 is refuted: with BELOW_NOISE > 0 an observation removed by QAI screening
    comes back. *)
Theorem C32_unmask_refuted : exists above below nodata msk dat ce m t,
  series msk dat ce /\ flt above zero32 = false /\
  screen_noise 9 above below nodata false msk dat ce = Some (Ret m) /\ get_at msk t = Some false /\ clear m t.
Proof.
  exists (f32_of_Z 3), (f32_of_Z 1), (-9999), [T; T; F; T; T; T], [500; 510; 505; 505; 500; 500], [0; 2; 3; 4; 5; 6], [T; T; T; T; T; T], 2.
  split; [apply series_check; reflexivity|]. split; [vm_compute; reflexivity|]. split; [vm_compute; reflexivity|].
  split; vm_compute; reflexivity.
Qed.

(** C32 is refuted: the first clear observation can be dropped. *)
Theorem C32_outermost_refuted : exists above below nodata msk dat ce m,
  series msk dat ce /\ flt above zero32 = false /\
  screen_noise 9 above below nodata false msk dat ce = Some (Ret m) /\ clear msk 0 /\ ~ clear m 0.
Proof.
  exists (f32_div (f32_of_Z 3) (f32_of_Z 2)), (f32_of_Z 0), (-9999), [T; T; T; T; T; T], [9000; 500; 500; 500; 500; 500],
    [0; 2; 4; 6; 8; 10], [F; T; T; T; T; T].
  split; [apply series_check; reflexivity|]. split; [vm_compute; reflexivity|]. split; [vm_compute; reflexivity|].
  split; [reflexivity|discriminate].
Qed.

(** C46: a series on a straight line whose slope is a whole number per day, with
    no two observations on the same day, loses nothing. *)
Theorem C46_line_partial fuel above below nodata masked msk dat ce slope offset m :
  series msk dat ce -> increasing ce -> on_line slope offset dat ce ->
  flt above zero32 = false -> zlen msk < Z.of_nat fuel ->
  screen_noise fuel above below nodata masked msk dat ce = Some (Ret m) -> subset msk m.
Proof.
  intros HS HI HL HA HF E t Ct. destruct (get_at m t) as [[|]|] eqn:G; [exact G| |]; exfalso;
    (destruct (C32_removed_partial _ _ _ _ _ _ _ _ _ t HS HA HF E Ct) as (st & l & mid & r & y & S1 & S2 & S3 & S4 & S5 & S6 & S7);
     [unfold clear; rewrite G; discriminate|]; apply S7; clear S7;
     unfold residual in S6;
     destruct (get_at dat l) as [yl|] eqn:Yl; [|discriminate S6]; destruct (get_at dat mid) as [ym|] eqn:Ym; [|discriminate S6];
     destruct (get_at dat r) as [yr|] eqn:Yr; [|discriminate S6];
     destruct (get_at ce l) as [cl|] eqn:Cl; [|discriminate S6]; destruct (get_at ce mid) as [cm|] eqn:Cm; [|discriminate S6];
     destruct (get_at ce r) as [cr|] eqn:Cr; [|discriminate S6]; cbn [of_option bind] in S6;
     destruct S3 as (_ & _ & S3 & _);
     pose proof (HI l r cl cr ltac:(lia) Cl Cr);
     destruct (Z.eqb_spec cr cl) as [Q|Q]; [lia|];
     rewrite (HL _ _ _ Yl Cl), (HL _ _ _ Ym Cm), (HL _ _ _ Yr Cr) in S6;
     replace (slope * cr + offset - (slope * cl + offset)) with (slope * (cr - cl)) in S6 by ring;
     rewrite Z.quot_mul in S6 by lia; unfold chk_int in S6; destruct (in_intb _); [|discriminate S6]; cbn [bind] in S6;
     replace (slope * cm + offset - slope * (cm - cl) - (slope * cl + offset)) with 0 in S6 by ring;
     apply Ret_inj in S6; symmetry; exact S6).
Qed.

Example C46_example :
  let msk := [T; T; T; T] in let ce := [0; 3; 4; 9] in let dat := [100; 94; 92; 82] in
  series msk dat ce /\ increasing ce /\ on_line (-2) 100 dat ce.
Proof.
  split; [apply series_check; reflexivity|]. split.
  - intros i j a b H A B. pose proof (get_at_inv _ _ _ A) as R1. pose proof (get_at_inv _ _ _ B) as R2. change (zlen [0; 3; 4; 9]) with 4 in *.
    assert (I : i = 0 \/ i = 1 \/ i = 2 \/ i = 3) by lia. assert (J : j = 0 \/ j = 1 \/ j = 2 \/ j = 3) by lia.
    destruct I as [->|[->|[->| ->]]]; destruct J as [->|[->|[->| ->]]]; cbv in A, B; injection A as <-; injection B as <-; lia.
  - intros i a b A B. pose proof (get_at_inv _ _ _ A) as R1. change (zlen [100; 94; 92; 82]) with 4 in *.
    assert (I : i = 0 \/ i = 1 \/ i = 2 \/ i = 3) by lia.
    destruct I as [->|[->|[->| ->]]]; cbv in A, B; injection A as <-; injection B as <-; lia.
Qed.

(** C46 is refuted for other slopes: the slope is an integer quotient.  These six
    observations lie on  value = day / 2. *)
Theorem C46_line_refuted : exists msk dat ce m,
  series msk dat ce /\ (forall i y c, get_at dat i = Some y -> get_at ce i = Some c -> 2 * y = c) /\
  screen_noise 9 (f32_of_Z 1) (f32_of_Z 0) (-9999) false msk dat ce = Some (Ret m) /\ ~ subset msk m.
Proof.
  exists [T; T; T; T; T; T], [0; 1; 2; 3; 53; 54], [0; 2; 4; 6; 106; 108], [T; T; T; T; T; F].
  split; [apply series_check; reflexivity|]. split.
  - intros i y c A B. pose proof (get_at_inv _ _ _ A) as R1. change (zlen [0; 1; 2; 3; 53; 54]) with 6 in *.
    assert (I : i = 0 \/ i = 1 \/ i = 2 \/ i = 3 \/ i = 4 \/ i = 5) by lia.
    destruct I as [->|[->|[->|[->|[->| ->]]]]]; cbv in A, B; injection A as <-; injection B as <-; lia.
  - split; [vm_compute; reflexivity|]. intros S. specialize (S 5 eq_refl). discriminate S.
Qed.

(** C46 is refuted: in a constant series with three observations on one day, one
    of them is dropped, because their residual is taken from (right - left) / 2. *)
Theorem C46_constant_refuted : exists msk dat ce m,
  series msk dat ce /\ Forall (eq 500) dat /\
  screen_noise 9 (f32_div (f32_of_Z 3) (f32_of_Z 2)) (f32_of_Z 0) (-9999) false msk dat ce = Some (Ret m) /\ ~ subset msk m.
Proof.
  exists [T; T; T; T; T; T], [500; 500; 500; 500; 500; 500], [0; 2; 2; 2; 3; 4], [T; T; F; T; T; T].
  split; [apply series_check; reflexivity|]. split; [repeat constructor|].
  split; [vm_compute; reflexivity|]. intros S. specialize (S 2 eq_refl). discriminate S.
Qed.

Print Assumptions C32_terminates_partial.
Print Assumptions C32_only_removes_partial.
Print Assumptions C32_removed_partial.
Print Assumptions C32_restored_partial.
Print Assumptions C32_idempotent.
Print Assumptions C32_unmask_refuted.
Print Assumptions C32_outermost_refuted.
Print Assumptions C46_line_partial.
Print Assumptions C46_line_refuted.
Print Assumptions C46_constant_refuted.

(** The result does not depend on the fuel. *)
Lemma loop_fuel dat ce above : forall f f' msk removed rel noise n r r',
  screen_loop f dat ce above msk removed rel noise n = Some r ->
  screen_loop f' dat ce above msk removed rel noise n = Some r' -> r = r'.
Proof.
  induction f as [|f IH]; intros f' msk removed rel noise n r r' E E'.
  - cbn [screen_loop] in E. destruct f'; cbn [screen_loop] in E'; destruct (negb _); congruence.
  - destruct f' as [|f'].
    + cbn [screen_loop] in E'. cbn [screen_loop] in E. destruct (negb _); congruence.
    + cbn [screen_loop] in E, E'. destruct (negb _); [congruence|].
      destruct (ofold _ _ _) as [w| |]; [|congruence|congruence].
      destruct (w_n w <? 2); [eapply IH; eassumption|].
      destruct (flt above _); [|eapply IH; eassumption].
      destruct (set_at msk _ _); [|congruence]. destruct (set_at removed _ _); [|congruence]. eapply IH; eassumption.
Qed.
Lemma screen_fuel f f' above below nodata masked msk dat ce r r' :
  screen_noise f above below nodata masked msk dat ce = Some r ->
  screen_noise f' above below nodata masked msk dat ce = Some r' -> r = r'.
Proof.
  unfold screen_noise. destruct (_ && _); [congruence|]. destruct (_ <? _); [congruence|]. destruct masked; [congruence|].
  destruct (screen_loop f _ _ _ _ _ _ _ _) as [o|] eqn:A; [|discriminate].
  destruct (screen_loop f' _ _ _ _ _ _ _ _) as [o'|] eqn:B; [|discriminate].
  pose proof (loop_fuel _ _ _ _ _ _ _ _ _ _ _ _ A B) as <-. destruct o as [((m & rm) & nz)| |]; congruence.
Qed.

(** C71: without restoring (BELOW_NOISE = 0) the filter ends, only removes observations,
    and removes nothing more when applied again. *)
Theorem C71_filter_without_restoring above below nodata masked msk dat ce :
  series msk dat ce -> flt above zero32 = false -> feq below zero32 = true ->
  exists m, (forall fuel, zlen msk < Z.of_nat fuel ->
      screen_noise fuel above below nodata masked msk dat ce = Some (Ret m) /\
      screen_noise fuel above below nodata masked m dat ce = Some (Ret m)) /\
    zlen m = zlen msk /\ subset m msk /\ (subset msk m \/ 3 <= nclear m).
Proof.
  intros S A B.
  destruct (C32_terminates_partial (Z.to_nat (zlen msk + 1)) above below nodata masked msk dat ce S A) as (m & E & L & Q); [unfold zlen in *; lia|].
  exists m.
  assert (subset m msk) as R by (apply (C32_only_removes_partial _ above below nodata masked msk dat ce m S A B) in E; [exact E|unfold zlen in *; lia]).
  split; [|auto]. intros fuel F.
  assert (screen_noise fuel above below nodata masked msk dat ce = Some (Ret m)) as E1.
  { destruct (C32_terminates_partial fuel above below nodata masked msk dat ce S A F) as (m1 & E1 & L1 & Q1).
    rewrite E1. f_equal. eapply screen_fuel; eassumption. }
  split; [exact E1|].
  assert (series m dat ce) as S' by (destruct S as (S1 & S2 & S3 & S4); split; [congruence|split; [congruence|auto]]).
  destruct (C32_terminates_partial fuel above below nodata masked m dat ce S' A ltac:(lia)) as (m2 & E2 & _).
  rewrite E2. f_equal. f_equal. exact (C32_idempotent fuel above below nodata masked msk dat ce m m2 S A B F E1 E2).
Qed.
Print Assumptions C71_filter_without_restoring.

Example C71_example :
  let msk := [T; T; T; F; T; T; T; T] in let dat := [500; 510; 500; 505; 510; 9000; 500; 510] in
  let ce := [0; 2; 4; 5; 6; 8; 10; 12] in let above := f32_div (f32_of_Z 3) (f32_of_Z 2) in
  series msk dat ce /\ flt above zero32 = false /\ feq zero32 zero32 = true /\
  screen_noise 9 above zero32 (-9999) false msk dat ce = Some (Ret [T; T; T; F; T; F; T; T]).
Proof. split; [apply series_check; reflexivity|]. repeat split; vm_compute; reflexivity. Qed.
