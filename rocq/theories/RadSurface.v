(** Proofs about the surface reflectance of a pixel. *)
From Coq Require Import Reals Lra Lia.
From Flocq Require Import Core.
From Verif Require Import Base BaseFacts QaiModel QaiSpec QaiProofs RadModel RadSpec RadProofs.
#[local] Open Scope R_scope.

(** ** Inversion of the radiative transfer *)
Lemma homogeneous_inverts at_ ref : a_T at_ <> 0 -> a_tg at_ <> 0 -> 1 - a_s at_ * ref <> 0 -> homogeneous_reflectance at_ 1 (seen at_ ref) = Some (a_brdf at_ * ref).
Proof.
  intros T G S. unfold homogeneous_reflectance, seen. destruct (Req_EM_T (a_tg at_) 0) as [E|_]; [tauto|].
  set (t := (_ - a_rho at_) / a_tg at_). assert (t = a_T at_ * ref / (1 - a_s at_ * ref)) as Et by (unfold t; field; auto).
  assert (a_T at_ + a_s at_ * t = a_T at_ / (1 - a_s at_ * ref)) as D by (rewrite Et; field; auto).
  destruct (Req_EM_T _ 0) as [E|_]; cbv zeta.
  - exfalso. rewrite D in E. apply (Rmult_integral_contrapositive_currified _ _ T (Rinv_neq_0_compat _ S)). exact E.
  - f_equal. rewrite D, Et. field. auto.
Qed.
Lemma target_inverts at_ ref bck : a_Ts at_ <> 0 -> a_tvd at_ <> 0 -> a_tg at_ <> 0 -> 1 - bck * a_s at_ <> 0 -> target_reflectance at_ 1 (seen_target at_ ref bck) bck = Some (a_brdf at_ * ref).
Proof.
  intros T V G S. unfold target_reflectance, seen_target. destruct (Req_EM_T (a_tg at_) 0) as [E|_]; [tauto|]. destruct (Req_EM_T _ 0) as [E|_].
  - exfalso. exact (Rmult_integral_contrapositive_currified _ _ T V E).
  - cbv zeta. f_equal. field. auto.
Qed.
Lemma homogeneous_sound at_ toa : passing at_ -> a_rho at_ <= toa -> exists ref, homogeneous_reflectance at_ 1 toa = Some (a_brdf at_ * ref) /\ 0 <= ref /\ a_s at_ * ref < 1 /\ seen at_ ref = toa.
Proof.
  intros P H. destruct P as [PT _ _ _ PS _ PG]. unfold homogeneous_reflectance, seen. destruct (Req_EM_T (a_tg at_) 0) as [E|_]; [lra|].
  set (t := (toa - a_rho at_) / a_tg at_). assert (0 <= t) as T0 by (apply div_ge0; lra).
  assert (0 <= a_s at_ * t) as ST by (apply Rmult_le_pos; lra). set (d := a_T at_ + a_s at_ * t). assert (0 < d) as D by (unfold d; lra).
  cbv zeta. fold d. destruct (Req_EM_T d 0) as [E|_]; [lra|]. exists (t / d). split; [f_equal; field; lra|]. split; [apply div_ge0; auto|].
  assert (1 - a_s at_ * (t / d) = a_T at_ / d) as S1 by (unfold d; field; unfold d in D; lra).
  split. { assert (0 < a_T at_ / d) by (apply Rdiv_lt_0_compat; lra). lra. }
  rewrite S1. replace (a_T at_ * (t / d) / (a_T at_ / d)) with t by (field; lra). unfold t. field. lra.
Qed.
Lemma seen_increasing at_ r1 r2 : passing at_ -> a_s at_ * r2 < 1 -> r1 < r2 -> seen at_ r1 < seen at_ r2.
Proof.
  intros P S H. destruct P as [PT _ _ _ PS _ PG]. unfold seen. apply Rplus_lt_compat_l. apply Rmult_lt_compat_l; [lra|].
  assert (a_s at_ * r1 <= a_s at_ * r2) as L by (apply Rmult_le_compat_l; lra).
  apply Rmult_lt_reg_r with ((1 - a_s at_ * r1) * (1 - a_s at_ * r2)); [apply Rmult_lt_0_compat; lra|].
  replace (a_T at_ * r1 / (1 - a_s at_ * r1) * ((1 - a_s at_ * r1) * (1 - a_s at_ * r2))) with (a_T at_ * (r1 * (1 - a_s at_ * r2))) by (field; lra).
  replace (a_T at_ * r2 / (1 - a_s at_ * r2) * ((1 - a_s at_ * r1) * (1 - a_s at_ * r2))) with (a_T at_ * (r2 * (1 - a_s at_ * r1))) by (field; lra).
  apply Rmult_lt_compat_l; lra.
Qed.
Lemma seen_injective at_ r1 r2 : passing at_ -> a_s at_ * r1 < 1 -> a_s at_ * r2 < 1 -> seen at_ r1 = seen at_ r2 -> r1 = r2.
Proof.
  intros P S1 S2 E. destruct (Rtotal_order r1 r2) as [H|[H|H]]; auto; exfalso; [pose proof (seen_increasing at_ r1 r2 P S2 H)|pose proof (seen_increasing at_ r2 r1 P S1 H)]; lra.
Qed.
(** A uniform surface: what the two branches assume of it differs unless no gas
    absorbs or there is no path reflectance. *)
Lemma branches_differ at_ ref : a_T at_ = a_Ts at_ * (a_tvd at_ + a_tvs at_) -> 1 - a_s at_ * ref <> 0 ->
  seen_target at_ ref ref - seen at_ ref = a_rho at_ * (a_tg at_ - 1).
Proof. intros T S. unfold seen, seen_target. rewrite T. field. lra. Qed.

(** ** The stored value and the flags *)
Lemma R_lt_spec x y : R_lt x y = true <-> x < y.
Proof. unfold R_lt. destruct (Rlt_dec x y); split; auto; discriminate. Qed.
Lemma set_one f w : flag_max f = 1%Z \/ flag_max f = 3%Z -> in_short w -> exists w', set_flag f w 1 = Ret w' /\ in_short w' /\ flag_value f w' = 1%Z /\ forall g, g <> f -> flag_value g w' = flag_value g w.
Proof. intros M W. destruct (set_flag_spec f w 1 W) as (w' & E & W' & V & O & _); [lia|]. exists w'. auto. Qed.
Lemma store_ok ec r q : in_short q -> exists v q', store_reflectance ec (Some r) q = Ret (v, q') /\ in_short v /\ in_short q' /\
  flag_value Subzero q' = (if R_lt r 0 then 1 else flag_value Subzero q)%Z /\
  flag_value Saturation q' = (if R_lt 1 r then 1 else flag_value Saturation q)%Z /\
  flag_value Off q' = (if negb (ec && (flag_value Cloud q =? 2)%Z) && R_lt r (-1) then 1 else flag_value Off q)%Z /\
  (forall f, f <> Subzero -> f <> Saturation -> f <> Off -> flag_value f q' = flag_value f q) /\
  v = (if (ec && (flag_value Cloud q =? 2)%Z) || R_lt r (-1) then -9999 else if R_lt 32767 (r * 10000) then 32767 else Ztrunc (r * 10000))%Z.
Proof.
  intros W. unfold store_reflectance.
  assert (exists q1, (if R_lt r 0 then set_flag Subzero q 1 else Ret q) = Ret q1 /\ in_short q1 /\ flag_value Subzero q1 = (if R_lt r 0 then 1 else flag_value Subzero q)%Z /\ forall g, g <> Subzero -> flag_value g q1 = flag_value g q) as (q1 & -> & W1 & V1 & O1).
  { destruct (R_lt r 0); [apply set_one; auto|]. exists q. auto. }
  assert (exists q2, (if R_lt 1 r then set_flag Saturation q1 1 else Ret q1) = Ret q2 /\ in_short q2 /\ flag_value Saturation q2 = (if R_lt 1 r then 1 else flag_value Saturation q1)%Z /\ forall g, g <> Saturation -> flag_value g q2 = flag_value g q1) as (q2 & E2 & W2 & V2 & O2).
  { destruct (R_lt 1 r); [apply set_one; auto|]. exists q1. auto. }
  cbn [bind]. rewrite E2. cbn [bind]. rewrite get_flag_value by auto.
  assert (flag_value Cloud q2 = flag_value Cloud q) as -> by (rewrite O2, O1; congruence).
  assert (flag_value Subzero q2 = (if R_lt r 0 then 1 else flag_value Subzero q)%Z) as SUB by (rewrite O2 by congruence; auto).
  assert (flag_value Saturation q2 = (if R_lt 1 r then 1 else flag_value Saturation q)%Z) as SAT. { rewrite V2. destruct (R_lt 1 r); auto. apply O1. congruence. }
  assert (forall f, f <> Subzero -> f <> Saturation -> flag_value f q2 = flag_value f q) as OTH. { intros f A B. rewrite O2, O1; auto. }
  destruct (ec && (flag_value Cloud q =? 2)%Z); cbn [negb andb orb].
  { exists (-9999)%Z, q2. split; [reflexivity|]. split; [unfold in_short; lia|]. split; [auto|]. split; [auto|]. split; [auto|]. split; [apply OTH; congruence|]. split; [|reflexivity]. intros; now apply OTH. }
  destruct (R_lt r (-1)) eqn:LO.
  { destruct (set_one Off q2) as (q3 & E3 & W3 & V3 & O3); auto. rewrite E3. cbn [bind]. exists (-9999)%Z, q3. split; [reflexivity|]. split; [unfold in_short; lia|]. split; [auto|]. split; [rewrite O3 by congruence; auto|]. split; [rewrite O3 by congruence; auto|]. split; [auto|]. split; [|reflexivity]. intros f A B C. rewrite O3 by auto. now apply OTH. }
  destruct (R_lt 32767 (r * 10000)) eqn:HI.
  { exists 32767%Z, q2. split; [reflexivity|]. split; [unfold in_short; lia|]. split; [auto|]. split; [auto|]. split; [auto|]. split; [apply OTH; congruence|]. split; [|reflexivity]. intros; now apply OTH. }
  exists (Ztrunc (r * 10000)), q2. split; [reflexivity|]. split.
  { assert (~ r < -1) as A by (rewrite <- R_lt_spec; congruence). assert (~ 32767 < r * 10000) as B by (rewrite <- R_lt_spec; congruence).
    assert (Ztrunc (IZR (-10000)) <= Ztrunc (r * 10000))%Z as C by (apply Ztrunc_le; lra). assert (Ztrunc (r * 10000) <= Ztrunc (IZR 32767))%Z as D by (apply Ztrunc_le; lra). rewrite Ztrunc_IZR in C, D. unfold in_short. lia. }
  split; [auto|]. split; [auto|]. split; [auto|]. split; [apply OTH; congruence|]. split; [|reflexivity]. intros; now apply OTH.
Qed.
Lemma trunc_near x : Rabs (x - IZR (Ztrunc x)) < 1 /\ Rabs (IZR (Ztrunc x)) <= Rabs x.
Proof.
  destruct (Rle_lt_dec 0 x) as [H|H].
  - rewrite Ztrunc_floor by auto. pose proof (Zfloor_lb x). pose proof (Zfloor_ub x). assert (0 <= IZR (Zfloor x)). { apply IZR_le. rewrite <- (Zfloor_IZR 0). now apply Zfloor_le. } rewrite !Rabs_pos_eq by lra. lra.
  - rewrite Ztrunc_ceil by lra. pose proof (Zceil_ub x). pose proof (Zceil_lb x). assert (IZR (Zceil x) <= 0). { apply IZR_le. rewrite <- (Zceil_IZR 0). apply Zceil_le. lra. } rewrite !Rabs_left1 by lra. lra.
Qed.

(** ** Topography *)
Lemma topo_scale E0_ at_ cf : 0 < E0_ -> 0 < a_tss at_ -> 0 < a_tsd at_ -> cf / (E0_ * a_tss at_ / (E0_ * a_tsd at_)) * (E0_ * a_tss at_ / (E0_ * a_tsd at_)) = cf.
Proof. intros A B C. field. lra. Qed.
Lemma h0_pos szen : 0 <= szen -> 0 < (PI + 2 * szen) / (2.0 * PI).
Proof. intros H. pose proof PI_RGT_0. apply Rdiv_lt_0_compat; lra. Qed.
Lemma topo_value E0_ at_ szen ill sky cf : 0 < E0_ -> 0 < a_tss at_ -> 0 < a_tsd at_ -> 0 <= szen < PI / 2 -> 0 < ill -> 0 <= sky -> 0 <= cf ->
  let h := (PI + 2 * szen) / (2.0 * PI) in topographic_factor E0_ at_ szen ill sky cf = (cos szen + cf / h) / (ill + sky * cf / h) /\ 0 < topographic_factor E0_ at_ szen ill sky cf.
Proof.
  intros A B C Z I S F. cbv zeta. pose proof PI_RGT_0. pose proof (h0_pos szen ltac:(lra)) as H0. assert (0 < cos szen) as MS by (apply cos_gt_0; lra).
  unfold topographic_factor. destruct (Rlt_dec 0 ill) as [_|N]; [|lra]. cbv zeta. rewrite (topo_scale E0_ at_ cf) by auto. replace (sky * cf / (E0_ * a_tss at_ / (E0_ * a_tsd at_)) * (E0_ * a_tss at_ / (E0_ * a_tsd at_))) with (sky * cf) by (field; lra).
  set (h := (PI + 2 * szen) / (2.0 * PI)) in *. assert (0 <= cf / h) by (apply div_ge0; auto). assert (0 <= sky * cf / h) by (apply div_ge0; auto; now apply Rmult_le_pos).
  assert (0 < (cos szen + cf / h) / (ill + sky * cf / h)) by (apply Rdiv_lt_0_compat; lra). destruct (Rlt_dec _ 0); lra.
Qed.
(** Slopes facing away from the sun are brightened, slopes facing it darkened. *)
Lemma topo_monotone E0_ at_ szen i1 i2 sky cf : 0 < E0_ -> 0 < a_tss at_ -> 0 < a_tsd at_ -> 0 <= szen < PI / 2 -> 0 < i1 <= i2 -> 0 <= sky -> 0 <= cf ->
  topographic_factor E0_ at_ szen i2 sky cf <= topographic_factor E0_ at_ szen i1 sky cf.
Proof.
  intros A B C Z I S F. destruct (topo_value E0_ at_ szen i1 sky cf) as (-> & _); try lra. destruct (topo_value E0_ at_ szen i2 sky cf) as (-> & _); try lra.
  pose proof PI_RGT_0. pose proof (h0_pos szen ltac:(lra)) as H0. assert (0 < cos szen) as MS by (apply cos_gt_0; lra). set (h := (PI + 2 * szen) / (2.0 * PI)) in *. assert (0 <= cf / h) by (apply div_ge0; auto). assert (0 <= sky * cf / h) by (apply div_ge0; auto; now apply Rmult_le_pos).
  apply Rmult_le_compat_l; [lra|]. apply Rinv_le_contravar; lra.
Qed.

Lemma iff_flag (b : bool) (P : Prop) (x y : Z) : (b = true <-> P) -> y = (if b then 1 else x)%Z -> (y = 1%Z <-> P \/ x = 1%Z).
Proof. intros H ->. destruct b; split; intros K; auto; [left; now apply H|]. destruct K as [K|K]; auto. apply H in K. discriminate. Qed.
Lemma store_spec ec r q : in_short q -> exists v q', store_reflectance ec (Some r) q = Ret (v, q') /\ in_short v /\ in_short q' /\ stored_as ec r q v q'.
Proof.
  intros W. destruct (store_ok ec r q W) as (v & q' & E & V & Q & SUB & SAT & OFF & OTH & VAL). exists v, q'. split; [exact E|]. split; auto. split; auto.
  assert (ec = false \/ flag_value Cloud q <> 2%Z -> ec && (flag_value Cloud q =? 2)%Z = false) as K. { intros [->|N]; auto. apply Z.eqb_neq in N. rewrite N. apply andb_false_r. }
  constructor.
  - intros -> C. rewrite C in VAL. exact VAL.
  - intros L. apply R_lt_spec in L. rewrite L, orb_true_r in VAL. exact VAL.
  - intros N H. rewrite (K N) in VAL. cbn [orb] in VAL. destruct (R_lt r (-1)) eqn:L; [apply R_lt_spec in L; lra|]. apply R_lt_spec in H. now rewrite H in VAL.
  - intros N L H. rewrite (K N) in VAL. cbn [orb] in VAL. destruct (R_lt r (-1)) eqn:L'; [apply R_lt_spec in L'; lra|]. destruct (R_lt 32767 (r * 10000)) eqn:H'; [apply R_lt_spec in H'; lra|]. rewrite VAL. apply trunc_near.
  - eapply iff_flag; [|exact SUB]. apply R_lt_spec.
  - eapply iff_flag; [|exact SAT]. apply R_lt_spec.
  - eapply iff_flag; [|exact OFF]. rewrite andb_true_iff, negb_true_iff, R_lt_spec. split.
    + intros (A & B). split; auto. destruct ec; auto. right. intros C. rewrite C in A. discriminate.
    + intros (A & B). auto.
  - exact OTH.
Qed.
