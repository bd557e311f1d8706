(** Principal components: claim C140. *)
From Coq Require Import Reals Lra Lia ZifyBool.
From Flocq Require Import Core.
From Verif Require Import Base PcaModel PcaSpec PcaProofs.
#[local] Open Scope R_scope.

(** Pixels that are masked or lack a band have no components, all others have. *)
Theorem C140_missing : forall i evec b p, component i evec b p <> None <-> usable i p.
Proof. intros i evec b p. unfold component. rewrite <- missing_spec. destruct (missing i p); intuition congruence. Qed.
(** The number of components is the smallest whose eigenvalues hold more than the requested share of the variance. *)
Theorem C140_count : forall i eval minvar, (0 < p_nb i)%nat -> 0 <= minvar -> (forall k, (k < p_nb i)%nat -> 0 <= eval k) -> let total := sum (p_nb i) eval in let k := numcomp i eval minvar in
  (1 <= k <= p_nb i)%nat /\ (1 <= minvar -> k = p_nb i) /\
  (minvar < 1 -> 0 < total -> minvar < sum k eval / total /\ forall m, (m < k)%nat -> sum m eval / total <= minvar).
Proof.
  intros i eval minvar N M0 E total k. unfold k, numcomp. destruct (Rlt_bool_spec minvar 1) as [L|L]; [|split; [lia|]; split; [auto|lra]]. fold total.
  assert (T0 : 0 <= total) by (apply sum_nonneg; auto). destruct (Req_bool_spec total 0) as [Z|Z]; [split; [lia|]; split; [lra|lra]|].
  destruct (keep_ok eval total minvar (p_nb i) 0 0) as (m & K1 & K2 & K3 & K4); auto.
  - cbn [Nat.add]. rewrite Rplus_0_l. change (sum (p_nb i) (fun k => eval k)) with total. replace (total / total) with 1 by (field; auto). auto.
  - rewrite K2. cbn [Nat.add] in *. split; [lia|]. split; [lra|]. intros _ _. rewrite Rplus_0_l in K3. split; [exact K3|]. intros [|q] Q; [cbn [sum]; unfold Rdiv; rewrite Rmult_0_l; auto|]. specialize (K4 q ltac:(lia)). rewrite Rplus_0_l in K4. exact K4.
Qed.
(** All components together keep the distances between pixels, fewer components never enlarge them. *)
Theorem C140_distance : forall i eval evec p q k, eigen (p_nb i) (covm i) eval evec -> usable i p -> usable i q -> (k <= p_nb i)%nat ->
  let gap b := value (component i evec b p) - value (component i evec b q) in let dist := sum (p_nb i) (fun j => IZR (p_dat i j p - p_dat i j q) * IZR (p_dat i j p - p_dat i j q)) in
  sum (p_nb i) (fun b => gap b * gap b) = dist /\ sum k (fun b => gap b * gap b) <= dist.
Proof.
  intros i eval evec p q k E P Q K gap dist. assert (G : sum (p_nb i) (fun b => gap b * gap b) = dist).
  { apply missing_spec in P, Q. unfold dist. rewrite (sum_ext (p_nb i) (fun b => gap b * gap b) (fun b => sum (p_nb i) (fun j => IZR (p_dat i j p - p_dat i j q) * evec b j) * sum (p_nb i) (fun j => IZR (p_dat i j p - p_dat i j q) * evec b j))).
    - apply isometry. apply (e_unit _ _ _ _ E).
    - intros b B. assert (gap b = sum (p_nb i) (fun j => IZR (p_dat i j p - p_dat i j q) * evec b j)) as ->; auto. unfold gap, component. rewrite P, Q. cbn [value].
      symmetry. rewrite (sum_ext _ _ (fun j => centred i p j * evec b j + (-1) * (centred i q j * evec b j))); [rewrite sum_plus, sum_scal; ring|]. intros j J. rewrite minus_IZR. unfold centred. ring. }
  split; auto. rewrite <- G. apply sum_le_more; auto. intros b B. apply Rle_0_sqr.
Qed.
(** If no pixel inside the mask lacks a band, every component has mean 0 over the valid pixels. *)
Lemma count_nk i good : marks i good -> count i good = INR (nk i).
Proof.
  intros M. unfold count, over, nk. assert (forall n, (n <= p_nc i)%nat -> sum n (fun p => if good p then 1 else 0) = INR (length (filter (fun p => negb (missing i p)) (seq 0 n)))) as A; [|apply A; lia].
  induction n as [|n IH]; intros L; [reflexivity|]. cbn [sum]. rewrite seq_S, filter_app, app_length, plus_INR, IH by lia. cbn [Nat.add filter]. f_equal.
  pose proof (M n ltac:(lia)) as Q. rewrite <- missing_spec in Q. destruct (good n), (missing i n); cbn; intuition congruence.
Qed.
Theorem C140_centred_partial : forall i evec good b, marks i good -> 0 < count i good -> (forall p, (p < p_nc i)%nat -> (forall m, p_msk i = Some m -> m p = true) -> usable i p) ->
  average i good (fun p => value (component i evec b p)) = 0.
Proof.
  intros i evec good b M C W. unfold average. assert (over i good (fun p => value (component i evec b p)) = 0) as ->; [|unfold Rdiv; lra]. unfold over.
  rewrite (sum_ext _ _ (fun p => sum (p_nb i) (fun j => (if good p then centred i p j else 0) * evec b j))).
  - rewrite sum_swap. rewrite (sum_ext _ _ (fun _ => 0)); [apply sum_0|]. intros j J. rewrite sum_scal_r.
    assert (sum (p_nc i) (fun p => if good p then centred i p j else 0) = 0) as ->; [|lra].
    rewrite (sum_ext _ _ (fun p => (if masked i p || lacks i p j then 0 else IZR (p_dat i j p)) + (- mean i j) * (if good p then 1 else 0))).
    + rewrite sum_plus, sum_scal. change (sum (p_nc i) (fun p => if good p then 1 else 0)) with (count i good). rewrite (count_nk i good M) in *. unfold mean. field. lra.
    + intros p P. pose proof (M p P) as Q. destruct (good p) eqn:G.
      * destruct (proj1 Q eq_refl) as (A & B). assert (masked i p = false) as ->. { unfold masked. destruct (p_msk i) as [m|]; auto. rewrite (A m); auto. } assert (lacks i p j = false) as -> by (unfold lacks; specialize (B j J); lia). unfold centred. cbn. lra.
      * assert (masked i p = true) as ->; [|cbn; lra]. unfold masked. destruct (p_msk i) as [m|] eqn:E.
        { destruct (m p) eqn:MP; auto. exfalso. assert (usable i p) as U by (apply W; auto; intros m' H; congruence). apply Q in U. congruence. }
        { exfalso. assert (usable i p) as U by (apply W; auto; intros m' H; congruence). apply Q in U. congruence. }
  - intros p P. pose proof (M p P) as Q. rewrite <- missing_spec in Q. unfold component. destruct (good p).
    + rewrite (proj1 Q eq_refl). reflexivity.
    + rewrite (sum_ext _ _ (fun _ => 0)); [rewrite sum_0; reflexivity|]. intros; lra.
Qed.
(** The components together have the variance of the bands. *)
Theorem C140_total : forall i eval evec good, eigen (p_nb i) (covm i) eval evec -> marks i good -> 1 < count i good -> (forall p, (p < p_nc i)%nat -> (forall m, p_msk i = Some m -> m p = true) -> usable i p) ->
  sum (p_nb i) (fun b => variance i good (fun p => value (component i evec b p))) = sum (p_nb i) (fun b => variance i good (fun p => IZR (p_dat i b p))).
Proof.
  intros i eval evec good E M C W. assert (ME : forall j, (j < p_nb i)%nat -> average i good (fun p => IZR (p_dat i j p)) = mean i j).
  { intros j J. unfold average, mean. rewrite (count_nk i good M). f_equal. apply sum_ext. intros p P. pose proof (M p P) as Q. destruct (good p) eqn:G.
    - destruct (proj1 Q eq_refl) as (A & B). assert (masked i p = false) as ->. { unfold masked. destruct (p_msk i) as [m|]; auto. rewrite (A m); auto. } assert (lacks i p j = false) as -> by (unfold lacks; specialize (B j J); lia). reflexivity.
    - assert (masked i p = true) as ->; auto. unfold masked. destruct (p_msk i) as [m|] eqn:EM.
      + destruct (m p) eqn:MP; auto. exfalso. assert (usable i p) as U by (apply W; auto; intros m' H; congruence). apply Q in U. congruence.
      + exfalso. assert (usable i p) as U by (apply W; auto; intros m' H; congruence). apply Q in U. congruence. }
  assert (forall f, sum (p_nb i) (fun b => over i good (f b) / (count i good - 1)) = sum (p_nc i) (fun p => if good p then sum (p_nb i) (fun b => f b p) else 0) / (count i good - 1)) as T.
  { intros f. unfold Rdiv. rewrite sum_scal_r. f_equal. unfold over. rewrite sum_swap. apply sum_ext. intros p P. destruct (good p); auto. apply sum_0. }
  unfold variance. rewrite !T. f_equal. apply sum_ext. intros p P. pose proof (M p P) as Q. destruct (good p) eqn:G; auto.
  rewrite (sum_ext _ _ (fun b => sum (p_nb i) (fun j => centred i p j * evec b j) * sum (p_nb i) (fun j => centred i p j * evec b j))).
  - rewrite (isometry _ evec (centred i p) (e_unit _ _ _ _ E)). apply sum_ext. intros j J. rewrite ME by auto. reflexivity.
  - intros b B. rewrite (C140_centred_partial i evec good b M ltac:(lra) W). rewrite Rminus_0_r. unfold component. assert (missing i p = false) as -> by (apply missing_spec, Q; auto). reflexivity.
Qed.
(** A pixel that lacks one band moves the mean of the others: the components are not centred. *)
Definition gap : pin := mkPin 2 3 (fun b p => nth p (nth b [[0; 2; 100]; [5; 5; -9999]] []) 0)%Z None (-9999)%Z.
Ltac crunch := cbn [sum p_nb p_nc p_dat p_msk p_nodata nth gap orb existsb seq negb filter length INR Z.eqb Pos.eqb masked lacks missing Nat.eqb fst snd].
Theorem C140_centred_refuted : exists i eval evec good b, eigen (p_nb i) (covm i) eval evec /\ marks i good /\ 1 < count i good /\ (b < p_nb i)%nat /\ average i good (fun p => value (component i evec b p)) <> 0.
Proof.
  exists gap, (fun j => if Nat.eqb j 0 then 5002 else 0), (fun r j => if Nat.eqb r j then 1 else 0), (fun p => Nat.ltb p 2), 0%nat.
  assert (N : nk gap = 2%nat) by reflexivity. assert (M0 : mean gap 0 = 51). { unfold mean. rewrite N. unfold masked, lacks. crunch. lra. } assert (M1 : mean gap 1 = 5). { unfold mean. rewrite N. unfold masked, lacks. crunch. lra. }
  assert (Q0 : missing gap 0 = false) by reflexivity. assert (Q1 : missing gap 1 = false) by reflexivity. assert (Q2 : missing gap 2 = true) by reflexivity.
  split; [|split; [|split; [|split]]].
  - change (p_nb gap) with 2%nat. constructor.
    + intros j l J L. assert ((j = 0 \/ j = 1) /\ (l = 0 \/ l = 1))%nat as ([-> | ->] & [-> | ->]) by lia; cbn; lra.
    + intros r j Rr J. unfold covm. rewrite N. change (p_nc gap) with 3%nat. cbn [sum]. rewrite Q0, Q1, Q2. unfold centred. assert ((r = 0 \/ r = 1) /\ (j = 0 \/ j = 1))%nat as ([-> | ->] & [-> | ->]) by lia; rewrite ?M0, ?M1; crunch; lra.
    + intros j l J L. assert ((j = 0 /\ l = 0) \/ (j = 0 /\ l = 1) \/ (j = 1 /\ l = 1))%nat as [(-> & ->)|[(-> & ->)|(-> & ->)]] by lia; cbn; lra.
  - intros p P. change (p_nc gap) with 3%nat in P. rewrite <- missing_spec. assert (p = 0 \/ p = 1 \/ p = 2)%nat as [->|[->| ->]] by lia; rewrite ?Q0, ?Q1, ?Q2; cbn; intuition congruence.
  - unfold count, over. change (p_nc gap) with 3%nat. cbn. lra.
  - cbn. lia.
  - unfold average, count, over. change (p_nc gap) with 3%nat. unfold component. cbn [sum]. rewrite Q0, Q1, Q2. change (p_nb gap) with 2%nat. unfold centred. cbn [sum]. rewrite M0, M1. cbn. lra.
Qed.
(** The components kept need not hold the requested share of the variance: the data are projected on the rows of the matrix, not on the eigenvectors. *)
Definition cross : pin := mkPin 3 6 (fun b p => nth p (nth b [[2; -2; 0; 0; 0; 0]; [0; 0; 1; -1; 0; 0]; [0; 0; 0; 0; 3; -3]] []) 0)%Z None (-9999)%Z.
Theorem C140_variance_refuted : exists i eval evec good minvar, eigen (p_nb i) (covm i) eval evec /\ marks i good /\ 1 < count i good /\ (forall k, (k < p_nb i)%nat -> 0 <= eval k) /\ (forall p, (p < p_nc i)%nat -> usable i p) /\
  0 < minvar < 1 /\ let v b := variance i good (fun p => value (component i evec b p)) in sum (numcomp i eval minvar) v < minvar / 5 * sum (p_nb i) (fun b => variance i good (fun p => IZR (p_dat i b p))).
Proof.
  exists cross, (fun j => nth j [18 / 5; 8 / 5; 2 / 5] 0), (fun r j => nth j (nth r [[0; 1; 0]; [0; 0; 1]; [1; 0; 0]] []) 0), (fun _ => true), (6 / 10).
  assert (N : nk cross = 6%nat) by reflexivity. 
  assert (M : forall j, (j < 3)%nat -> mean cross j = 0). { intros j J. unfold mean. rewrite N. change (p_nc cross) with 6%nat. assert (j = 0 \/ j = 1 \/ j = 2)%nat as [->|[->| ->]] by lia; cbn; lra. }
  assert (Q : forall p, (p < 6)%nat -> missing cross p = false). { intros p P. assert (p = 0 \/ p = 1 \/ p = 2 \/ p = 3 \/ p = 4 \/ p = 5)%nat as [->|[->|[->|[->|[->| ->]]]]] by lia; reflexivity. }
  split; [|split; [|split; [|split; [|split; [|split]]]]].
  - change (p_nb cross) with 3%nat. constructor.
    + intros j l J L. assert ((j = 0 \/ j = 1 \/ j = 2) /\ (l = 0 \/ l = 1 \/ l = 2))%nat as ([->|[->| ->]] & [->|[->| ->]]) by lia; cbn; lra.
    + intros r j Rr J. unfold covm. rewrite N. change (p_nc cross) with 6%nat. cbn [sum]. rewrite !Q by lia. unfold centred. rewrite !M by lia. assert ((r = 0 \/ r = 1 \/ r = 2) /\ (j = 0 \/ j = 1 \/ j = 2))%nat as ([->|[->| ->]] & [->|[->| ->]]) by lia; cbn; lra.
    + intros j l J L. assert ((j = 0 /\ l = 0) \/ (j = 0 /\ l = 1) \/ (j = 1 /\ l = 1) \/ (j = 0 /\ l = 2) \/ (j = 1 /\ l = 2) \/ (j = 2 /\ l = 2))%nat as [(-> & ->)|[(-> & ->)|[(-> & ->)|[(-> & ->)|[(-> & ->)|(-> & ->)]]]]] by lia; cbn; lra.
  - intros p P. split; auto. intros _. apply missing_spec, Q. exact P.
  - unfold count, over. change (p_nc cross) with 6%nat. cbn [sum]. lra.
  - intros k K. change (p_nb cross) with 3%nat in K. assert (k = 0 \/ k = 1 \/ k = 2)%nat as [->|[->| ->]] by lia; cbn; lra.
  - intros p P. apply missing_spec, Q. exact P.
  - lra.
  - cbv zeta. assert (NC : numcomp cross (fun j => nth j [18 / 5; 8 / 5; 2 / 5] 0) (6 / 10) = 1%nat).
    { unfold numcomp. rewrite Rlt_bool_true by lra. change (p_nb cross) with 3%nat. cbv zeta. rewrite Req_bool_false by (cbn; lra). cbn [keep]. rewrite Rlt_bool_true by (cbn; lra). reflexivity. }
    rewrite NC. cbn [sum]. change (p_nb cross) with 3%nat. unfold variance, average, count, over. change (p_nc cross) with 6%nat. unfold component. cbn [sum]. rewrite !Q by lia. change (p_nb cross) with 3%nat. unfold centred. cbn [sum value]. rewrite !M by lia. cbn. lra.
Qed.

Print Assumptions C140_missing.
Print Assumptions C140_count.
Print Assumptions C140_distance.
Print Assumptions C140_centred_partial.
Print Assumptions C140_total.
Print Assumptions C140_centred_refuted.
Print Assumptions C140_variance_refuted.
