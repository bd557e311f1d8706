(** Lemmas about principal components. *)
From Coq Require Import Reals Lra Lia ZifyBool.
From Flocq Require Import Core.
From Verif Require Import Base PcaModel PcaSpec.
#[local] Open Scope R_scope.

Lemma sum_ext n f g : (forall k, (k < n)%nat -> f k = g k) -> sum n f = sum n g.
Proof. induction n as [|n IH]; intros H; cbn [sum]; auto. rewrite IH by (intros; apply H; lia). rewrite H by lia. reflexivity. Qed.
Lemma sum_plus n f g : sum n (fun k => f k + g k) = sum n f + sum n g.
Proof. induction n as [|n IH]; cbn [sum]; [lra|]. rewrite IH. lra. Qed.
Lemma sum_scal n c f : sum n (fun k => c * f k) = c * sum n f.
Proof. induction n as [|n IH]; cbn [sum]; [lra|]. rewrite IH. lra. Qed.
Lemma sum_scal_r n c f : sum n (fun k => f k * c) = sum n f * c.
Proof. rewrite (sum_ext n _ (fun k => c * f k)) by (intros; lra). rewrite sum_scal. lra. Qed.
Lemma sum_0 n : sum n (fun _ => 0) = 0.
Proof. induction n as [|n IH]; cbn [sum]; lra. Qed.
Lemma sum_swap n m f : sum n (fun a => sum m (fun b => f a b)) = sum m (fun b => sum n (fun a => f a b)).
Proof. induction n as [|n IH]; cbn [sum]; [rewrite sum_0; auto|]. rewrite IH, <- sum_plus. reflexivity. Qed.
Lemma sum_nonneg n f : (forall k, (k < n)%nat -> 0 <= f k) -> 0 <= sum n f.
Proof. induction n as [|n IH]; intros H; cbn [sum]; [lra|]. pose proof (H n ltac:(lia)). assert (0 <= sum n f) by (apply IH; intros; apply H; lia). lra. Qed.
Lemma sum_le_more n m f : (n <= m)%nat -> (forall k, (k < m)%nat -> 0 <= f k) -> sum n f <= sum m f.
Proof.
  intros L H. induction m as [|m IH]; [assert (n = 0)%nat as -> by lia; cbn; lra|]. destruct (Nat.eq_dec n (S m)) as [->|N]; [lra|]. cbn [sum]. pose proof (H m ltac:(lia)). assert (sum n f <= sum m f) by (apply IH; [lia|intros; apply H; lia]). lra.
Qed.
Lemma sum_one n j f : (j < n)%nat -> sum n (fun k => (if Nat.eqb j k then 1 else 0) * f k) = f j.
Proof.
  induction n as [|n IH]; intros H; [lia|]. cbn [sum]. destruct (Nat.eq_dec j n) as [->|N].
  - rewrite Nat.eqb_refl. rewrite (sum_ext n _ (fun _ => 0)), sum_0; [lra|]. intros k K. destruct (Nat.eqb_spec n k); [lia|lra].
  - rewrite IH by lia. destruct (Nat.eqb_spec j n); [lia|lra].
Qed.
(** Rows of an orthonormal matrix keep lengths. *)
Lemma isometry n evec x : (forall j l, (j < n)%nat -> (l < n)%nat -> sum n (fun r => evec r j * evec r l) = if Nat.eqb j l then 1 else 0) ->
  sum n (fun b => sum n (fun j => x j * evec b j) * sum n (fun j => x j * evec b j)) = sum n (fun j => x j * x j).
Proof.
  intros U. rewrite (sum_ext n _ (fun b => sum n (fun j => sum n (fun l => x j * x l * (evec b j * evec b l))))).
  - rewrite sum_swap. apply sum_ext. intros j J. rewrite sum_swap. rewrite (sum_ext n _ (fun l => (if Nat.eqb j l then 1 else 0) * (x j * x l))); [rewrite sum_one; auto|].
    intros l L. rewrite sum_scal, U by auto. lra.
  - intros b B. rewrite <- sum_scal_r. apply sum_ext. intros j J. rewrite <- sum_scal. apply sum_ext. intros l L. lra.
Qed.
Lemma missing_spec i p : missing i p = false <-> usable i p.
Proof.
  unfold missing, usable, masked. rewrite orb_false_iff. split.
  - intros (A & B). split.
    + intros m M. rewrite M in A. destruct (m p); auto.
    + intros b L E. assert (existsb (lacks i p) (seq 0 (p_nb i)) = true); [|congruence]. apply existsb_exists. exists b. split; [apply in_seq; lia|]. unfold lacks. lia.
  - intros (A & B). split.
    + destruct (p_msk i) as [m|]; auto. rewrite (A m); auto.
    + destruct (existsb (lacks i p) (seq 0 (p_nb i))) eqn:E; auto. apply existsb_exists in E. destruct E as (b & I & L). apply in_seq in I. unfold lacks in L. destruct (B b); [lia|lia].
Qed.
Lemma keep_ok eval total minvar : forall n b cum, minvar < (cum + sum n (fun k => eval (b + k)%nat)) / total -> (0 < n)%nat ->
  exists k, (k < n)%nat /\ keep n b eval total cum minvar = Some (S (b + k)) /\ minvar < (cum + sum (S k) (fun k => eval (b + k)%nat)) / total /\
  forall m, (m < k)%nat -> (cum + sum (S m) (fun k => eval (b + k)%nat)) / total <= minvar.
Proof.
  induction n as [|n IH]; intros b cum H N; [lia|]. cbn [keep]. destruct (Rlt_bool_spec minvar ((cum + eval b) / total)) as [L|L].
  - exists 0%nat. split; [lia|]. rewrite Nat.add_0_r. split; auto. cbn [sum]. rewrite Nat.add_0_r. split; [rewrite Rplus_0_l; auto|]. intros; lia.
  - assert (SH : forall m, cum + eval b + sum m (fun k => eval (S b + k)%nat) = cum + sum (S m) (fun k => eval (b + k)%nat)).
    { induction m as [|m IHm]; cbn [sum]; [rewrite Nat.add_0_r; lra|]. cbn [sum] in IHm. replace (b + S m)%nat with (S b + m)%nat by lia. lra. }
    destruct n as [|n].
    + cbn [sum] in H. rewrite Nat.add_0_r, Rplus_0_l in H. lra.
    + destruct (IH (S b) (cum + eval b)) as (k & K1 & K2 & K3 & K4); [rewrite SH; auto|lia|]. exists (S k). split; [lia|]. split; [rewrite K2; f_equal; lia|]. rewrite SH in K3. split; auto.
      intros [|m] M; [cbn [sum]; rewrite Nat.add_0_r, Rplus_0_l; auto|]. specialize (K4 m ltac:(lia)). rewrite SH in K4. auto.
Qed.
