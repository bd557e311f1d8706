(** Lemmas that bound the angle between given spectra; positions of bands. *)
From Coq Require Import Reals Lra Lia ZifyBool.
From Flocq Require Import Core.
From Verif Require Import Base Loops BaseFacts LoopsFacts ParamProofs RoundModel RoundFacts L1Model L1Cal AdjModel AdjSpec AdjAngle AdjChoose AdjProofs.
#[local] Open Scope R_scope.

Lemma cos_bounds t : 0 <= t <= 1 -> 1 - t * t / 2 <= cos t <= 1 - t * t / 2 + t * t * t * t / 24.
Proof.
  intros H. destruct (pre_cos_bound t 0 ltac:(lra) ltac:(lra)) as (A & B). unfold cos_approx, cos_term in A, B. cbn -[INR] in A, B. 
  replace (INR 1) with 1 in * by reflexivity. replace (INR 2) with 2 in * by (cbn; lra). replace (INR 24) with 24 in B by (cbn; lra). lra.
Qed.
Lemma acos_ge q t : 0 <= t <= 1 -> -1 <= q <= 1 -> q <= 1 - t * t / 2 -> t <= acos q.
Proof.
  intros T Q H. destruct (Rle_or_lt t (acos q)) as [L|L]; auto. exfalso. pose proof (acos_bound q) as B. pose proof PI_RGT_0. pose proof PI2_1. 
  assert (cos t < cos (acos q)) as C by (apply cos_decreasing_1; lra). rewrite cos_acos in C by auto. pose proof (cos_bounds t T). lra.
Qed.
Lemma acos_le q t : 0 <= t <= 1 -> -1 <= q <= 1 -> 1 - t * t / 2 + t * t * t * t / 24 <= q -> acos q <= t.
Proof.
  intros T Q H. destruct (Rle_or_lt (acos q) t) as [L|L]; auto. exfalso. pose proof (acos_bound q) as B. pose proof PI_RGT_0. pose proof PI2_1. 
  assert (cos (acos q) < cos t) as C by (apply cos_decreasing_1; lra). rewrite cos_acos in C by auto. pose proof (cos_bounds t T). lra.
Qed.

(** The quotient against a fraction [a / b]. *)
Definition below_frac (x y : list Z) (a b : Z) : bool :=
  ((0 <? sum_prod x x) && (0 <? sum_prod y y) && (0 <? a) && (0 <? b) && ((sum_prod x y <? 0) || (sum_prod x y * sum_prod x y * (b * b) <=? a * a * (sum_prod x x * sum_prod y y))))%Z.
Definition above_frac (x y : list Z) (a b : Z) : bool :=
  ((0 <? sum_prod x x) && (0 <? sum_prod y y) && (0 <? a) && (0 <? b) && (0 <=? sum_prod x y) && (a * a * (sum_prod x x * sum_prod y y) <=? sum_prod x y * sum_prod x y * (b * b)))%Z.
Lemma root_ge p c : 0 <= c -> c * c <= p -> c <= sqrt p.
Proof. intros C H. rewrite <- (sqrt_square c) by auto. apply sqrt_le_1; nra. Qed.
Lemma root_le p c : 0 <= c -> 0 <= p -> p <= c * c -> sqrt p <= c.
Proof. intros C P H. rewrite <- (sqrt_square c) by auto. apply sqrt_le_1; nra. Qed.
Lemma below_quotient x y a b : spectrum x -> spectrum y -> below_frac x y a b = true -> -1 <= quotient x y <= 1 /\ quotient x y <= IZR a / IZR b + / 1000000000000.
Proof.
  unfold below_frac. intros SX SY H. assert (0 < sum_prod x x)%Z as X by lia. assert (0 < sum_prod y y)%Z as Y by lia. split; [apply quotient_unit; auto|].
  pose proof (quotient_close x y SX SY X Y) as C. apply Rabs_le_inv in C. set (xy := sum_prod x y) in *. set (P := (sum_prod x x * sum_prod y y)%Z) in *.
  assert (0 < P)%Z as P0 by (unfold P; nia). assert (0 < a)%Z as A by lia. assert (0 < b)%Z as B by lia. apply IZR_lt in A, B, P0.
  assert (0 < sqrt (IZR P)) as S by (apply sqrt_lt_R0; auto).
  assert (IZR xy / sqrt (IZR P) <= IZR a / IZR b); [|lra]. apply Rmult_le_reg_r with (sqrt (IZR P) * IZR b); [nra|].
  replace (IZR xy / sqrt (IZR P) * (sqrt (IZR P) * IZR b)) with (IZR xy * IZR b) by (field; lra). replace (IZR a / IZR b * (sqrt (IZR P) * IZR b)) with (IZR a * sqrt (IZR P)) by (field; lra).
  destruct (Z.ltb_spec xy 0) as [N|N]; [apply IZR_lt in N; nra|]. assert (xy * xy * (b * b) <= a * a * P)%Z as K by lia. apply IZR_le in N, K. rewrite !mult_IZR in K.
  assert (IZR xy * IZR b / IZR a <= sqrt (IZR P)) as R.
  { apply root_ge; [apply Rmult_le_pos; [nra|left; apply Rinv_0_lt_compat; auto]|]. apply Rmult_le_reg_r with (IZR a * IZR a); [nra|]. replace (IZR xy * IZR b / IZR a * (IZR xy * IZR b / IZR a) * (IZR a * IZR a)) with (IZR xy * IZR xy * (IZR b * IZR b)) by (field; lra). lra. }
  apply Rmult_le_compat_r with (r := IZR a) in R; [|lra]. replace (IZR xy * IZR b / IZR a * IZR a) with (IZR xy * IZR b) in R by (field; lra). lra.
Qed.
Lemma above_quotient x y a b : spectrum x -> spectrum y -> above_frac x y a b = true -> -1 <= quotient x y <= 1 /\ IZR a / IZR b - / 1000000000000 <= quotient x y.
Proof.
  unfold above_frac. intros SX SY H. assert (0 < sum_prod x x)%Z as X by lia. assert (0 < sum_prod y y)%Z as Y by lia. split; [apply quotient_unit; auto|].
  pose proof (quotient_close x y SX SY X Y) as C. apply Rabs_le_inv in C. set (xy := sum_prod x y) in *. set (P := (sum_prod x x * sum_prod y y)%Z) in *.
  assert (0 < P)%Z as P0 by (unfold P; nia). assert (0 < a)%Z as A by lia. assert (0 < b)%Z as B by lia. apply IZR_lt in A, B, P0.
  assert (0 < sqrt (IZR P)) as S by (apply sqrt_lt_R0; auto).
  assert (IZR a / IZR b <= IZR xy / sqrt (IZR P)); [|lra]. apply Rmult_le_reg_r with (sqrt (IZR P) * IZR b); [nra|].
  replace (IZR xy / sqrt (IZR P) * (sqrt (IZR P) * IZR b)) with (IZR xy * IZR b) by (field; lra). replace (IZR a / IZR b * (sqrt (IZR P) * IZR b)) with (IZR a * sqrt (IZR P)) by (field; lra).
  assert (0 <= xy)%Z as N by lia. assert (a * a * P <= xy * xy * (b * b))%Z as K by lia. apply IZR_le in N, K. rewrite !mult_IZR in K.
  assert (sqrt (IZR P) <= IZR xy * IZR b / IZR a) as R.
  { apply root_le; [apply Rmult_le_pos; [nra|left; apply Rinv_0_lt_compat; auto]|lra|]. apply Rmult_le_reg_r with (IZR a * IZR a); [nra|]. replace (IZR xy * IZR b / IZR a * (IZR xy * IZR b / IZR a) * (IZR a * IZR a)) with (IZR xy * IZR xy * (IZR b * IZR b)) by (field; lra). lra. }
  apply Rmult_le_compat_r with (r := IZR a) in R; [|lra]. replace (IZR xy * IZR b / IZR a * IZR a) with (IZR xy * IZR b) in R by (field; lra). lra.
Qed.
Lemma angle_pos table x s : table6 table -> spectrum x -> 0 <= angle_of table x s.
Proof.
  intros T X. unfold angle_of. rewrite angle_def by (auto; apply center_spectrum; auto). destruct (_ && _); [|lra]. apply rnd64_nonneg. apply acos_bound.
Qed.
Lemma angle_ge table x s a b t : table6 table -> spectrum x -> below_frac x (center table s) a b = true -> 0 <= t <= 1 -> IZR a / IZR b + / 1000000000000 <= 1 - t * t / 2 -> t - / 1000000000000 <= angle_of table x s.
Proof.
  intros T X B H K. pose proof (center_spectrum table s T) as C. destruct (below_quotient _ _ _ _ X C B) as (Q1 & Q2). unfold angle_of. rewrite angle_def by auto.
  unfold below_frac in B. replace ((0 <? sum_prod x x) && (0 <? sum_prod (center table s) (center table s)))%Z with true by lia.
  assert (t <= acos (quotient x (center table s))) as L by (apply acos_ge; auto; lra). apply rnd64_le in L. pose proof (lit_close t H) as E. apply Rabs_le_inv in E. lra.
Qed.
Lemma angle_le table x s a b t : table6 table -> spectrum x -> above_frac x (center table s) a b = true -> 0 <= t <= 1 -> 1 - t * t / 2 + t * t * t * t / 24 <= IZR a / IZR b - / 1000000000000 -> angle_of table x s <= t + / 1000000000000.
Proof.
  intros T X B H K. pose proof (center_spectrum table s T) as C. destruct (above_quotient _ _ _ _ X C B) as (Q1 & Q2). unfold angle_of. rewrite angle_def by auto.
  unfold above_frac in B. replace ((0 <? sum_prod x x) && (0 <? sum_prod (center table s) (center table s)))%Z with true by lia.
  assert (acos (quotient x (center table s)) <= t) as L by (apply acos_le; auto; lra). apply rnd64_le in L. pose proof (lit_close t H) as E. apply Rabs_le_inv in E. lra.
Qed.
Lemma all_below table x a b ex : forallb (fun s => existsb (Nat.eqb s) ex || below_frac x (center table s) a b) (seq 0 51) = true ->
  forall s, (s < 51)%nat -> ~ In s ex -> below_frac x (center table s) a b = true.
Proof.
  intros H s S E. rewrite forallb_forall in H. specialize (H s ltac:(apply in_seq; lia)). destruct (existsb (Nat.eqb s) ex) eqn:X; auto. exfalso. apply existsb_exists in X. destruct X as (y & Y & Z). apply Nat.eqb_eq in Z. congruence.
Qed.

(** ** Positions of bands *)
#[local] Open Scope Z_scope.
Lemma find_domain_ok d : forall domains b0 b, 0 <= b0 -> find_domain domains d b0 = Some b <-> b0 <= b /\ first_band domains d (b - b0).
Proof.
  assert (CONS : forall (x : list Z) r j, 0 < j -> get_at (x :: r) j = get_at r (j - 1)).
  { intros x r j J. unfold get_at. destruct (Z.ltb_spec j 0), (Z.ltb_spec (j - 1) 0); try lia. replace (Z.to_nat j) with (S (Z.to_nat (j - 1))) by lia. reflexivity. }
  unfold first_band. induction domains as [|x r IH]; intros b0 b B; cbn [find_domain].
  - split; [discriminate|]. intros (_ & H & _). apply get_at_inv in H. unfold zlen in H. cbn in H. lia.
  - unfold same. destruct (list_eq_dec Z.eq_dec x d) as [->|N].
    + split.
      * intros H. assert (b0 = b) by congruence. subst. rewrite Z.sub_diag. split; [lia|]. split; [reflexivity|]. intros j J. lia.
      * intros (L & H & M). destruct (Z.eq_dec b b0) as [->|Q]; auto. exfalso. apply (M 0); [lia|]. reflexivity.
    + rewrite IH by lia. split.
      * intros (L & H & M). split; [lia|]. rewrite CONS by lia. replace (b - b0 - 1) with (b - (b0 + 1)) by lia. split; auto. intros j J. destruct (Z.eq_dec j 0) as [->|Q]; [cbn; congruence|]. rewrite CONS by lia. apply M. lia.
      * intros (L & H & M). assert (b <> b0) as Q. { intros ->. rewrite Z.sub_diag in H. cbn in H. congruence. }
        split; [lia|]. rewrite CONS in H by lia. replace (b - b0 - 1) with (b - (b0 + 1)) in H by lia. split; auto. intros j J K. apply (M (j + 1)); [lia|]. rewrite CONS by lia. replace (j + 1 - 1) with j by lia. auto.
Qed.
Lemma find_first domains d b : find_domain domains d 0 = Some b <-> 0 <= b /\ first_band domains d b.
Proof. rewrite find_domain_ok by lia. rewrite Z.sub_0_r. tauto. Qed.
Lemma find_all_ok domains : forall ds l, find_all domains ds = Some l <-> Forall2 (first_band domains) ds l.
Proof.
  induction ds as [|d ds IH]; intros l; cbn [find_all].
  - split; [intros H; assert (l = []) by congruence; subst; constructor|intros H; inversion H; auto].
  - split.
    + destruct (find_domain domains d 0) as [b|] eqn:E; [|discriminate]. destruct (find_all domains ds) as [r|] eqn:F; [|discriminate]. intros H. assert (l = b :: r) by congruence. subst. constructor; [apply find_first in E; tauto|]. apply IH. auto.
    + intros H. inversion H as [|? b ? r A B]; subst. assert (0 <= b) by (destruct A as (A & _); apply get_at_inv in A; lia). replace (find_domain domains d 0) with (Some b) by (symmetry; apply find_first; auto). apply IH in B. rewrite B. reflexivity.
Qed.
Lemma first_nodup domains : forall ds l, Forall2 (first_band domains) ds l -> NoDup ds -> NoDup l.
Proof.
  induction 1 as [|d b ds l A B IH]; intros N; constructor; inversion N as [|? ? N1 N2]; subst; auto.
  intros I. apply N1. clear - A B I. induction B as [|e c ds l C D IH]; [contradiction|]. destruct I as [->|I]; [left|right; auto]. destruct A as (A & _), C as (C & _). congruence.
Qed.
