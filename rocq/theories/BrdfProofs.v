(** Lemmas about the BRDF correction. *)
From Coq Require Import Reals Lra Lia ZifyBool.
From Flocq Require Import Core.
From Verif Require Import Base CStr BrdfModel BrdfSpec TopGeo.
#[local] Open Scope R_scope.

Lemma clip_range x : -1 <= clip x <= 1.
Proof. unfold clip, Rmax, Rmin. repeat destruct (Rle_dec _ _); lra. Qed.
Lemma clip_in x : -1 <= x <= 1 -> clip x = x.
Proof. intros H. unfold clip, Rmax, Rmin. repeat destruct (Rle_dec _ _); lra. Qed.
Lemma overlap_pos h d c1 c2 t1 t2 s : 0 <= overlap h d c1 c2 t1 t2 s.
Proof. unfold overlap. apply Rmax_l. Qed.
(** Symmetry *)
Lemma phase_sym a b c d e : phase_cos a b c d e = phase_cos b a d c e.
Proof. unfold phase_cos. ring. Qed.
Lemma distance_sym a b c : distance a b c = distance b a c.
Proof. unfold distance. f_equal. f_equal. ring. Qed.
Lemma overlap_sym h d c1 c2 t1 t2 s : overlap h d c1 c2 t1 t2 s = overlap h d c2 c1 t2 t1 s.
Proof. unfold overlap. rewrite (Rplus_comm (1 / c2)). replace (t2 * t2 * t1 * t1 * s * s) with (t1 * t1 * t2 * t2 * s * s) by ring. reflexivity. Qed.
Lemma li_sym h b t1 t2 s c : li_kernel h b t1 t2 s c = li_kernel h b t2 t1 s c.
Proof. unfold li_kernel. cbv zeta. rewrite overlap_sym, distance_sym, phase_sym. rewrite (Rplus_comm (1 / cos (prime b t1))). f_equal. unfold Rdiv. ring. Qed.
Lemma ross_sym ti tv phi : ross_kernel ti tv phi = ross_kernel tv ti phi.
Proof. unfold ross_kernel. cbv zeta. rewrite phase_sym. rewrite (Rplus_comm (cos ti)). reflexivity. Qed.
(** Only the square of the sine and the cosine of the azimuth count. *)
Lemma overlap_even h d c1 c2 t1 t2 s : overlap h d c1 c2 t1 t2 (- s) = overlap h d c1 c2 t1 t2 s.
Proof. unfold overlap. replace (t1 * t1 * t2 * t2 * - s * - s) with (t1 * t1 * t2 * t2 * s * s) by ring. reflexivity. Qed.
Lemma li_even h b t1 t2 s c : li_kernel h b t1 t2 (- s) c = li_kernel h b t1 t2 s c.
Proof. unfold li_kernel. cbv zeta. rewrite overlap_even. reflexivity. Qed.
(** Nadir view *)
Lemma prime_0 b : prime b 0 = 0.
Proof. unfold prime. rewrite Rmult_0_r. apply atan_0. Qed.
Lemma li_nadir h b t s c s' c' : li_kernel h b 0 t s c = li_kernel h b 0 t s' c'.
Proof.
  unfold li_kernel. cbv zeta. rewrite prime_0, sin_0, Rmult_0_r. unfold phase_cos, distance, overlap.
  replace (0 * 0 + b * t * (b * t) - 2 * 0 * (b * t) * c) with (0 * 0 + b * t * (b * t) - 2 * 0 * (b * t) * c') by ring.
  replace (0 * 0 * (b * t) * (b * t) * s * s) with (0 * 0 * (b * t) * (b * t) * s' * s') by ring. replace (0 * sin (prime b t) * c) with (0 * sin (prime b t) * c') by ring. reflexivity.
Qed.
Lemma ross_nadir ti phi phi' : ross_kernel ti 0 phi = ross_kernel ti 0 phi'.
Proof. unfold ross_kernel. cbv zeta. rewrite sin_0. unfold phase_cos. replace (0 * sin ti * cos phi) with (0 * sin ti * cos phi') by ring. reflexivity. Qed.
(** Bounds *)
Lemma phase_unit a b phi : -1 <= phase_cos (cos a) (cos b) (sin a) (sin b) (cos phi) <= 1.
Proof.
  unfold phase_cos. pose proof (COS_bound (a - b)) as M. pose proof (COS_bound (a + b)) as P. rewrite cos_minus in M. rewrite cos_plus in P. pose proof (COS_bound phi) as B. set (c := cos phi) in *. clearbody c.
  set (q := sin a * sin b) in *. set (u := cos a * cos b) in *. clearbody q u. destruct (Rle_or_lt 0 q); split; nra.
Qed.
Lemma acos_range x : 0 <= acos x <= PI.
Proof. apply acos_bound. Qed.
Lemma ross_low ti tv phi : upper ti -> upper tv -> - PI / 4 <= ross_kernel ti tv phi.
Proof.
  intros (A1 & A2) (B1 & B2). unfold ross_kernel. cbv zeta. pose proof (phase_unit tv ti phi) as U. set (x := phase_cos (cos tv) (cos ti) (sin tv) (sin ti) (cos phi)) in *. clearbody x. unfold phase_ang. rewrite (clip_in x U).
  assert (C : cos (acos x) = x) by (apply cos_acos; auto). pose proof (acos_range x) as R. set (a := acos x) in *. assert (S : 0 <= sin a) by (apply sin_ge_0; lra).
  assert (D : 0 < cos ti + cos tv) by (pose proof (cos_gt_0 ti ltac:(lra) ltac:(lra)); pose proof (cos_gt_0 tv ltac:(lra) ltac:(lra)); lra).
  assert (N : 0 <= (PI / 2 - a) * x). { rewrite <- C. destruct (Rle_or_lt a (PI / 2)) as [L|L]; [apply Rmult_le_pos; [lra|apply cos_ge_0; lra]|]. assert (cos a <= 0) by (apply cos_le_0; lra). nra. }
  assert (0 <= ((PI / 2 - a) * x + sin a) / (cos ti + cos tv)) by (apply Rmult_le_pos; [lra|left; apply Rinv_0_lt_compat; auto]). lra.
Qed.
Lemma atan_of_tan t : upper t -> atan (sin t / cos t) = t.
Proof. intros (A & B). change (sin t / cos t) with (tan t). apply atan_tan. lra. Qed.
Lemma li_low ti tv phi : upper ti -> upper tv -> 1 - (1 / cos ti + 1 / cos tv) <= li_kernel 2 1 (sin tv / cos tv) (sin ti / cos ti) (sin phi) (cos phi).
Proof.
  intros U V. unfold li_kernel. cbv zeta. unfold prime. rewrite !Rmult_1_l, !atan_of_tan by auto. match goal with |- _ <= overlap ?a ?b ?c ?d ?e ?f ?g - _ + _ => pose proof (overlap_pos a b c d e f g) as O; set (o := overlap a b c d e f g) in * end. clearbody o.
  destruct U as (U1 & U2), V as (V1 & V2). pose proof (cos_gt_0 ti ltac:(lra) ltac:(lra)) as CI. pose proof (cos_gt_0 tv ltac:(lra) ltac:(lra)) as CV. pose proof (sin_ge_0 ti ltac:(lra) ltac:(lra)) as SI. pose proof (sin_ge_0 tv ltac:(lra) ltac:(lra)) as SV.
  assert (K : 1 <= 5 / 10 * (1 + phase_cos (cos tv) (cos ti) (sin tv) (sin ti) (cos phi)) / cos tv / cos ti); [|lra].
  unfold phase_cos. pose proof (COS_bound (tv - ti)) as M. rewrite cos_minus in M. pose proof (COS_bound phi) as B. 
  apply Rmult_le_reg_r with (cos tv * cos ti); [apply Rmult_lt_0_compat; auto|]. replace (5 / 10 * (1 + (cos tv * cos ti + sin tv * sin ti * cos phi)) / cos tv / cos ti * (cos tv * cos ti)) with (5 / 10 * (1 + (cos tv * cos ti + sin tv * sin ti * cos phi))) by (field; lra).
  assert (0 <= sin tv * sin ti) by (apply Rmult_le_pos; auto). set (q := sin tv * sin ti) in *. set (u := cos tv * cos ti) in *. set (c := cos phi) in *. clearbody q u c. nra.
Qed.
Lemma forward_pos ti tv phi n iso vol geo : high ti tv -> In (n, (iso, vol, geo)) brdf_table -> 0 < brdf_forward ti tv phi iso vol geo.
Proof.
  intros (U & V & S) I. unfold brdf_forward. pose proof (ross_low ti tv phi U V) as R. pose proof (li_low ti tv phi U V) as L. pose proof pi_up as P. set (r := ross_kernel ti tv phi) in *. set (k := li_kernel 2 1 (sin tv / cos tv) (sin ti / cos ti) (sin phi) (cos phi)) in *. clearbody r k. assert (-0.8 <= r) by lra. assert (-4 <= k) by lra.
  unfold brdf_table in I. repeat (destruct I as [I|I]; [injection I as _ <- <- <-; lra|]). contradiction.
Qed.
(** The table *)
Lemma put_length l : forall k v, length (put l k v) = length l.
Proof. induction l as [|a l IH]; intros [|k] v; cbn [put length]; auto. Qed.
Lemma put_same l : forall k v, (k < length l)%nat -> nth_error (put l k v) k = Some v.
Proof. induction l as [|a l IH]; intros [|k] v H; cbn in *; try lia; auto. apply IH. lia. Qed.
Lemma put_other l : forall k b v, b <> k -> nth_error (put l k v) b = nth_error l b.
Proof. induction l as [|a l IH]; intros [|k] [|b] v H; cbn; auto; congruence. Qed.
Lemma find_some names d : forall b, find_domain names d = Some b <-> first_of names b d.
Proof.
  induction names as [|n r IH]; intros b; cbn [find_domain].
  - split; [discriminate|]. intros (H & _). destruct b; discriminate.
  - destruct (list_eq_dec Z.eq_dec n d) as [->|N].
    + split; [intros H; injection H as <-; split; [reflexivity|intros; lia]|]. intros (H & F). destruct b as [|b]; auto. exfalso. apply (F 0%nat); [lia|reflexivity].
    + destruct (find_domain r d) as [k|] eqn:E.
      * split.
        { intros H. injection H as <-. destruct (proj1 (IH k) eq_refl) as (A & B). split; [exact A|]. intros [|a] L; cbn; [congruence|apply B; lia]. }
        { intros (A & B). destruct b as [|b]; cbn in A; [congruence|]. assert (Some k = Some b) by (apply IH; split; auto; intros a L; apply (B (S a)); lia). congruence. }
      * split; [discriminate|]. intros (A & B). destruct b as [|b]; cbn in A; [congruence|]. assert (None = Some b) by (apply IH; split; auto; intros a L; apply (B (S a)); lia). discriminate.
Qed.
Lemma first_lt names b d : first_of names b d -> (b < length names)%nat.
Proof. intros (H & _). apply nth_error_Some. congruence. Qed.
Section Factor.
Variables (names : list (list Z)) (g : (R * R * R) -> R).
Definition run (table : list (list Z * (R * R * R))) (cor : list R) : list R := fold_left (fun cor row => match find_domain names (fst row) with None => cor | Some b => put cor b (g (snd row)) end) table cor.
Lemma run_length table : forall cor, length (run table cor) = length cor.
Proof. induction table as [|row t IH]; intros cor; [reflexivity|]. unfold run in *. cbn [fold_left]. rewrite IH. destruct (find_domain names (fst row)); auto. apply put_length. Qed.
Lemma run_untouched table : forall cor b, (forall row, In row table -> ~ first_of names b (fst row)) -> nth_error (run table cor) b = nth_error cor b.
Proof.
  induction table as [|row t IH]; intros cor b H; [reflexivity|]. unfold run in *. cbn [fold_left]. rewrite IH by (intros; apply H; right; auto). destruct (find_domain names (fst row)) as [k|] eqn:E; auto. apply put_other. intros ->. apply find_some in E. apply (H row); [left|]; auto.
Qed.
Lemma run_set table : forall cor b row, length cor = length names -> NoDup (map fst table) -> In row table -> first_of names b (fst row) -> nth_error (run table cor) b = Some (g (snd row)).
Proof.
  induction table as [|h t IH]; intros cor b row L N I F; [contradiction|]. inversion N as [|? ? N1 N2]; subst. unfold run in *. cbn [fold_left]. destruct I as [->|I].
  - pose proof (proj2 (find_some names (fst row) b) F) as E. rewrite E. fold (run t (put cor b (g (snd row)))). rewrite run_untouched.
    + apply put_same. rewrite L. eapply first_lt; eauto.
    + intros r R G. destruct F as (F1 & _), G as (G1 & _). apply N1. rewrite F1 in G1. injection G1 as ->. apply in_map. auto.
  - apply IH; auto. destruct (find_domain names (fst h)); auto. rewrite put_length. auto.
Qed.
End Factor.
