(** C141: the BRDF correction. *)
From Coq Require Import Reals Lra Lia ZifyBool.
From Flocq Require Import Core.
From Verif Require Import Base CStr BrdfModel BrdfSpec BrdfProofs TopGeo.
#[local] Open Scope R_scope.

(** Exchanging the sun and the sensor does not change the modelled reflectance. *)
Theorem C141_reciprocal ti tv phi iso vol geo : brdf_forward ti tv phi iso vol geo = brdf_forward tv ti phi iso vol geo.
Proof. unfold brdf_forward. rewrite ross_sym, li_sym. reflexivity. Qed.
(** Nor does mirroring the azimuth, or turning it by a full turn. *)
Theorem C141_mirror ti tv phi iso vol geo : brdf_forward ti tv (- phi) iso vol geo = brdf_forward ti tv phi iso vol geo.
Proof. unfold brdf_forward, ross_kernel. rewrite cos_neg, sin_neg, li_even. reflexivity. Qed.
Theorem C141_turn ti tv phi k iso vol geo : brdf_forward ti tv (phi + 2 * INR k * PI) iso vol geo = brdf_forward ti tv phi iso vol geo.
Proof. unfold brdf_forward, ross_kernel. rewrite cos_period, sin_period. reflexivity. Qed.
(** Reflectance is positive in every band of the table, for the sun and the sensor above the horizon and not too low. *)
Theorem C141_positive ti tv phi n iso vol geo : high ti tv -> In (n, (iso, vol, geo)) brdf_table -> 0 < brdf_forward ti tv phi iso vol geo.
Proof. apply forward_pos. Qed.

Definition factor_of (std szen vzen dphi : R) (p : R * R * R) : R := let '(iso, vol, geo) := p in brdf_forward std 0 0 iso vol geo / brdf_forward szen vzen dphi iso vol geo.
Lemma factor_run std szen vzen sazi vazi names : brdf_factor std szen vzen sazi vazi names = run names (factor_of std szen vzen (sazi - vazi)) brdf_table (map (fun _ => 1) names).
Proof. unfold brdf_factor, run. generalize brdf_table (map (fun _ : list Z => 1) names). intros t. induction t as [|(n & ((iso & vol) & geo)) t IH]; intros cor; [reflexivity|]. cbn [fold_left fst snd factor_of]. apply IH. Qed.
Lemma table_nodup : NoDup (map fst brdf_table).
Proof. unfold brdf_table. cbn [map fst]. repeat (constructor; [cbn [In]; intros H; repeat (destruct H as [H|H]; [discriminate H|]); exact H|]). constructor. Qed.
Lemma table_known n p : In (n, p) brdf_table -> In n known.
Proof. intros I. apply (in_map fst) in I. exact I. Qed.
Lemma known_table n : In n known -> exists p, In (n, p) brdf_table.
Proof. intros I. change known with (map fst brdf_table) in I. apply in_map_iff in I as ((m & p) & <- & I). exists p. exact I. Qed.
Lemma ones_nth (names : list (list Z)) b : (b < length names)%nat -> nth_error (map (fun _ => 1) names) b = Some 1.
Proof. revert b. induction names as [|n r IH]; intros [|b] H; cbn in *; try lia; auto. apply IH. lia. Qed.

(** One factor for every band. *)
Theorem C141_length std szen vzen sazi vazi names : length (brdf_factor std szen vzen sazi vazi names) = length names.
Proof. rewrite factor_run, run_length, map_length. reflexivity. Qed.
(** A band without parameters is not corrected. *)
Theorem C141_unknown std szen vzen sazi vazi names b n : nth_error names b = Some n -> ~ In n known -> nth_error (brdf_factor std szen vzen sazi vazi names) b = Some 1.
Proof.
  intros E N. rewrite factor_run, run_untouched.
  - apply ones_nth. apply nth_error_Some. congruence.
  - intros (m & p) I (F & _). cbn in F. apply N. apply table_known in I. congruence.
Qed.
(** Observed from the zenith with the standard sun, nothing is corrected. *)
Theorem C141_standard std sazi vazi names b : high std 0 -> (b < length names)%nat -> nth_error (brdf_factor std std 0 sazi vazi names) b = Some 1.
Proof.
  intros H L. rewrite factor_run. destruct (nth_error names b) as [n|] eqn:E; [|apply nth_error_None in E; lia].
  assert (D : (exists p, In (n, p) brdf_table /\ first_of names b n) \/ ~ (exists p, In (n, p) brdf_table /\ first_of names b n)).
  { destruct (in_dec (list_eq_dec Z.eq_dec) n (map fst brdf_table)) as [I|I].
    - destruct (find_domain names n) as [k|] eqn:K.
      + destruct (Nat.eq_dec k b) as [->|NE].
        * left. apply find_some in K. destruct (known_table n I) as (p & P). exists p. auto.
        * right. intros (p & _ & F). apply find_some in F. congruence.
      + right. intros (p & _ & F). apply find_some in F. congruence.
    - right. intros (p & P & _). apply I. apply (in_map fst) in P. exact P. }
  destruct D as [(p & P & F)|N].
  - rewrite (run_set _ _ brdf_table (map (fun _ => 1) names) b (n, p)); [|apply map_length|apply table_nodup|exact P|exact F]. f_equal. destruct p as ((iso & vol) & geo). cbn [snd factor_of].
    assert (Q : brdf_forward std 0 (sazi - vazi) iso vol geo = brdf_forward std 0 0 iso vol geo). { unfold brdf_forward. rewrite (ross_nadir std (sazi - vazi) 0). replace (sin 0 / cos 0) with 0 by (rewrite sin_0; unfold Rdiv; ring). rewrite (li_nadir 2 1 _ (sin (sazi - vazi)) (cos (sazi - vazi)) (sin 0) (cos 0)). reflexivity. }
    rewrite Q. apply Rinv_r. pose proof (forward_pos std 0 0 n iso vol geo H P). lra.
  - rewrite run_untouched; [apply ones_nth; exact L|]. intros (m & p) I F. apply N. cbn in F. destruct F as (F1 & F2). assert (m = n) by congruence. subst m. exists p. split; [auto|split; auto].
Qed.
(** The first band of a known name gets the factor that turns its modelled reflectance into that of the standard geometry; it is positive. *)
Theorem C141_normalised std szen vzen sazi vazi names b n : In n known -> first_of names b n -> high std 0 -> high szen vzen ->
  exists iso vol geo f, In (n, (iso, vol, geo)) brdf_table /\ nth_error (brdf_factor std szen vzen sazi vazi names) b = Some f /\ 0 < f /\
    f * brdf_forward szen vzen (sazi - vazi) iso vol geo = brdf_forward std 0 0 iso vol geo.
Proof.
  intros I F H1 H2. destruct (known_table n I) as (((iso & vol) & geo) & P). exists iso, vol, geo, (brdf_forward std 0 0 iso vol geo / brdf_forward szen vzen (sazi - vazi) iso vol geo).
  pose proof (forward_pos std 0 0 n iso vol geo H1 P) as A. pose proof (forward_pos szen vzen (sazi - vazi) n iso vol geo H2 P) as B. split; [exact P|]. split; [|split].
  - rewrite factor_run. rewrite (run_set _ _ brdf_table (map (fun _ => 1) names) b (n, (iso, vol, geo))); [reflexivity|apply map_length|apply table_nodup|exact P|exact F].
  - apply Rmult_lt_0_compat; [exact A|]. apply Rinv_0_lt_compat. exact B.
  - field. lra.
Qed.
(** The parameters in the table are the published ones. *)
Theorem C141_published n iso vol geo : In (n, (iso, vol, geo)) brdf_table <-> exists a b c, published n a b c /\ iso = IZR a / 10000 /\ vol = IZR b / 10000 /\ geo = IZR c / 10000.
Proof.
  split.
  - intros I. unfold brdf_table in I. cbn [In] in I.
    repeat (destruct I as [I|I]; [injection I as <- <- <- <-; eexists _, _, _; (split; [|repeat split; reflexivity]); first [constructor; fail|apply pub_nir; auto]|]). contradiction.
  - intros (a & b & c & P & -> & -> & ->). unfold brdf_table. cbn [In]. destruct P as [| | | | | |n [->| ->]| |]; intuition reflexivity.
Qed.
(** Bands of the near infrared get the same factor, whether they are narrow or broad. *)
Theorem C141_same_nir std szen vzen sazi vazi names a b : high std 0 -> high szen vzen -> first_of names a (`"NIR") -> first_of names b (`"BROADNIR") ->
  nth_error (brdf_factor std szen vzen sazi vazi names) a = nth_error (brdf_factor std szen vzen sazi vazi names) b.
Proof.
  intros H1 H2 A B.
  destruct (C141_normalised std szen vzen sazi vazi names a (`"NIR")) as (i1 & v1 & g1 & f1 & I1 & E1 & _ & F1); auto; [cbn [In known]; tauto|].
  destruct (C141_normalised std szen vzen sazi vazi names b (`"BROADNIR")) as (i2 & v2 & g2 & f2 & I2 & E2 & _ & F2); auto; [cbn [In known]; tauto|].
  assert (Q : i1 = i2 /\ v1 = v2 /\ g1 = g2).
  { apply C141_published in I1 as (a1 & b1 & c1 & P1 & -> & -> & ->). apply C141_published in I2 as (a2 & b2 & c2 & P2 & -> & -> & ->). inversion P1; inversion P2; subst; repeat split; reflexivity. }
  destruct Q as (-> & -> & ->). rewrite E1, E2. f_equal. pose proof (forward_pos szen vzen (sazi - vazi) _ i2 v2 g2 H2 I2) as G. apply (Rmult_eq_reg_r (brdf_forward szen vzen (sazi - vazi) i2 v2 g2)); [congruence|lra].
Qed.
(** A second band of the same name is left alone. *)
Theorem C141_second std szen vzen sazi vazi names a b n : (a < b)%nat -> nth_error names a = Some n -> nth_error names b = Some n -> nth_error (brdf_factor std szen vzen sazi vazi names) b = Some 1.
Proof.
  intros L A B. rewrite factor_run, run_untouched.
  - apply ones_nth. apply nth_error_Some. congruence.
  - intros (m & p) _ (F & G). cbn in F, G. apply (G a L). congruence.
Qed.

(** A sun 60 degrees from the zenith and a view of 0 to 60 degrees are high enough. *)
Example C141_high : high (PI / 3) 0 /\ high (PI / 3) (PI / 3) /\ high (PI / 4) (PI / 6).
Proof.
  assert (C : forall t, upper t -> 5 / 10 <= cos t -> 1 / cos t <= 2). { intros t _ H. replace 2 with (/ (5 / 10)) by lra. unfold Rdiv at 1. rewrite Rmult_1_l. apply Rinv_le_contravar; lra. }
  pose proof PI_RGT_0. assert (U0 : upper 0) by (unfold upper; lra). assert (U3 : upper (PI / 3)) by (unfold upper; lra). assert (U4 : upper (PI / 4)) by (unfold upper; lra). assert (U6 : upper (PI / 6)) by (unfold upper; lra).
  assert (K : cos (PI / 3) <= cos (PI / 4) /\ cos (PI / 3) <= cos (PI / 6)) by (split; apply cos_decr_1; lra). rewrite cos_PI3 in K.
  pose proof (C (PI / 3) U3 ltac:(rewrite cos_PI3; lra)). pose proof (C (PI / 4) U4 ltac:(lra)). pose proof (C (PI / 6) U6 ltac:(lra)). pose proof (C 0 U0 ltac:(rewrite cos_0; lra)).
  unfold high. repeat split; try tauto; try lra; try apply U0; try apply U3; try apply U4; try apply U6.
Qed.
Example C141_example : In (`"RED") known /\ first_of [`"BLUE"; `"RED"; `"RED"] 1 (`"RED") /\ ~ In (`"TEMP") known.
Proof.
  split; [cbn [In known]; auto|]. split; [split; [reflexivity|]|]. { intros a L. assert (a = 0%nat) by lia. subst. cbn. discriminate. } intros H. cbn [In known] in H. repeat (destruct H as [H|H]; [discriminate H|]). exact H.
Qed.

Print Assumptions C141_reciprocal.
Print Assumptions C141_mirror.
Print Assumptions C141_turn.
Print Assumptions C141_positive.
Print Assumptions C141_length.
Print Assumptions C141_unknown.
Print Assumptions C141_standard.
Print Assumptions C141_normalised.
Print Assumptions C141_second.
Print Assumptions C141_published.
Print Assumptions C141_same_nir.
