(** From the names of the indices to the formulas; series. *)
From Coq Require Import Reals Lra.
From Flocq Require Import Core.
From Verif Require Import Base BaseFacts Loops CStr StringModel StringProofs AggModel RoundModel RoundFacts CsoProofs BapComposite
  IndexModel IndexSpec IndexProofs IndexProofs2.
#[local] Open Scope R_scope.

Lemma assoc_In {A} (l : list (list Z * A)) name a : assoc l name = Some a -> In (name, a) l.
Proof.
  induction l as [|(n, b) l IH]; cbn [assoc]; [discriminate|]. destruct (streq n name) eqn:E.
  - apply streq_spec in E. intros [= <-]. subst. now left.
  - intro H. right. auto.
Qed.

Lemma streq_refl n : streq n n = true.
Proof. now apply streq_spec. Qed.

Lemma quotient_same n n' d d' c : c <> 0 -> n = c * n' -> d = c * d' -> quotient n d = quotient n' d'.
Proof.
  intros C -> ->. unfold quotient. destruct (Req_EM_T (c * d') 0) as [E|E]; destruct (Req_EM_T d' 0) as [F|F]; auto.
  - apply Rmult_integral in E. tauto.
  - subst. rewrite Rmult_0_r in E. tauto.
  - f_equal. field. tauto.
Qed.

Lemma stores_ext r f f' sc : f = f' -> stores r f sc -> stores r f' sc.
Proof. intros ->. auto. Qed.

(** The formulas of the indices with resistance terms. *)
Lemma below_real k2 k3 k4 rbc n r b :
  IZR (twice_below k2 k3 k4 n (red_of rbc r b) b) / 2
  = IZR n + IZR k2 * IZR (red_of rbc r b) - IZR k3 / 2 * IZR b + IZR k4 * 5000.
Proof. unfold twice_below. rewrite !plus_IZR, minus_IZR, plus_IZR, !mult_IZR. lra. Qed.

Section Names.
Variable v : list Z -> Z.
Variable ok : list Z -> Prop.
Definition refl (nm : list Z) : R := IZR (v nm) / 10000.

Definition formula_of (k : kind) (names : list (list Z)) : option (option R * R) :=
  match k, names with
  | Differenced, [a; b] => Some (nd (refl a) (refl b), 10000)
  | ContRemove w_ w1 w2, [c; a; b] => Some (Some (refl c - (refl a + (refl b - refl a) * ((1.610 - 0.864) / (2.186 - 0.864)))), 10000)
  | Ratio1, [a; b] => Some (match quotient (refl a) (refl b) with Some q => Some (q - 1) | None => None end, 1000)
  | Msrre, [a; b] => Some (ratio_root (refl a) (refl b), 10000)
  | Kernelized, [a; b] => Some (kernel (refl a) (refl b), 10000)
  | Tasseled c, [_; _; _; _; _; _] => Some (Some (tc_exact c (map v names) / 10000), 10000)
  | _, _ => None
  end.

Lemma formula_ok k names f sc :
  match k with ContRemove a b c => a = rnd32 (1610 / 1000) /\ b = rnd32 (864 / 1000) /\ c = rnd32 (2186 / 1000) | _ => True end ->
  (forall nm, In nm names -> 0 <= v nm <= 10000)%Z -> (k = Kernelized -> forall nm, In nm names -> 0 < v nm)%Z ->
  formula_of k names = Some (f, sc) -> stores (value k (map v names)) f sc.
Proof.
  intros W V P E. destruct k; cbn [formula_of] in E.
  - destruct names as [|a [|b [|]]]; try discriminate E. injection E as <- <-. apply differenced_ok; apply V; cbn; auto.
  - destruct names as [|c [|a [|b [|]]]]; try discriminate E. injection E as <- <-. destruct W as (-> & -> & ->). apply cont_remove_ok; apply V; cbn; auto.
  - destruct names as [|a [|b [|]]]; try discriminate E. injection E as <- <-. apply cire_ok; apply V; cbn; auto.
  - destruct names as [|a [|b [|]]]; try discriminate E. injection E as <- <-. apply msrre_ok; apply V; cbn; auto.
  - destruct names as [|a [|b [|]]]; try discriminate E. injection E as <- <-. specialize (P eq_refl).
    apply kernelized_ok; (split; [apply P | apply V]); cbn; auto.
  - discriminate E.
  - destruct names as [|a1 [|a2 [|a3 [|a4 [|a5 [|a6 [|]]]]]]]; try discriminate E. injection E as <- <-.
    cbn [map value]. apply (tasseled_ok c (map v [a1; a2; a3; a4; a5; a6])); [reflexivity|].
    apply Forall_forall. intros x I. apply in_map_iff in I. destruct I as (nm & <- & I). now apply V.
Qed.
End Names.

(** Which formula belongs to which index. *)
Lemma resistance_doc f1 F f2 f3 f4 k2 k3 k4 (rbc : bool) n r b num den : factor f1 F ->
  f2 = IZR k2 -> f3 = IZR k3 / 2 -> f4 = IZR k4 / 2 -> (0 <= k2 <= 6)%Z -> (0 <= k3 <= 15)%Z -> (0 <= k4 <= 2)%Z ->
  (0 <= n <= 10000)%Z -> (0 <= r <= 10000)%Z -> (0 <= b <= 10000)%Z ->
  let N := IZR n / 10000 in let R0 := IZR r / 10000 in let B := IZR b / 10000 in
  let R := if rbc then R0 - (B - R0) else R0 in
  num = F * (N - R) -> den = N + f2 * R - f3 * B + f4 ->
  stores (resistance f1 f2 f3 f4 rbc n r b) (quotient num den) 10000.
Proof.
  intros HF -> -> -> K2 K3 K4 Hn Hr Hb N R0 B R E1 E2.
  refine (stores_ext _ _ _ _ _ (resistance_ok f1 F k2 k3 k4 rbc n r b HF K2 K3 K4 Hn Hr Hb)).
  assert (RR : IZR (red_of rbc r b) = 10000 * R).
  { unfold R, R0, B, red_of. destruct rbc; rewrite ?minus_IZR; lra. }
  rewrite below_real, minus_IZR, RR. apply (quotient_same _ _ _ _ 10000); [lra | rewrite E1; unfold N; lra | rewrite E2; unfold N, B; lra].
Qed.

Lemma factor_1 : factor 1 1.
Proof. replace 1 with (IZR 2 / 2) by lra. now apply factor_half. Qed.
Lemma factor_15 : factor (15 / 10) 1.5.
Proof. replace (15 / 10) with (IZR 3 / 2) by lra. replace 1.5 with (IZR 3 / 2) by lra. now apply factor_half. Qed.
Lemma factor_25 : factor (25 / 10) 2.5.
Proof. replace (25 / 10) with (IZR 5 / 2) by lra. replace 2.5 with (IZR 5 / 2) by lra. now apply factor_half. Qed.

Lemma documented_value s v name inputs need args k f sc :
  assoc shipped name = Some inputs -> assoc implementations name = Some (need, args, k) -> In (name, f, sc) (documented s) ->
  (forall nm, In nm inputs -> s nm = IZR (v nm) / 10000) ->
  (forall nm, In nm inputs -> 0 <= v nm <= 10000)%Z ->
  (name = `"kNDVI" -> forall nm, In nm inputs -> 0 < v nm)%Z ->
  need = zlen inputs /\ exists names, omap (fun a => of_option (get_at inputs a)) args = Ret names /\ incl names inputs /\ stores (value k (map v names)) f sc.
Proof.
  intros HS HI HD S V P. unfold documented in HD. cbn [In] in HD.
  repeat (destruct HD as [HD|HD]; [injection HD as HN <- <-|]); [..|destruct HD].
  all: subst name; vm_compute in HS; try discriminate HS; injection HS as <-.
  all: match type of HI with ?l = _ => let y := eval hnf in l in change (y = Some (need, args, k)) in HI end; try discriminate HI; injection HI as <- <- <-.
  all: split; [reflexivity|]; eexists; split; [reflexivity|]; split; [intros x I; vm_compute in I |- *; tauto|].
  all: rewrite !S by (vm_compute; tauto).
  all: repeat match goal with |- context [lit ?x] => let y := eval vm_compute in (lit x) in change (lit x) with y end.
  all: lazymatch goal with |- stores (value (Resistance _ _ _ _ _) _) _ _ => idtac
       | |- stores (value (Tasseled ?c) (map _ ?names)) ?f ?sc =>
           refine (stores_ext _ _ _ _ _ (formula_ok v (Tasseled c) names _ sc I V _ eq_refl));
           [f_equal; cbn [map tc_exact]; cbv zeta; lra | discriminate]
       | |- stores (value ?k (map _ ?names)) ?f ?sc => refine (formula_ok v k names f sc _ V _ _);
           [cbn; auto | intros; discriminate || (apply P; [reflexivity | assumption]) | reflexivity] end.
  all: cbn [map value].
  all: lazymatch goal with |- stores _ ?f _ => lazymatch f with nd _ _ => unfold nd | _ => idtac end end.
  - apply (resistance_doc _ 2.5 _ _ _ 6 15 2); try lia; try lra; try (apply V; cbn; tauto). apply factor_25.
  - apply (resistance_doc _ 1 _ _ _ 1 0 0); try lia; try lra; try (apply V; cbn; tauto). apply factor_1.
  - apply (resistance_doc _ 1.5 _ _ _ 1 0 1); try lia; try lra; try (apply V; cbn; tauto). apply factor_15.
  - apply (resistance_doc _ 1.5 _ _ _ 1 0 1); try lia; try lra; try (apply V; cbn; tauto). apply factor_15.
  - apply (resistance_doc _ 2.4 _ _ _ 1 0 2); try lia; try lra; try (apply V; cbn; tauto). apply factor_24.
Qed.

Lemma shipped_documented s name inputs : assoc shipped name = Some inputs -> exists f sc, In (name, f, sc) (documented s).
Proof.
  intro H. apply assoc_In in H. apply (in_map fst) in H. cbn [fst] in H.
  replace (map fst shipped) with (map (fun p => fst (fst p)) (documented s)) in H by reflexivity.
  apply in_map_iff in H. destruct H as (((n & f) & sc) & <- & I). eauto.
Qed.

(** ** Reading the bands *)
Lemma contains_band nm v : forall domains dat i, (0 <= i)%Z -> band domains dat nm = Some v ->
  exists k, contains_pos domains i nm = (i + Z.of_nat k)%Z /\ nth_error dat k = Some v.
Proof.
  unfold band. induction domains as [|d domains IH]; intros dat i I; cbn [combine find option_map]; [discriminate|].
  destruct dat as [|x dat]; cbn [combine find option_map]; [discriminate|]. cbn [contains_pos fst].
  destruct (list_eq_dec Z.eq_dec d nm) as [->|N].
  - intros [= <-]. exists 0%nat. rewrite streq_refl. split; [lia | reflexivity].
  - intro H. destruct (streq d nm) eqn:E; [now apply streq_spec in E|].
    destruct (IH dat (i + 1)%Z ltac:(lia) H) as (k & K1 & K2). exists (S k). split; [lia | exact K2].
Qed.

Lemma band_reads domains dat nm v b : band domains dat nm = Some v -> band_for domains nm = Ret b -> get_at dat b = Some v.
Proof.
  intros B F. destruct (contains_band nm v domains dat 0 ltac:(lia) B) as (k & K1 & K2).
  unfold band_for, vector_contains_pos in F. rewrite K1 in F. destruct (0 + Z.of_nat k <? 0)%Z eqn:L; [lia|]. injection F as <-.
  change (0 + Z.of_nat k)%Z with (Z.of_nat k). rewrite get_at_nat. exact K2.
Qed.

Lemma band_found domains nm : In nm domains -> exists b, band_for domains nm = Ret b.
Proof.
  intro H. unfold band_for, vector_contains_pos. destruct (contains_pos_spec domains nm 0 ltac:(lia)) as [(_ & N)|(k & E & _)]; [tauto|].
  rewrite E. destruct (0 + Z.of_nat k <? 0)%Z eqn:L; [lia|]. eauto.
Qed.

Lemma bands_found domains inputs : incl inputs domains -> forall args names,
  omap (fun a => of_option (get_at inputs a)) args = Ret names ->
  exists bands, omap (fun a => nm <- of_option (get_at inputs a) ;; band_for domains nm) args = Ret bands /\
                Forall2 (fun nm b => band_for domains nm = Ret b) names bands.
Proof.
  intro S. induction args as [|a args IH]; intros names; cbn [omap]; [intros [= <-]; exists []; split; constructor|].
  destruct (get_at inputs a) as [nm|] eqn:G; cbn [of_option bind]; [|discriminate].
  destruct (omap (fun a => of_option (get_at inputs a)) args) as [rest| |] eqn:O; cbn [bind]; try discriminate.
  intros [= <-]. destruct (IH rest eq_refl) as (bands & E & F).
  destruct (band_found domains nm) as (b & B); [apply S; eapply get_at_In; exact G|].
  exists (b :: bands). rewrite B. cbn [bind]. rewrite E. split; [reflexivity | constructor; auto].
Qed.

Lemma bands_read domains dat (v : list Z -> Z) : forall names bands,
  Forall2 (fun nm b => band_for domains nm = Ret b) names bands ->
  (forall nm, In nm names -> band domains dat nm = Some (v nm)) ->
  omap (fun b => of_option (get_at dat b)) bands = Ret (map v names).
Proof.
  induction 1 as [|nm b names bands B F IH]; intros V; cbn [omap map]; [reflexivity|].
  rewrite (band_reads _ _ _ _ _ (V nm (or_introl eq_refl)) B). cbn [of_option bind].
  rewrite IH by (intros; apply V; now right). reflexivity.
Qed.

(** ** The series of a pixel *)
Lemma series_ok domains name inputs nodata obs need args k :
  assoc shipped name = Some inputs -> assoc implementations name = Some (need, args, k) -> incl inputs domains ->
  (forall o, In o obs -> ob_valid o = true -> usable domains name inputs (ob_dat o)) ->
  exists out, index_equation domains name inputs nodata true obs = Ret out /\ zlen out = zlen obs /\
    forall t o, get_at obs t = Some o -> exists y, get_at out t = Some y /\ result_ok domains name nodata (ob_valid o) (ob_dat o) y.
Proof.
  intros HS HI SUB U.
  assert (NM : need = zlen inputs /\ exists names, omap (fun a => of_option (get_at inputs a)) args = Ret names /\ incl names inputs /\
    forall s v f sc, In (name, f, sc) (documented s) ->
      (forall nm, In nm inputs -> s nm = IZR (v nm) / 10000) -> (forall nm, In nm inputs -> 0 <= v nm <= 10000)%Z ->
      (name = `"kNDVI" -> forall nm, In nm inputs -> 0 < v nm)%Z -> stores (value k (map v names)) f sc).
  { destruct (shipped_documented (fun _ => IZR 1 / 10000) name inputs HS) as (f0 & sc0 & D0).
    destruct (documented_value _ (fun _ => 1%Z) name inputs need args k f0 sc0 HS HI D0 ltac:(reflexivity) ltac:(lia) ltac:(lia)) as (E & names & O & I & _).
    split; [exact E|]. exists names. repeat split; auto.
    intros s v f sc D A B C. destruct (documented_value s v name inputs need args k f sc HS HI D A B C) as (_ & names' & O' & _ & T).
    rewrite O in O'. injection O' as <-. exact T. }
  destruct NM as (-> & names & O & I & T).
  destruct (bands_found domains inputs SUB args names O) as (bands & EB & FB).
  unfold index_equation. rewrite HI, Z.eqb_refl. cbn [negb]. rewrite EB. cbn [bind].
  apply omap_get. intros t o G. apply get_at_In in G. unfold index_observation, result_ok.
  destruct (ob_valid o) eqn:V; cbn [negb]; [|eauto].
  destruct (U o G V) as [U1 U2].
  set (v := fun nm => match band domains (ob_dat o) nm with Some x => x | None => 0%Z end).
  assert (VB : forall nm, In nm inputs -> band domains (ob_dat o) nm = Some (v nm) /\ (0 <= v nm <= 10000)%Z /\ (name = `"kNDVI" -> (0 < v nm)%Z)).
  { intros nm N. destruct (U1 nm N) as (x & X & R). unfold v. rewrite X. auto. }
  rewrite (bands_read domains (ob_dat o) v names bands FB) by (intros nm N; apply VB, I, N). cbn [bind].
  set (s := spectrum domains (ob_dat o)) in *.
  assert (SV : forall nm, In nm inputs -> s nm = IZR (v nm) / 10000) by (intros nm N; unfold s, spectrum; now rewrite (proj1 (VB nm N))).
  assert (ST : forall f sc, In (name, f, sc) (documented s) -> stores (value k (map v names)) f sc).
  { intros f sc D. apply (T s v f sc D SV); [|intros K nm N; now apply VB]. intros nm N. apply VB, N. }
  destruct (shipped_documented s name inputs HS) as (f0 & sc0 & D0).
  pose proof (ST _ _ D0) as S0. unfold stores in S0. destruct f0 as [x0|].
  - destruct (S0 (U2 _ _ D0)) as (y & E & _). rewrite E. cbn [bind]. exists y. split; [reflexivity|].
    intros f sc D. pose proof (ST _ _ D) as S1. unfold stores in S1. destruct f as [x|].
    + destruct (S1 (U2 _ _ D)) as (y' & E' & R). congruence.
    + congruence.
  - rewrite S0. cbn [bind]. exists nodata. split; [reflexivity|].
    intros f sc D. pose proof (ST _ _ D) as S1. unfold stores in S1. destruct f as [x|]; auto.
    destruct (S1 (U2 _ _ D)) as (y' & E' & R). congruence.
Qed.
