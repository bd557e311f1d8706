From Verif Require Import Base CStr BaseFacts CStrFacts DateModel DateSpec DateProofs DateTextModel DateTextSpec DateTextProofs PathModel PathSpec PathProofs StringModel StringSpec StringProofs ListingModel ListingSpec.
From Coq Require Import Sorting.Sorted.

Lemma found_ok text word : found text word = true <-> contains word text.
Proof.
  unfold found. pose proof (strstr_spec word text) as S. destruct (strstr text word) as [i|].
  - split; auto. intros _. destruct S as ((a & b & E & _) & _). exists a, b. auto.
  - split; [discriminate|]. intros (a & b & E). exfalso. apply (S (length a)). exists a, b. auto.
Qed.

Lemma vec_in vec t : vector_contains vec t = true <-> In t vec.
Proof.
  unfold vector_contains. rewrite existsb_exists. split.
  - intros (x & I & E). apply streq_spec in E. now subst.
  - intros I. exists t. split; auto. now apply streq_spec.
Qed.

Lemma ext_ok n : entry n -> exists stem ext, first_dot_split n stem ext /\ extension n 1024 = Ret (n, ext).
Proof.
  intros (NE & L & S). destruct (exists_last NE) as (p & c & ->).
  assert (c <> 47) as C by (intros ->; apply S; apply in_app_iff; right; now left).
  destruct (basename_spec p c 0 1024 C) as (front & base & E & _ & _ & F & B).
  assert (front = []) as ->.
  { destruct F as [-> |(f & ->)]; auto. exfalso. apply S. rewrite E. apply in_app_iff. left. apply in_app_iff. right. now left. }
  cbn [app] in E. subst base. cbn [repeat] in B. unfold extension, extension_by. rewrite B.
  rewrite fits by lia. cbn [bind].
  destruct (first_dot (p ++ [c])) as (stem & ext & D & _ & X). exists stem, ext. split; auto.
  destruct (strchr dot (p ++ [c])) as [k|]; [|now subst]. rewrite X. rewrite fits; [reflexivity|].
  destruct D as (D & _). apply (f_equal zlen) in D. unfold zlen in *. rewrite !app_length in *. lia.
Qed.

Lemma split_unique n s e s' e' : first_dot_split n s e -> n = s' ++ e' -> ~ In 46 s' -> (exists x, e' = 46 :: x) -> e = e'.
Proof.
  intros (E & N & X) E' N' (x & ->). subst n. revert s' E' N'. induction s as [|c s IH]; intros s' E' N'.
  - cbn [app] in E'. destruct X as [-> |(y & ->)].
    + destruct s'; discriminate.
    + destruct s' as [|c' s']; cbn [app] in E'; auto. inversion E'; subst. exfalso. apply N'. now left.
  - destruct s' as [|c' s']; cbn [app] in E'; inversion E'; subst.
    + exfalso. apply N. now left.
    + apply (IH ltac:(intros I; apply N; now right) s'); auto. intros I. apply N'. now right.
Qed.

Lemma exts_dot e : In e [`".dat"; `".bsq"; `".bil"; `".tif"; `".vrt"] -> exists x, e = 46 :: x.
Proof. intros [<- |[<- |[<- |[<- |[<- |[]]]]]]; eexists; reflexivity. Qed.

(** The filters before the date. *)
Lemma candidate_ok rq n : entry n -> exists ext, extension n 1024 = Ret (n, ext) /\
  (vector_contains image_exts ext && found n (rq_product rq) && existsb (found n) (rq_sensors rq) = true <-> candidate rq n).
Proof.
  intros E. destruct (ext_ok n E) as (stem & ext & D & X). exists ext. split; auto.
  rewrite !andb_true_iff, vec_in, found_ok, existsb_exists. unfold candidate. split.
  - intros ((I & P) & (s & Is & Fs)). split; [|split; auto].
    + exists stem, ext. destruct D as (D1 & D2 & _). auto.
    + exists s. split; auto. now apply found_ok.
  - intros ((st & ex & Q1 & Q2 & Q3) & P & (s & Is & Cs)). split; [split; auto|].
    + rewrite (split_unique _ _ _ _ _ D Q1 Q2 (exts_dot _ Q3)). exact Q3.
    + exists s. split; auto. now apply found_ok.
Qed.

Lemma dated_read n y m d : entry n -> dated n y m d ->
  exists dt, date_from_string init_date n = Ret (SUCCESS, dt) /\ year dt = y /\ month dt = m /\ day dt = d /\
    doy dt = spec_doy m d /\ ce dt = 365 * y + spec_doy m d /\ 1 <= spec_doy m d <= 365.
Proof.
  intros (_ & L & _) (Y & V & rest & -> & W).
  destruct (date_round_trip init_date y m d rest Y V W) as (dt & E & Ey & Em & Ed & (_ & C1 & _ & _ & C2) & _).
  { unfold zlen in *. rewrite app_length in L. lia. }
  exists dt. split; auto. split; auto. split; auto. split; auto. rewrite Em, Ed in C1. split; auto. rewrite C2, Ey, C1. split; auto.
  rewrite <- md2doy_correct by apply V. now apply md2doy_range.
Qed.

Lemma select_ok rq n : entry n -> zlen (rq_days rq) = 366 -> (candidate rq n -> exists y m d, dated n y m d) ->
  exists b, select rq n = Ret b /\ (b = true <-> candidate rq n /\ in_time rq n).
Proof.
  intros E L D. destruct (candidate_ok rq n E) as (ext & X & C). unfold select. rewrite X. cbn [bind snd].
  destruct (vector_contains image_exts ext) eqn:E1; [|exists false; split; [auto|]; split; [discriminate|intros (K & _); apply C in K; discriminate]].
  destruct (found n (rq_product rq)) eqn:E2; [|exists false; split; [auto|]; split; [discriminate|intros (K & _); apply C in K; discriminate]].
  destruct (existsb (found n) (rq_sensors rq)) eqn:E3; [|exists false; split; [auto|]; split; [discriminate|intros (K & _); apply C in K; discriminate]].
  cbn [negb]. assert (candidate rq n) as K by now apply C.
  destruct (D K) as (y & m & d & Dt). destruct (dated_read n y m d E Dt) as (dt & R & Ey & Em & Ed & Edoy & Ece & Rg).
  rewrite R. cbn [bind]. destruct (get_at_some (rq_days rq) (spec_doy m d)) as (v & V); [lia|].
  rewrite Edoy, Ece, V. cbn [of_option bind].
  assert (U : in_time rq n -> rq_min rq <= 365 * y + spec_doy m d <= rq_max rq /\ v <> 0 /\ ~ (contains (`"LND07") n /\ rq_ignore7 rq < 365 * y + spec_doy m d)).
  { intros (y' & m' & d' & Dt' & T1 & (v' & T2 & T3) & T4). destruct (dated_read n y' m' d' E Dt') as (dt' & R' & Ey' & Em' & Ed' & _).
    assert (dt' = dt) by congruence. subst dt'. subst y' m' d'. rewrite Ey, Em, Ed in *. split; auto. split; auto. congruence. }
  destruct (Z.ltb_spec (365 * y + spec_doy m d) (rq_min rq)); [exists false; split; [auto|]; split; [discriminate|intros (_ & I); apply U in I; lia]|].
  destruct (Z.gtb_spec (365 * y + spec_doy m d) (rq_max rq)); [exists false; split; [auto|]; split; [discriminate|intros (_ & I); apply U in I; lia]|].
  destruct (Z.eqb_spec v 0); [exists false; split; [auto|]; split; [discriminate|intros (_ & I); apply U in I; lia]|].
  destruct (found n (`"LND07")) eqn:E7; cbn [andb].
  - apply found_ok in E7. destruct (Z.gtb_spec (365 * y + spec_doy m d) (rq_ignore7 rq)).
    + exists false. split; [auto|]. split; [discriminate|]. intros (_ & I). apply U in I. tauto.
    + exists true. split; [auto|]. split; auto. intros _. split; auto. exists y, m, d. split; auto. split; [lia|]. split; [eauto|]. lia.
  - exists true. split; [auto|]. split; auto. intros _. split; auto. exists y, m, d. split; auto. split; [lia|]. split; [eauto|].
    intros (I & _). apply found_ok in I. congruence.
Qed.

Lemma select_all_ok rq names : Forall entry names -> zlen (rq_days rq) = 366 ->
  Forall (fun n => candidate rq n -> exists y m d, dated n y m d) names ->
  exists p, select_all rq names = Ret (filter p names) /\ Forall (fun n => p n = true <-> candidate rq n /\ in_time rq n) names.
Proof.
  intros F L D. exists (fun n => match select rq n with Ret b => b | _ => false end).
  induction names as [|n names IH]; cbn [select_all filter]; [auto|].
  inversion F as [|? ? E F']; subst. inversion D as [|? ? Dn D']; subst. destruct (IH F' D') as (I1 & I2).
  destruct (select_ok rq n E L Dn) as (b & B1 & B2). rewrite B1. cbn [bind]. rewrite I1. cbn [bind]. split; [reflexivity|].
  constructor; auto. rewrite B1. exact B2.
Qed.

(** ** Order *)
Fixpoint value (acc : Z) (l : list Z) : Z := match l with [] => acc | c :: t => value (10 * acc + (c - 48)) t end.
Lemma value_lt : forall a b acc acc', all_digits a -> all_digits b -> length a = length b -> acc < acc' -> value acc a < value acc' b.
Proof.
  induction a as [|x a IH]; intros [|y b] acc acc' Da Db L H; cbn [value length] in *; try discriminate; auto.
  inversion Da; subst. inversion Db; subst. apply IH; auto. lia.
Qed.
Lemma value_le : forall a b r s acc, all_digits a -> all_digits b -> length a = length b -> name_le (a ++ r) (b ++ s) -> value acc a <= value acc b.
Proof.
  induction a as [|x a IH]; intros [|y b] r s acc Da Db L H; cbn [value length app name_le] in *; try discriminate; [lia|].
  inversion Da; subst. inversion Db; subst. destruct H as [H|(-> & H)].
  - apply Z.lt_le_incl. apply value_lt; auto. lia.
  - eapply IH; eauto.
Qed.
Lemma value_date y m d : 0 <= y <= 9999 -> 0 <= m <= 99 -> 0 <= d <= 99 -> value 0 (yyyymmdd y m d) = 10000 * y + 100 * m + d.
Proof. intros Y M D. unfold yyyymmdd, four, two, digit. cbn [app value]. lia. Qed.

Lemma month_days m d : valid_md m d -> 1 <= m <= 12 /\ 1 <= d <= 31.
Proof.
  intros (M & D). split; auto. enough (nth (Z.to_nat (m - 1)) month_len 0 <= 31) by lia. clear D. assert (m = 1 \/ m = 2 \/ m = 3 \/ m = 4 \/ m = 5 \/ m = 6 \/ m = 7 \/ m = 8 \/ m = 9 \/ m = 10 \/ m = 11 \/ m = 12) as K by lia.
  repeat match type of K with _ \/ _ => destruct K as [K|K] end; subst m; vm_compute; discriminate.
Qed.

Lemma order_ok a b y m d y' m' d' : name_le a b -> dated a y m d -> dated b y' m' d' -> ~ date_lt (y', m', d') (y, m, d).
Proof.
  intros O (Y & V & r & -> & _) (Y' & V' & r' & -> & _). destruct (month_days _ _ V) as (M1 & M2). destruct (month_days _ _ V') as (M1' & M2').
  apply (value_le _ _ _ _ 0) in O; try (apply date_digits; lia).
  - rewrite !value_date in O by lia. cbn [date_lt]. lia.
  - reflexivity.
Qed.

Lemma filter_sorted {A} (R : A -> A -> Prop) p l : StronglySorted R l -> StronglySorted R (filter p l).
Proof.
  induction 1 as [|a l S IH F]; cbn [filter]; [constructor|]. destruct (p a); auto. constructor; auto.
  rewrite Forall_forall in *. intros x I. apply filter_In in I. apply F. tauto.
Qed.

(** ** Words *)
Lemma prefix_sep (c : Z) v b : forall w a, w ++ v = a ++ c :: b -> ~ In c w -> exists a', a = w ++ a'.
Proof.
  induction w as [|x w IH]; intros a E N; [exists a; auto|].
  destruct a as [|y a]; cbn [app] in E; inversion E; subst.
  - exfalso. apply N. now left.
  - destruct (IH a) as (a' & ->); auto. { intros I. apply N. now right. } exists a'. reflexivity.
Qed.

(** A word without separator lies on one side of it. *)
Lemma contains_sep w a c b : ~ In c w -> (contains w (a ++ c :: b) <-> contains w a \/ contains w b).
Proof.
  intros N. split.
  - intros (u & v & E). revert a E. induction u as [|x u IH]; intros a E.
    + cbn [app] in E. symmetry in E. destruct (prefix_sep c v b w a E N) as (a' & ->). left. exists [], a'. auto.
    + destruct a as [|y a]; cbn [app] in E; inversion E; subst.
      * right. exists u, v. auto.
      * destruct (IH a) as [(u' & v' & ->)|K]; auto. left; exists (x :: u'), v'; reflexivity.
  - intros [(u & v & ->)|(u & v & ->)].
    + exists u, (v ++ c :: b). now rewrite <- !app_assoc.
    + exists (a ++ c :: u), v. now rewrite <- !app_assoc.
Qed.

Lemma contains_same w t : length w = length t -> (contains w t <-> w = t).
Proof.
  intros L. split.
  - intros (a & b & E). subst t. rewrite !app_length in L. assert (length a = O) by lia. assert (length b = O) by lia.
    destruct a; [|discriminate]. destruct b; [|discriminate]. now rewrite app_nil_r.
  - intros ->. exists [], []. now rewrite app_nil_r.
Qed.
