(** C28 folding, C29 spectral temporal metrics, C45 metric bands. *)
From Coq Require Import Reals Lra.
From Flocq Require Import Core.
From Verif Require Import Base BaseFacts Loops Float StatsModel StatsSpec StatsProofs InterpModel InterpProofs
  AggModel AggSpec AggProofs StmProofs.
#[local] Open Scope Z_scope.

(** C28: every folded value describes exactly the valid values of its period.
    Exact arithmetic.  Missing: values beyond +-16383, statistics that do not
    exist (refuted below). *)
Theorem C28_fold_partial : forall nodata m s periods, Forall (fun o => in_short (snd o)) s ->
  (forall p, In p periods -> valid_in nodata p s = [] \/
     (moderate (valid_in nodata p s) /\ exists_for (valid_in nodata p s) m)) ->
  exists out, fold_pixel nodata m false s periods = Ret out /\
    Forall2 (fun p v => (valid_in nodata p s = [] /\ v = nodata) \/
                        (valid_in nodata p s <> [] /\ described false (valid_in nodata p s) m v)) periods out.
Proof.
  intros nodata m s periods F. unfold fold_pixel. induction periods as [|p periods IH]; intros H; [cbn; eauto|].
  cbn [omap]. destruct (fold_period_spec nodata m s p F) as [E1 E2].
  destruct IH as (out & EO & FO); [intros q I; apply H; right; auto|].
  destruct (H p (or_introl eq_refl)) as [V|[M X]].
  - rewrite (E1 V). cbn [bind]. rewrite EO. cbn [bind]. eexists. split; [reflexivity|]. constructor; auto.
  - destruct (valid_in nodata p s) as [|v0 vs0] eqn:EV.
    + rewrite (E1 eq_refl). cbn [bind]. rewrite EO. cbn [bind]. eexists. split; [reflexivity|]. constructor; auto.
    + destruct E2 as (v & E & D); auto; [discriminate|]. rewrite E. cbn [bind]. rewrite EO. cbn [bind].
      eexists. split; [reflexivity|]. constructor; auto. right. rewrite EV. split; [discriminate|auto].
Qed.
Theorem C28_masked : forall nodata m s periods out, fold_pixel nodata m true s periods = Ret out ->
  length out = length periods /\ Forall (fun v => v = nodata) out.
Proof.
  intros nodata m s grid out E. inversion E; subst. split; [apply map_length|].
  apply Forall_forall. intros v I. apply in_map_iff in I. destruct I as (? & <- & _). auto.
Qed.

(** The standard deviation of a period with one observation, and the skewness
    of a constant period, are NaN: their conversion is undefined. *)
Theorem C28_single_std_refuted : forall nodata v p, v <> nodata -> in_short v ->
  fold_pixel nodata STD false [(p, v)] [p] = UB.
Proof.
  intros nodata v p N SH. unfold fold_pixel. cbn [omap].
  destruct (collect_fold_spec nodata (fold_useq STD) [(p, v)] p) as (a & E & S); [constructor; [exact SH|constructor]|].
  unfold fold_period. rewrite E. cbn [bind].
  assert (valid_in nodata p [(p, v)] = [v]) as EV.
  { unfold valid_in. cbn [filter fst snd]. rewrite Z.eqb_refl. replace (v =? nodata) with false by lia. reflexivity. }
  rewrite EV in S. destruct S as (EN & _). rewrite EN. change (zlen [v]) with 1. cbn [Z.ltb Z.compare fold_value].
  rewrite EN. reflexivity.
Qed.
Theorem C28_constant_skew_refuted : forall nodata v p n, v <> nodata -> in_short v -> (0 < n)%nat ->
  fold_pixel nodata SKW false (repeat (p, v) n) [p] = UB.
Proof.
  intros nodata v p n N SH P. unfold fold_pixel. cbn [omap].
  destruct (collect_fold_spec nodata (fold_useq SKW) (repeat (p, v) n) p) as (a & E & S).
  { apply Forall_forall. intros o I. apply repeat_spec in I. subst; auto. }
  unfold fold_period. rewrite E. cbn [bind].
  assert (valid_in nodata p (repeat (p, v) n) = repeat v n) as EV.
  { unfold valid_in. clear - N. induction n as [|n IH]; [reflexivity|]. cbn [repeat filter fst snd]. rewrite Z.eqb_refl.
    replace (v =? nodata) with false by lia. cbn [andb negb map snd]. f_equal. auto. }
  rewrite EV in S. assert (repeat v n <> []) as NE by (destruct n; [lia|discriminate]).
  pose proof (moments _ _ _ S NE) as (_ & E2 & _). destruct S as (EN & _). rewrite EN.
  assert (0 < zlen (repeat v n)) by (unfold zlen; rewrite repeat_length; lia).
  replace (0 <? zlen (repeat v n)) with true by lia. cbn [fold_value]. unfold skewscaled. rewrite E2.
  rewrite (dev2_const _ (IZR v)); [|intros x I; apply in_map_iff in I; destruct I as (w & <- & I); apply repeat_spec in I; congruence|apply reals_nil; auto].
  destruct (Req_EM_T 0 0); [reflexivity|lra].
Qed.

Example C28_example : exists out,
  fold_pixel (-9999) MAX false [(2018, 5); (2018, 9); (2019, -9999); (2020, 7)] [2018; 2019; 2020] = Ret out /\ out = [9; -9999; 7].
Proof. eexists. split; reflexivity. Qed.
Example C28_hypotheses : let s := [(1, 5); (1, 9); (2, -9999); (3, 7)] in
  forall p, In p [1; 2] -> valid_in (-9999) p s = [] \/ (moderate (valid_in (-9999) p s) /\ exists_for (valid_in (-9999) p s) STD).
Proof.
  intros s p [<-|[<-|[]]]; [right|left; reflexivity]. change (valid_in (-9999) 1 s) with [5; 9].
  split; [|cbn; lia]. split; [cbn; lia|]. repeat constructor; lia.
Qed.

(** C29: every band holds the requested metric of the valid values. *)
Theorem C29_stm_partial : forall nodata ms series bands, NoDup ms -> ms <> [] -> zlen bands = zlen ms ->
  Forall in_short series -> (forall k, In (Q k) ms -> 1 <= k <= 99) ->
  let vs := valid nodata series in
  (vs = [] -> stm_pixel nodata ms false series bands = Ret (map (fun _ => nodata) bands)) /\
  (vs <> [] -> moderate vs -> (forall m, In m ms -> exists_for vs m) ->
   exists out, stm_pixel nodata ms false series bands = Ret out /\ zlen out = zlen ms /\
     forall i m, get_at ms i = Some m -> exists v, get_at out i = Some v /\ described true vs m v).
Proof. exact stm_pixel_spec. Qed.
Theorem C29_masked : forall nodata ms series bands out, stm_pixel nodata ms true series bands = Ret out ->
  length out = length bands /\ Forall (fun v => v = nodata) out.
Proof.
  intros nodata ms series bands out. unfold stm_pixel. destruct (parse_sta ms); cbn [bind]; [|discriminate|discriminate].
  intros E. inversion E; subst. split; [apply map_length|].
  apply Forall_forall. intros v I. apply in_map_iff in I. destruct I as (? & <- & _). auto.
Qed.

(** The range of values farther apart than 32767 wraps to a negative number. *)
Theorem C29_range_refuted : stm_pixel (-9999) [RNG] false [-20000; 20000] [0] = Ret [-25536].
Proof. reflexivity. Qed.
(** In binary64 the running mean of 0, 1, 6, 1 falls below 2 and is truncated to 1. *)
Theorem C29_mean_refuted :
  mean (reals [0; 1; 6; 1]) = 2%R /\ short_of_float (mean64 [0; 1; 6; 1] 0 (f64_of_Z 0)) = Ret 1.
Proof.
  split; [|vm_compute; reflexivity]. unfold mean, reals, size. cbn. lra.
Qed.
Example C29_example : let ms := [MAX; NUM; Q 50; AVG; STD] in let series := [7; -9999; 3; 5] in
  NoDup ms /\ (forall k, In (Q k) ms -> 1 <= k <= 99) /\ moderate (valid (-9999) series) /\
  (forall m, In m ms -> exists_for (valid (-9999) series) m) /\
  exists out, stm_pixel (-9999) ms false series [0; 0; 0; 0; 0] = Ret out /\ get_at out 0 = Some 7 /\ get_at out 1 = Some 3 /\ get_at out 3 = Some 5.
Proof.
  intros ms series.
  assert (NoDup ms) as ND by (repeat constructor; cbn; intuition discriminate).
  assert (forall k, In (Q k) ms -> 1 <= k <= 99) as K by (intros k [I|[I|[I|[I|[I|[]]]]]]; try discriminate I; inversion I; lia).
  assert (moderate (valid (-9999) series)) as M by (split; [cbn; lia|repeat constructor; lia]).
  assert (forall m, In m ms -> exists_for (valid (-9999) series) m) as X.
  { intros m [<-|[<-|[<-|[<-|[<-|[]]]]]]; cbn; try lia; auto. }
  do 4 (split; auto).
  destruct (C29_stm_partial (-9999) ms series [0; 0; 0; 0; 0] ND) as [_ H]; auto; [discriminate|repeat constructor; unfold in_short; lia|].
  destruct H as (out & E & _ & D); auto; [discriminate|]. exists out. split; auto.
  destruct (D 0 MAX eq_refl) as (v0 & G0 & [D0 D0']). destruct (D 1 NUM eq_refl) as (v1 & G1 & D1).
  destruct (D 3 AVG eq_refl) as (v3 & G3 & D3). rewrite G0, G1, G3. cbn [described] in *.
  change (valid (-9999) series) with [7; 3; 5] in *. split; [|split].
  - pose proof (D0' 7 (or_introl eq_refl)). cbn in D0. f_equal. lia.
  - rewrite D1. reflexivity.
  - rewrite D3. replace (mean (reals [7; 3; 5])) with 5%R by (unfold mean, reals, size; cbn; lra). rewrite Ztrunc_IZR. reflexivity.
Qed.

(** C45: positions assigned to the requested metrics. *)
Theorem C45_layout_partial : forall ms, qcount ms <= 100 -> exists s, parse_sta ms = Ret s /\
  (In MIN ms -> get_at ms (i_min s) = Some MIN) /\ (In MAX ms -> get_at ms (i_max s) = Some MAX) /\
  (In RNG ms -> get_at ms (i_rng s) = Some RNG) /\ (In IQR ms -> get_at ms (i_iqr s) = Some IQR) /\
  (In AVG ms -> get_at ms (i_avg s) = Some AVG) /\ (In STD ms -> get_at ms (i_std s) = Some STD) /\
  (In SKW ms -> get_at ms (i_skw s) = Some SKW) /\ (In KRT ms -> get_at ms (i_krt s) = Some KRT) /\
  (In NUM ms -> get_at ms (i_num s) = Some NUM) /\
  (forall i k, In (i, k) (i_qs s) -> get_at ms i = Some (Q k)) /\
  (forall k, In (Q k) ms -> exists i, In (i, k) (i_qs s)).
Proof.
  intros ms QC. destruct (parse_sta_spec ms QC) as (s & E & (H1 & H2 & H3 & H4 & H5 & H6 & H7 & H8 & H9 & Q1 & Q2 & _)).
  exists s. split; auto. repeat apply conj; try apply H1; try apply H2; try apply H3; try apply H4; try apply H5;
    try apply H6; try apply H7; try apply H8; try apply H9; auto.
Qed.
(** A metric requested twice: its first band holds the number of observations
    because the position of NUM is never reset. *)
Theorem C45_duplicate_refuted : forall nodata v w, v <> nodata -> w <> nodata ->
  exists x, stm_pixel nodata [MIN; MIN] false [v; w] [0; 0] = Ret [2; x].
Proof.
  intros nodata v w V W. unfold stm_pixel, collect. cbn [parse_sta zlen length]. 
  change (parse_sta [MIN; MIN]) with (Ret (mkSta 0 1 (-1) (-1) (-1) (-1) (-1) (-1) (-1) [])). cbn [bind ofold].
  unfold collect1 at 1. replace (v =? nodata) with false by lia. cbn [stm_useq i_qs i_iqr negb orb zlen length bind].
  change (negb (Z.of_nat 0 =? 0) || (-1 >? -1)) with false. cbn [bind].
  unfold collect1. replace (w =? nodata) with false by lia. cbn [bind].
  cbn [a_n acc0 a_min a_max a_q a_k]. change (0 + 1 + 1 >? 0) with true. cbv iota.
  eexists. unfold stm_value. cbn [i_num i_min i_max i_rng i_avg i_std i_skw i_krt i_qs i_iqr a_n a_min]. reflexivity.
Qed.
(** More than 100 quantiles are written beyond the array. *)
Theorem C45_quantiles_refuted : parse_sta (repeat (Q 50) 101) = UB.
Proof. vm_compute. reflexivity. Qed.
Example C45_example : parse_sta [Q 25; AVG; Q 75] = Ret (mkSta 0 (-1) (-1) (-1) (-1) 1 (-1) (-1) (-1) [(0, 25); (2, 75)]).
Proof. reflexivity. Qed.

Print Assumptions C28_fold_partial.
Print Assumptions C28_masked.
Print Assumptions C28_single_std_refuted.
Print Assumptions C28_constant_skew_refuted.
Print Assumptions C29_stm_partial.
Print Assumptions C29_masked.
Print Assumptions C29_range_refuted.
Print Assumptions C29_mean_refuted.
Print Assumptions C45_layout_partial.
Print Assumptions C45_duplicate_refuted.
Print Assumptions C45_quantiles_refuted.
