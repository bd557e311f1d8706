(** C152-C156: tables of water vapour from MODIS and their use. *)
From Coq Require Import Reals Lra Lia ZifyBool.
From Verif Require Import Base BaseFacts CStr Loops LoopsFacts RoundModel RoundFacts StatsModel StatsSpec L1Spec L1Model L1Proofs WvpModel WvpSpec WvpProofs WvpUse.
#[local] Open Scope Z_scope.

(** ** C152: averages *)
(** Where every pixel has a location, the average is that of the clear pixels in the box, given for at least a tenth of them, and the count that of all pixels in the box. *)
Theorem C152_average_partial gs b : Forall (fun g => sized g /\ fits g) gs ->
  exists ps vs, all_framed gs b ps /\ values ps vs /\
    (compile gs b = Ret (mean vs, zlen ps) /\ 0 < zlen ps <= 10 * zlen vs \/ compile gs b = Ret (9999%R, zlen ps) /\ (ps = [] \/ 10 * zlen vs < zlen ps)).
Proof.
  intros F. destruct (gather_ok b gs (mkAcc 0 0 0) [] F) as (a & ll & E & (S1 & S2 & S3) & L). { repeat split. }
  cbn [app] in *. exists (concat ll), (opts (concat ll)). split; [exists ll; auto|]. split; [apply opts_values|].
  unfold compile, gather. rewrite E. cbn [bind]. unfold average. rewrite S1, S2, S3. destruct ((zlen (concat ll) >? 0) && (10 * zlen (opts (concat ll)) >=? zlen (concat ll))) eqn:Q.
  - left. split; [|lia]. unfold mean, size. do 3 f_equal. unfold zlen. rewrite <- INR_IZR_INZ. reflexivity.
  - right. split; auto. apply andb_false_iff in Q as [Q|Q]; [left|right]; [|lia]. destruct (concat ll); [auto|]. unfold zlen in Q. cbn [length] in Q. lia.
Qed.
(** The sizes of a granule of MODIS leave two columns without a location: the last of them is looked up behind the array. *)
Theorem C152_modis_size_refuted g gs b : g_nx g = 1354 -> g_ny g = 2030 -> g_nxc g = 270 -> g_nyc g = 406 -> g_xoff g = 2 -> g_yoff g = 2 -> sized g -> compile (g :: gs) b = UB.
Proof.
  intros NX NY NXC NYC XO YO (_ & _ & _ & _ & _ & _ & _ & _ & _ & LO & _). unfold compile, gather. cbn [ofold]. rewrite (image_UB g b _ 1352 2027); [reflexivity| |].
  - unfold is_pixel. cbn [fst snd]. lia.
  - rewrite LO, NXC, NYC, XO, YO. reflexivity.
Qed.
Ltac decide_frames := unfold Rleb; repeat match goal with |- context [Rle_dec ?x ?y] => destruct (Rle_dec x y); try lra end; cbn [andb bind].
(** Elsewhere such pixels take the location of the next line of blocks. *)
Definition narrow : granule := mkG 6 1 1 2 0 0 1 0 (-9999) [1; 2; 3; 4; 5; 6] [20; 20; 20; 20; 20; 20] [0; 0]%R [0; 50]%R.
Theorem C152_wrong_block_refuted : exists g b, sized g /\ (forall p lon, is_pixel g p -> at_block g (g_lon g) p = Some lon -> ~ (b_w b <= lon <= b_e b)%R) /\ compile [g] b = Ret (6%R, 1).
Proof.
  exists narrow, (mkBox (49)%R 51 1 (-1)). split; [|split].
  - unfold sized, narrow, zlen. cbn. repeat split; try lia. repeat constructor; lia.
  - intros (x & y) lon (P & Q). unfold narrow, at_block in *. cbn [g_xoff g_yoff g_nx g_ny g_nxc g_nyc g_lon fst snd b_w b_e] in *. assert (y = 0) by lia. subst y. destruct (_ && _) eqn:C; [|discriminate].
    assert (E : (x - 0) / 5 = 0) by lia. rewrite E. intros [= <-]. lra.
  - unfold compile, gather. cbn [ofold]. rewrite image_flat. change (pixel_list narrow) with [(0, 0); (1, 0); (2, 0); (3, 0); (4, 0); (5, 0)]. cbn [ofold].
    assert (Z0 : forall a x, (x = 0 \/ x = 1 \/ x = 2 \/ x = 3 \/ x = 4) -> on_pixel narrow (mkBox 49 51 1 (-1)) a (x, 0) = Ret a).
    { intros a x X. assert (E : (x - 0) / 5 = 0) by lia. unfold on_pixel, pixel, narrow. cbn [g_xoff g_yoff g_nx g_ny g_nxc g_nyc g_lon g_lat g_pw g_cld g_fill g_scl g_off fst snd b_w b_e b_n b_s]. rewrite E. change (get_at [0%R; 50%R] (1 * ((0 - 0) / 5) + 0)) with (Some 0%R). cbn [of_option bind]. decide_frames. reflexivity. }
    do 5 (rewrite Z0 by lia; cbn [bind]).
    assert (Z5 : on_pixel narrow (mkBox 49 51 1 (-1)) (mkAcc 0 0 0) (5, 0) = Ret (mkAcc (0 + 1 * (6 - 0)) 1 1)).
    { unfold on_pixel, pixel, narrow. cbn [g_xoff g_yoff g_nx g_ny g_nxc g_nyc g_lon g_lat g_pw g_cld g_fill g_scl g_off fst snd b_w b_e b_n b_s].
      change (get_at [0%R; 50%R] (1 * ((0 - 0) / 5) + (5 - 0) / 5)) with (Some 50%R). change (get_at [0%R; 0%R] (1 * ((0 - 0) / 5) + (5 - 0) / 5)) with (Some 0%R). cbn [of_option bind]. decide_frames. reflexivity. }
    rewrite Z5. cbn [bind fst]. unfold average. cbn [a_all a_used a_sum]. change (((1 >? 0) && (10 * 1 >=? 1))%bool) with true. cbv iota. do 2 f_equal. lra.
Qed.
(** Boxes across the date line lose the pixels of the other side. *)
Theorem C152_date_line_refuted : exists g lon lon', sized g /\ fits g /\ g_lon g = [lon'] /\ (Rabs (lon' + 360 - lon) <= 3 / 4)%R /\ g_pw g = [5] /\ compile [g] (mkBox (lon - 3 / 4) (lon + 3 / 4) 1 (-1)) = Ret (9999%R, 0).
Proof.
  exists (mkG 1 1 1 1 0 0 1 0 (-9999) [5] [20] [0%R] [(-1799 / 10)%R]), (1799 / 10)%R, (-1799 / 10)%R. split; [|split; [|split; [|split; [|split]]]]; auto.
  - unfold sized, zlen. cbn. repeat split; try lia. repeat constructor; lia.
  - unfold fits. cbn. lia.
  - rewrite Rabs_pos_eq; lra.
  - unfold compile, gather. cbn [ofold]. rewrite image_flat. match goal with |- context [pixel_list ?g] => change (pixel_list g) with [(0, 0)] end. cbn [ofold]. unfold on_pixel, pixel.
    cbn [g_xoff g_yoff g_nx g_ny g_nxc g_nyc g_lon g_lat g_pw g_cld g_fill g_scl g_off fst snd b_w b_e b_n b_s]. change (get_at [(-1799 / 10)%R] (1 * ((0 - 0) / 5) + (0 - 0) / 5)) with (Some (-1799 / 10)%R). cbn [of_option bind]. decide_frames. reflexivity.
Qed.
(** The cloud state is read as bits. *)
Theorem C152_bits x k : 0 <= x < 256 -> (k < 8)%nat -> nth k (int2bit x 8) false = Z.testbit x (Z.of_nat k).
Proof. intros X K. apply int2bit_nth; auto. lia. Qed.
Example C152_example : sized narrow /\ ~ fits narrow /\ fits (mkG 10 5 2 1 0 0 1 0 0 [] [] [] []) /\ nth 2 (int2bit 20 8) false = true /\ nth 3 (int2bit 20 8) false = false /\
  exists g, sized g /\ fits g /\ exists b, framed g b (0, 0) /\ value g (0, 0) 5.
Proof.
  split. { unfold sized, narrow, zlen. cbn. repeat split; try lia. repeat constructor; lia. } split; [unfold fits, narrow; cbn; lia|]. split; [unfold fits; cbn; lia|]. split; [reflexivity|]. split; [reflexivity|].
  exists (mkG 1 1 1 1 0 0 1 0 (-9999) [5] [20] [0%R] [0%R]). split. { unfold sized, zlen. cbn. repeat split; try lia. repeat constructor; lia. } split; [unfold fits; cbn; lia|]. exists (mkBox (-1) 1 1 (-1)). split.
  - exists 0%R, 0%R. split; [reflexivity|]. split; [reflexivity|]. unfold in_box. cbn [b_w b_e b_n b_s]. lra.
  - exists 5, 20. split; [reflexivity|]. split; [reflexivity|]. split; [cbn; lia|]. split; [reflexivity|]. split; [reflexivity|]. cbn [g_scl g_off]. lra.
Qed.

(** ** C153: the table of a day *)
(** An average is a value, or 9999 if there is none. *)
Definition avg (v : R) : Prop := (v <= 9998 \/ v = 9999)%R.
Lemma rnd_9999 : rnd32 9999 = 9999%R.
Proof. apply (rnd32_int 9999). lia. Qed.
Lemma rnd_valid v : (v <= 9998)%R -> (rnd32 v <= 9998)%R.
Proof. intros H. rewrite <- (rnd32_int 9998) by lia. apply rnd32_le. exact H. Qed.
Lemma lt_t v : (v <= 9998)%R -> Rltb v 9999 = true /\ Rleb 9999 v = false /\ Rltb (rnd32 v) 9999 = true.
Proof. intros H. pose proof (rnd_valid v H). rewrite !Rltb_true, Rleb_false. lra. Qed.
Lemma lt_f : Rltb 9999 9999 = false /\ Rleb 9999 9999 = true /\ Rltb (rnd32 9999) 9999 = false.
Proof. rewrite rnd_9999, !Rltb_false, Rleb_true. lra. Qed.
(** The value of the sensor that saw more pixels, Terra if both saw as many; that of the only one with a value; none if none has. *)
Theorem C153_choice aqua (mo my : R) (cmo cmy : Z) : avg mo -> avg my ->
  ((mo <= 9998)%R -> (aqua = false \/ my = 9999%R \/ (cmy <= cmo)%Z) -> choose aqua mo my cmo cmy = (rnd32 mo, `"MOD")) /\
  ((my <= 9998)%R -> aqua = true -> (mo = 9999%R \/ (cmo < cmy)%Z) -> choose aqua mo my cmo cmy = (rnd32 my, `"MYD")) /\
  (mo = 9999%R -> (aqua = false \/ my = 9999%R) -> choose aqua mo my cmo cmy = (9999%R, `"TBD")).
Proof.
  pose proof lt_f as (F1 & F2 & F3). intros A B. split; [|split].
  - intros M H. destruct (lt_t mo M) as (T1 & T2 & T3). unfold choose. rewrite T1, T2, T3. destruct aqua; cbn [negb]; [|reflexivity]. destruct B as [B| ->].
    + destruct (lt_t my B) as (U1 & U2 & U3). rewrite U1. cbn [andb]. destruct H as [H|[H|H]]; [discriminate|lra|]. replace (cmo >=? cmy) with true by lia. reflexivity.
    + rewrite F1, F2. reflexivity.
  - intros M -> H. destruct (lt_t my M) as (T1 & T2 & T3). unfold choose. rewrite T1, T2, T3. cbn [negb]. destruct A as [A| ->].
    + destruct (lt_t mo A) as (U1 & U2 & U3). rewrite U1. cbn [andb]. destruct H as [H|H]; [lra|]. replace (cmo >=? cmy) with false by lia. reflexivity.
    + rewrite F1, F2. reflexivity.
  - intros -> H. unfold choose. rewrite F1, F2, F3, rnd_9999. destruct aqua; cbn [negb]; [|reflexivity]. destruct H as [H| ->]; [discriminate|]. rewrite F1, F2. reflexivity.
Qed.
(** Aqua counts from 3 July 2002. *)
Theorem C153_aqua y m d : 1 <= m <= 12 -> 1 <= d <= 31 -> aqua_flies y m d = true <-> 2002 < y \/ y = 2002 /\ (7 < m \/ m = 7 /\ 3 <= d).
Proof. intros M D. unfold aqua_flies. lia. Qed.
(** A table has one line per coordinate in their order; it is written only if there is a value on it. *)
Theorem C153_table y m d sites : (forall s, In s sites -> avg (fst (s_mod s)) /\ avg (fst (s_myd s))) ->
  match create_lut y m d sites with
  | Some lut => length lut = length sites /\ (forall c s, nth_error sites c = Some s -> nth_error lut c = Some (choose (aqua_flies y m d) (fst (s_mod s)) (fst (s_myd s)) (snd (s_mod s)) (snd (s_myd s))))
  | None => True
  end /\
  (create_lut y m d sites <> None <-> exists s, In s sites /\ (fst (s_mod s) <> 9999 \/ aqua_flies y m d = true /\ fst (s_myd s) <> 9999)%R).
Proof.
  intros A. unfold create_lut. set (f := fun s : site => choose (aqua_flies y m d) (fst (s_mod s)) (fst (s_myd s)) (snd (s_mod s)) (snd (s_myd s))).
  set (h := fun r : R * list Z => if Req_EM_T (fst r) 9999 then false else true). split.
  { destruct (0 <? zlen (filter h (map f sites))); auto. split; [apply map_length|]. intros c s E. rewrite nth_error_map, E. reflexivity. }
  assert (K : 0 <? zlen (filter h (map f sites)) = true <-> exists s, In s sites /\ h (f s) = true).
  { split.
    - intros H. destruct (filter h (map f sites)) as [|r l] eqn:E; [discriminate|]. assert (I : In r (filter h (map f sites))) by (rewrite E; left; auto). apply filter_In in I as (I & P). apply in_map_iff in I as (s & <- & I). eauto.
    - intros (s & I & P). assert (J : In (f s) (filter h (map f sites))) by (apply filter_In; split; auto; apply in_map; auto). destruct (filter h (map f sites)); [contradiction|]. unfold zlen. cbn [length]. lia. }
  assert (V : forall s, In s sites -> h (f s) = true <-> (fst (s_mod s) <> 9999 \/ aqua_flies y m d = true /\ fst (s_myd s) <> 9999)%R).
  { intros s I. destruct (A s I) as (A1 & A2). pose proof (C153_choice (aqua_flies y m d) (fst (s_mod s)) (fst (s_myd s)) (snd (s_mod s)) (snd (s_myd s)) A1 A2) as (C1 & C2 & C3). fold (f s) in C1, C2, C3.
    assert (HV : forall v n, (v <= 9998)%R -> h (rnd32 v, n) = true). { intros v n L. unfold h. cbn [fst]. pose proof (rnd_valid v L). destruct (Req_EM_T (rnd32 v) 9999); [lra|reflexivity]. }
    assert (H9 : h (9999%R, `"TBD") = false). { unfold h. cbn [fst]. destruct (Req_EM_T 9999 9999); [reflexivity|lra]. }
    destruct A1 as [A1|A1], A2 as [A2|A2].
    - destruct (aqua_flies y m d) eqn:Q.
      + destruct (Z_le_gt_dec (snd (s_myd s)) (snd (s_mod s))) as [L|L]; [rewrite C1 by auto|rewrite C2 by (auto; right; lia)]; rewrite HV by auto; (split; [|reflexivity]); intros _; left; lra.
      + rewrite C1 by auto. rewrite HV by auto. split; [|reflexivity]. intros _. left. lra.
    - rewrite C1 by auto. rewrite HV by auto. split; [|reflexivity]. intros _. left. lra.
    - destruct (aqua_flies y m d) eqn:Q.
      + rewrite C2 by auto. rewrite HV by auto. split; [|reflexivity]. intros _. right. split; auto. lra.
      + rewrite C3 by auto. rewrite H9. split; [discriminate|]. intros [H|(H & _)]; [lra|discriminate].
    - rewrite C3 by auto. rewrite H9. split; [discriminate|]. intros [H|(_ & H)]; lra. }
  destruct (0 <? zlen (filter h (map f sites))) eqn:E.
  - split; [intros _|discriminate]. destruct (proj1 K eq_refl) as (s & I & P). exists s. split; auto. apply V; auto.
  - split; [congruence|]. intros (s & I & P). assert (T : false = true) by (apply K; exists s; split; auto; apply V; auto). discriminate.
Qed.
Example C153_example : aqua_flies 2002 7 2 = false /\ aqua_flies 2002 7 3 = true /\ avg 2 /\ avg 9999 /\
  create_lut 2003 1 1 [mkSite (9999%R, 0) (2%R, 7); mkSite (9999%R, 0) (9999%R, 0)] = Some [(2%R, `"MYD"); (9999%R, `"TBD")] /\ create_lut 2001 1 1 [mkSite (9999%R, 0) (2%R, 7)] = None.
Proof.
  assert (A2 : avg 2) by (left; lra). assert (A9 : avg 9999) by (right; lra). split; [reflexivity|]. split; [reflexivity|]. split; [exact A2|]. split; [exact A9|].
  pose proof (proj1 (proj2 (C153_choice true 9999 2 0 7 A9 A2)) ltac:(lra) eq_refl ltac:(left; lra)) as E1. pose proof (proj2 (proj2 (C153_choice true 9999 9999 0 0 A9 A9)) ltac:(lra) ltac:(right; lra)) as E2.
  pose proof (proj2 (proj2 (C153_choice false 9999 2 0 7 A9 A2)) ltac:(lra) ltac:(left; reflexivity)) as E3. change (rnd32 2) with (rnd32 (IZR 2)) in E1. rewrite (rnd32_int 2) in E1 by lia.
  unfold create_lut. cbn [map s_mod s_myd fst snd]. change (aqua_flies 2003 1 1) with true. change (aqua_flies 2001 1 1) with false. rewrite E1, E2, E3. cbn [filter fst].
  destruct (Req_EM_T 2 9999); [lra|]. destruct (Req_EM_T 9999 9999); [|lra]. split; reflexivity.
Qed.

(** ** C154: days and monthly means *)
(** The days from the first to the last are visited one by one, and then the loop ends. *)
Theorem C154_days_partial t e : is_day t -> is_day e -> number t <= number e ->
  exists l, map number l = zrange (number t) (number e) /\ Forall is_day l /\ forall fuel, number e - number t < Z.of_nat fuel -> days fuel t e = Some l.
Proof.
  intros T E L. destruct (days_ok e E (Z.to_nat (number e - number t)) (S (Z.to_nat (number e - number t))) t T) as (l & D & M & A); [lia|lia|]. exists l. split; auto. split; auto.
  intros fuel F. destruct (days_ok e E (Z.to_nat (number e - number t)) fuel t T) as (l' & D' & M' & A'); [lia|lia|]. rewrite D'. f_equal.
  assert (U : forall l1 l2, Forall is_day l1 -> Forall is_day l2 -> map number l1 = map number l2 -> l1 = l2).
  { clear. induction l1 as [|a l1 IH]; intros [|b l2] F1 F2 E; cbn [map] in E; try discriminate; auto. inversion F1; inversion F2; subst. injection E as E1 E2. f_equal; [apply number_inj|apply IH]; auto. }
  apply U; auto. congruence.
Qed.
(** The check of the arguments also lets an end before the start through: 29 February after 1 March.  The loop never ends. *)
Theorem C154_order_refuted : exists t e, is_day t /\ is_day e /\ accepted t e = true /\ forall fuel, days fuel t e = None.
Proof.
  exists (2020, 3, 1), (2020, 2, 29). assert (D : is_day (2020, 3, 1)) by (apply day_31; cbn [In]; lia). split; auto. split. { apply day_29. split; [reflexivity|left; discriminate]. } split; [reflexivity|]. intros fuel. apply days_past; auto. reflexivity.
Qed.
(** So it does for a last day that does not exist. *)
Theorem C154_end_refuted : exists t e, is_day t /\ accepted t e = true /\ forall fuel, days fuel t e = None.
Proof.
  exists (2019, 1, 1), (2019, 2, 29). assert (D : is_day (2019, 1, 1)) by (apply day_31; cbn [In]; lia). split; auto. split; [reflexivity|]. intros fuel. apply days_never; auto. intros H. apply is_day_mlen in H. change (mlen 2019 2) with 28 in H. lia.
Qed.
(** The climatology holds mean, standard deviation and number of the values of each month. *)
Theorem C154_climatology m c coo l : (c < length coo)%nat -> Forall (fun q => match snd q with None => True | Some lut => matching coo lut end) l ->
  exists vs, month_values m c l vs /\
    climatology m c coo l = Ret (match vs with [] => 9999%R | _ => mean vs end, match vs with [] | [_] => 9999%R | _ => spread vs end, length vs).
Proof.
  intros C F. destruct (gather_month_ok m c coo C l 0 (mkVar 0 0) [] F) as (vs & s & V & E & (_ & S)). { split; [reflexivity|]. congruence. }
  exists vs. split; auto. unfold climatology. rewrite E. cbn [bind fst snd app] in *. f_equal. destruct vs as [|v1 vs]; [reflexivity|]. rewrite S by discriminate. cbn [length]. rewrite first_then_mean by discriminate. destruct vs as [|v2 vs]; [reflexivity|].
  cbn [length]. unfold standdev, variance. rewrite first_then_run by discriminate. reflexivity.
Qed.
(** A table with other coordinates, or too few of them, stops the program. *)
Theorem C154_mismatch coo lut w : read_lut coo lut = Ret w -> matching coo lut /\ length w = length coo.
Proof.
  revert lut w. induction coo as [|(cx & cy) r IH]; intros lut w; cbn [read_lut].
  - intros [= <-]. split; auto. split; [cbn; lia|]. intros [|c]; discriminate.
  - destruct lut as [|((x & y) & v) t]; [discriminate|]. cbn [fst snd]. destruct (Rltb (1 / 10000) (Rabs (x - cx)) || Rltb (1 / 10000) (Rabs (y - cy))) eqn:Q; [discriminate|]. apply orb_false_iff in Q as (Q1 & Q2). rewrite Rltb_false in Q1, Q2.
    destruct (read_lut r t) as [w'| |] eqn:E; try discriminate. cbn [bind]. intros [= <-]. destruct (IH t w' E) as ((L & M) & N). split; [|cbn; congruence]. split; [cbn; lia|].
    intros [|c]; cbn [nth_error]; [|apply M]. intros x0 y0 x' y' v' [= -> ->] [= -> -> ->]. auto.
Qed.
Example C154_example : is_day (2000, 2, 29) /\ number (2000, 3, 1) = number (2000, 2, 28) + 2 /\ days 5 (2000, 2, 28) (2000, 3, 1) = Some [(2000, 2, 28); (2000, 2, 29); (2000, 3, 1)] /\
  matching [(7%R, 50%R)] [(7%R, 50%R, 2%R)].
Proof.
  split. { apply day_29. split; [reflexivity|right; reflexivity]. } split; [reflexivity|]. split; [reflexivity|]. split; [cbn; lia|]. intros [|[|c]]; cbn [nth_error]; try discriminate. intros ? ? ? ? ? [= <- <-] [= <- <- <-]. rewrite !Rminus_diag_eq by reflexivity. rewrite Rabs_R0. lra.
Qed.

(** ** C155: the water vapour of a scene *)
Definition readable (t : option (list (option (R * R * R)))) : Prop := match t with None => True | Some l => no_blank l end.
Lemma clim_any clim cx cy : readable clim -> exists a, (match clim with None => Ret (-1)%R | Some l => s <- closest cx cy l (-1) ;; Ret (snd s) end) = Ret a.
Proof. destruct clim as [l|]; [|eauto]. intros B. destruct (closest_ok cx cy (-1) l B) as (d & v & -> & _). cbn [bind snd]. eauto. Qed.
(** A value in the parameter file is used as it is. *)
Theorem C155_constant v strict clim daily cx cy : lut_wvp (Some v) strict clim daily cx cy = Ret v.
Proof. reflexivity. Qed.
(** The value of the day at the nearest coordinate is used if there is one. *)
Theorem C155_daily strict clim l cx cy v : readable clim -> no_blank l -> nearest cx cy l v -> (0 <= v <= 10)%R -> lut_wvp None strict clim (Some l) cx cy = Ret v.
Proof.
  intros RC B N V. unfold lut_wvp. destruct (clim_any clim cx cy RC) as (a & ->). cbn [bind]. destruct (closest_near cx cy a l v B N) as (d & ->). cbn [bind snd].
  rewrite (proj2 (Rltb_false v 0)) by lra. rewrite (proj2 (Rltb_false 10 v)) by lra. reflexivity.
Qed.
(** Otherwise that of the month. *)
Theorem C155_climatology strict k daily cx cy a : no_blank k -> nearest cx cy k a -> (0 <= a)%R ->
  (daily = None \/ exists l, daily = Some l /\ no_blank l /\ (none_near cx cy l \/ exists v, nearest cx cy l v /\ (10 < v \/ v < 0 /\ strict = false)%R)) -> lut_wvp None strict (Some k) daily cx cy = Ret a.
Proof.
  intros B N A D. unfold lut_wvp. destruct (closest_near cx cy (-1) k a B N) as (d & ->). cbn [bind snd]. destruct D as [->|(l & -> & Bl & [F|(v & V & R)])].
  - cbn [bind]. rewrite (proj2 (Rltb_false a 0)) by lra. cbn [andb orb]. destruct (Rltb 10 a); reflexivity.
  - destruct (closest_far cx cy a l Bl F) as (d' & ->). cbn [bind snd]. rewrite (proj2 (Rltb_false a 0)) by lra. cbn [andb orb]. destruct (Rltb 10 a); reflexivity.
  - destruct (closest_near cx cy a l v Bl V) as (d' & ->). cbn [bind snd]. destruct R as [R|(R & ->)].
    + rewrite (proj2 (Rltb_false v 0)) by lra. rewrite (proj2 (Rltb_true 10 v)) by lra. reflexivity.
    + rewrite (proj2 (Rltb_true v 0)) by lra. reflexivity.
Qed.
(** Without any nearby coordinate, the scene fails. *)
Theorem C155_none strict clim daily cx cy : (forall l, clim = Some l -> no_blank l /\ none_near cx cy l) -> (forall l, daily = Some l -> no_blank l /\ none_near cx cy l) -> lut_wvp None strict clim daily cx cy = Ret (-1)%R.
Proof.
  intros C D. unfold lut_wvp.
  assert (E : match clim with None => Ret (-1)%R | Some l => s <- closest cx cy l (-1) ;; Ret (snd s) end = Ret (-1)%R). { destruct clim as [l|]; auto. destruct (C l eq_refl) as (B & N). destruct (closest_far cx cy (-1) l B N) as (d & ->). reflexivity. }
  rewrite E. cbn [bind]. assert (F : match daily with None => Ret (-1)%R | Some l => s <- closest cx cy l (-1) ;; Ret (snd s) end = Ret (-1)%R). { destruct daily as [l|]; auto. destruct (D l eq_refl) as (B & N). destruct (closest_far cx cy (-1) l B N) as (d & ->). reflexivity. }
  rewrite F. cbn [bind]. rewrite (proj2 (Rltb_true (-1) 0)) by lra. destruct strict; reflexivity.
Qed.
Lemma dist_self x y : dist x y x y = 0%R.
Proof. unfold dist. rewrite !Rminus_diag_eq by reflexivity. rewrite !rnd64_0. rewrite Rmult_0_l, rnd64_0, Rplus_0_r, rnd64_0, sqrt_0, rnd64_0. apply rnd32_0. Qed.
Lemma self_nearest x y v : nearest x y [Some (x, y, v)] v.
Proof. exists [], x, y, []. split; auto. rewrite dist_self. split; [lra|]. split; intros ? ? ? []. Qed.
Lemma one_blank {A} (a : A) : no_blank [Some a].
Proof. intros [H|[]]. discriminate. Qed.
(** With strict water vapour, a scene without a value of its day is still processed with that of the month. *)
Theorem C155_strict_refuted : exists clim cx cy, lut_wvp None true clim None cx cy = Ret 2%R /\ lut_wvp None true clim (Some [Some (cx, cy, 9999%R)]) cx cy = Ret 2%R.
Proof.
  exists (Some [Some (7%R, 50%R, 2%R)]), 7%R, 50%R. split; apply C155_climatology; auto using one_blank, self_nearest; try lra.
  right. eexists. split; [reflexivity|]. split; [apply one_blank|]. right. exists 9999%R. split; [apply self_nearest|]. left. lra.
Qed.
(** Where neither the day nor the month has a value, their mark for "no value" is taken for one: 9999 cm of water. *)
Theorem C155_nodata_refuted strict cx cy : lut_wvp None strict (Some [Some (cx, cy, 9999%R)]) (Some [Some (cx, cy, 9999%R)]) cx cy = Ret 9999%R.
Proof.
  apply C155_climatology; auto using one_blank, self_nearest; try lra. right. eexists. split; [reflexivity|]. split; [apply one_blank|]. right. exists 9999%R. split; [apply self_nearest|]. left. lra.
Qed.
(** A blank line in a table is read through a null pointer. *)
Theorem C155_blank_refuted strict daily cx cy : lut_wvp None strict (Some [None]) daily cx cy = UB.
Proof. reflexivity. Qed.
Example C155_example : nearest 7 50 [Some (10%R, 50%R, 1%R); Some (7%R, 50%R, 2%R)] 2 /\ none_near 7 50 [Some (10%R, 50%R, 1%R)] /\ lut_wvp None false None (Some [Some (10%R, 50%R, 1%R); Some (7%R, 50%R, 2%R)]) 7 50 = Ret 2%R.
Proof.
  assert (D : dist 7 50 10 50 = 3%R).
  { unfold dist. replace (7 - 10)%R with (IZR (-3)) by lra. rewrite (rnd64_int (-3)) by lia. rewrite Rminus_diag_eq by reflexivity. rewrite rnd64_0, Rmult_0_l, rnd64_0, Rplus_0_r. replace (-3 * -3)%R with (IZR 9) by lra. rewrite !(rnd64_int 9) by lia.
    replace 9%R with (3 * 3)%R by lra. rewrite sqrt_square by lra. rewrite (rnd64_int 3) by lia. apply (rnd32_int 3). lia. }
  assert (N : nearest 7 50 [Some (10%R, 50%R, 1%R); Some (7%R, 50%R, 2%R)] 2). { exists [Some (10%R, 50%R, 1%R)], 7%R, 50%R, []. split; auto. rewrite dist_self. split; [lra|]. split; [|intros ? ? ? []]. intros x y v [H|[]]. injection H as <- <- <-. rewrite D. lra. }
  split; auto. split. { intros x y v [H|[]]. injection H as <- <- <-. rewrite D. lra. } apply C155_daily; [exact I| |exact N|lra]. intros [H|[H|[]]]; discriminate.
Qed.

(** ** C156: the outline of a granule *)
(** Corners are moved by full turns to lie within half a turn of the first one. *)
Theorem C156_unwrap a b : (Rabs a <= 180)%R -> (Rabs b <= 180)%R -> (Rabs (a - unwrap a b) <= 180)%R /\ exists k, (-1 <= k <= 1)%Z /\ unwrap a b = (b + 360 * IZR k)%R.
Proof.
  intros A B. unfold unwrap. assert (H : (Rabs (a - b) <= 180 \/ Rabs (a - (b + 360)) < Rabs (a - b) /\ Rabs (a - (b + 360)) < Rabs (a - (b - 360)) /\ Rabs (a - (b + 360)) <= 180 \/ Rabs (a - (b - 360)) < Rabs (a - b) /\ Rabs (a - (b - 360)) < Rabs (a - (b + 360)) /\ Rabs (a - (b - 360)) <= 180)%R).
  { unfold Rabs in *. repeat destruct Rcase_abs; lra. }
  destruct (Rltb (Rabs (a - (b + 360))) (Rabs (a - b)) && Rltb (Rabs (a - (b + 360))) (Rabs (a - (b - 360)))) eqn:E1.
  - apply andb_true_iff in E1 as (E1 & E2). rewrite Rltb_true in E1, E2. split; [|exists 1; split; [lia|lra]]. destruct H as [H|[H|H]]; lra.
  - destruct (Rltb (Rabs (a - (b - 360))) (Rabs (a - b)) && Rltb (Rabs (a - (b - 360))) (Rabs (a - (b + 360)))) eqn:E3.
    + apply andb_true_iff in E3 as (E3 & E4). rewrite Rltb_true in E3, E4. split; [|exists (-1); split; [lia|lra]]. destruct H as [H|[H|H]]; lra.
    + split; [|exists 0; split; [lia|lra]]. apply andb_false_iff in E1, E3. rewrite !Rltb_false in E1, E3. destruct H as [H|[(H1 & H2 & _)|(H1 & H2 & _)]]; [exact H| |]; exfalso; destruct E1, E3; lra.
Qed.
(** The corners stay the same up to full turns, those of latitude untouched. *)
Theorem C156_datum o : o0 (fix_datum o) = o0 o /\ snd (o1 (fix_datum o)) = snd (o1 o) /\ snd (o2 (fix_datum o)) = snd (o2 o) /\ snd (o3 (fix_datum o)) = snd (o3 o) /\
  fst (o1 (fix_datum o)) = unwrap (fst (o0 o)) (fst (o1 o)) /\ fst (o2 (fix_datum o)) = unwrap (fst (o0 o)) (fst (o2 o)) /\ fst (o3 (fix_datum o)) = unwrap (fst (o0 o)) (fst (o3 o)).
Proof. repeat split. Qed.
(** Reordering starts the same ring at the opposite corner, so that the third corner is not north-west of the first. *)
Theorem C156_reorder o : (reorder o = o \/ reorder o = mkO (o2 o) (o3 o) (o0 o) (o1 o)) /\ ~ (fst (o2 (reorder o)) < fst (o0 (reorder o)) /\ snd (o2 (reorder o)) > snd (o0 (reorder o)))%R.
Proof.
  unfold reorder. destruct (Rltb (fst (o2 o)) (fst (o0 o)) && Rltb (snd (o0 o)) (snd (o2 o))) eqn:E.
  - apply andb_true_iff in E as (E1 & E2). rewrite Rltb_true in E1, E2. split; auto. cbn [o0 o1 o2 o3]. lra.
  - apply andb_false_iff in E. rewrite !Rltb_false in E. split; auto. destruct E; lra.
Qed.
(** Granules are kept by day (or partly), unless they span all longitudes or come within a degree of a pole. *)
Theorem C156_kept flag w e n s : kept flag w e n s = true <-> (flag = `"D" \/ flag = `"B") /\ ~ (w = -180 /\ e = 180)%R /\ (Rabs n <= 89 /\ Rabs s <= 89)%R.
Proof.
  unfold kept. rewrite andb_true_iff, negb_true_iff, !orb_false_iff, !Rltb_false, andb_false_iff. split.
  - intros (F & ((W & N) & S)). split. { destruct (list_eq_dec Z.eq_dec flag (`"D")); auto. destruct (list_eq_dec Z.eq_dec flag (`"B")); auto. discriminate. } split; auto. intros (-> & ->). destruct (Req_EM_T (-180) (-180)), (Req_EM_T 180 180); destruct W; congruence.
  - intros (F & W & N & S). split. { destruct (list_eq_dec Z.eq_dec flag (`"D")); auto. destruct (list_eq_dec Z.eq_dec flag (`"B")); auto. tauto. } split; auto. split; auto. destruct (Req_EM_T w (-180)), (Req_EM_T e 180); auto. tauto.
Qed.
Example C156_example : unwrap 179 (-179) = 181%R /\ unwrap (-179) 179 = (-181)%R /\ unwrap 5 7 = 7%R /\ reorder (mkO (10, 0) (0, 0) (0, 10) (10, 10))%R = mkO (0, 10)%R (10, 10)%R (10, 0)%R (0, 0)%R.
Proof.
  unfold unwrap, reorder, Rltb. cbn [fst snd o0 o1 o2 o3]. split; [|split; [|split]].
  - repeat destruct Rlt_dec; cbn [andb]; try lra; unfold Rabs in *; repeat destruct Rcase_abs; lra.
  - repeat destruct Rlt_dec; cbn [andb]; try lra; unfold Rabs in *; repeat destruct Rcase_abs; lra.
  - repeat destruct Rlt_dec; cbn [andb]; try lra; unfold Rabs in *; repeat destruct Rcase_abs; lra.
  - repeat destruct Rlt_dec; cbn [andb]; try lra. reflexivity.
Qed.

Print Assumptions C152_average_partial.
Print Assumptions C152_modis_size_refuted.
Print Assumptions C152_wrong_block_refuted.
Print Assumptions C152_date_line_refuted.
Print Assumptions C152_bits.
Print Assumptions C153_choice.
Print Assumptions C153_aqua.
Print Assumptions C153_table.
Print Assumptions C154_days_partial.
Print Assumptions C154_order_refuted.
Print Assumptions C154_end_refuted.
Print Assumptions C154_climatology.
Print Assumptions C154_mismatch.
Print Assumptions C155_constant.
Print Assumptions C155_daily.
Print Assumptions C155_climatology.
Print Assumptions C155_none.
Print Assumptions C155_strict_refuted.
Print Assumptions C155_nodata_refuted.
Print Assumptions C155_blank_refuted.
Print Assumptions C156_unwrap.
Print Assumptions C156_datum.
Print Assumptions C156_reorder.
Print Assumptions C156_kept.
