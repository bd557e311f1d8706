(** Training of models: split of the samples (C164) and class weights (C165). *)
From Coq Require Import Reals Lra Sorting.Sorted.
From Flocq Require Import Core IEEE754.BinarySingleNaN.
From Verif Require Import Base Float FloatFacts FloatInt ModeModel ModeSpec ModeProofs TrnModel TrnSpec TrnProofs.
Open Scope Z_scope.

(** ** C164 *)
(** Whatever is drawn: unless the drawing still goes on, each sample is either a training or a validation sample, in order, and there are as many training samples as were asked for. *)
Theorem C164_split : forall {A} per (samples : list A) rs n, n_train (zlen samples) per = Ret n -> 0 < n <= zlen samples -> Forall (Z.le 0) rs ->
  split true per samples rs = Ret None \/
  exists train val, split true per samples rs = Ret (Some (map Some train, map Some val)) /\ interleaved train val samples /\ zlen train = n.
Proof.
  intros A per samples rs n E B F. unfold split. rewrite E. cbn [bind]. replace ((n <? 0) || (zlen samples - n <? 0)) with false by lia.
  assert (Z1 : zlen (repeat false (length samples)) = zlen samples) by (unfold zlen; now rewrite repeat_length).
  destruct (mark_random (Z.to_nat n) 0 (repeat false (length samples)) rs) as [M|(m & M & L & C)]; auto; [lia| |]; rewrite Z1 in M; rewrite M; cbn [bind]; auto.
  right. rewrite repeat_length in L. rewrite (ct_repeat_other false) in C. destruct (fill_marks samples m n L C B) as (Fm & Ln). rewrite Fm.
  exists (sel true samples m), (sel false samples m). repeat split; auto. now apply sel_interleaved.
Qed.
Print Assumptions C164_split.
(** The drawing ends, at the latest when every sample was drawn once for each training sample. *)
Theorem C164_ends : forall {A} per (samples : list A) parts n, n_train (zlen samples) per = Ret n -> 0 < n <= zlen samples ->
  Forall (Forall (Z.le 0)) parts -> Forall (covers (zlen samples)) parts -> zlen parts = n -> split true per samples (concat parts) <> Ret None.
Proof.
  intros A per samples parts n E B F C L. unfold split. rewrite E. cbn [bind]. replace ((n <? 0) || (zlen samples - n <? 0)) with false by lia.
  assert (Z1 : zlen (repeat false (length samples)) = zlen samples) by (unfold zlen; now rewrite repeat_length).
  pose proof (mark_ends parts 0 (repeat false (length samples)) []) as H. rewrite Z1, (ct_repeat_other false), repeat_length in H. cbn [app] in H.
  replace (Z.to_nat n) with (length parts) by (unfold zlen in L; lia).
  assert (H' : mark true (zlen samples) (length parts) 0 (repeat false (length samples)) (concat parts) <> Ret None) by (apply H; auto; unfold zlen in *; lia).
  destruct (mark_random (length parts) 0 (repeat false (length samples)) (concat parts)) as [M|(m & M & Lm & Cm)]; [lia | apply Forall_concat; auto | rewrite Z1 in M; congruence |].
  rewrite Z1 in M. rewrite M. cbn [bind]. rewrite repeat_length in Lm. rewrite (ct_repeat_other false) in Cm.
  destruct (fill_marks samples m n Lm) as (Fm & _); [unfold zlen in L; lia | auto|]. replace (length parts) with (Z.to_nat n) by (unfold zlen in L; lia). rewrite Fm. discriminate.
Qed.
Print Assumptions C164_ends.
(** Without random draws the first samples are training samples. *)
Theorem C164_ordered : forall {A} per (samples : list A) rs n, n_train (zlen samples) per = Ret n -> 0 < n <= zlen samples ->
  split false per samples rs = Ret (Some (map Some (firstn (Z.to_nat n) samples), map Some (skipn (Z.to_nat n) samples))).
Proof.
  intros A per samples rs n E B. unfold split. rewrite E. cbn [bind]. replace ((n <? 0) || (zlen samples - n <? 0)) with false by lia.
  pose proof (mark_ordered (zlen samples) rs (Z.to_nat n) 0 (length samples - Z.to_nat n)) as M. cbn [repeat app Nat.add] in M. change (Z.of_nat 0) with 0 in M.
  replace (Z.to_nat n + (length samples - Z.to_nat n))%nat with (length samples) in M by (unfold zlen in B; lia). rewrite M. cbn [bind].
  set (m := repeat true _ ++ repeat false _). assert (L : length m = length samples) by (unfold m; rewrite app_length, !repeat_length; unfold zlen in B; lia).
  assert (C : ct true m = Z.to_nat n) by (unfold m; rewrite ct_app, ct_repeat, (ct_repeat_other false); lia).
  destruct (fill_marks samples m n L C B) as (Fm & _). rewrite Fm.
  assert (S1 : forall k (l : list A), (k <= length l)%nat -> sel true l (repeat true k ++ repeat false (length l - k)) = firstn k l /\ sel false l (repeat true k ++ repeat false (length l - k)) = skipn k l).
  { clear. induction k as [|k IH]; intros l H.
    - cbn [repeat app firstn skipn]. rewrite Nat.sub_0_r. clear. induction l as [|x l IH]; cbn; auto. destruct IH as (-> & ->). auto.
    - destruct l as [|x l]; [cbn in H; lia|]. cbn in H. cbn [repeat app sel Bool.eqb firstn skipn length Nat.sub]. destruct (IH l) as (-> & ->); [lia|]. auto. }
  unfold m. destruct (S1 (Z.to_nat n) samples) as (-> & ->); [unfold zlen in B; lia|]. reflexivity.
Qed.
Print Assumptions C164_ordered.
(** Whole percentages of up to 167772 samples are exact. *)
Theorem C164_percent_partial : forall nrow p, 1 <= p <= 100 -> 0 <= nrow <= 167772 -> n_train nrow (f32_of_Z p) = Ret (nrow * p / 100).
Proof. intros nrow p Hp Hn. apply n_train_percent; try lia. apply isZ32. change (2 ^ 24) with 16777216. lia. Qed.
Print Assumptions C164_percent_partial.
(** Any other accepted percentage gives a number of samples that exist. *)
Theorem C164_number_partial : forall nrow (per : f32), is_finite per = true -> (0 <= B2R per <= 100)%R -> 0 <= nrow <= 167772 -> exists n, n_train nrow per = Ret n /\ 0 <= n <= nrow.
Proof. intros. now apply n_train_bounds. Qed.
Print Assumptions C164_number_partial.
Example C164_case : n_train 5 (f32_of_Z 50) = Ret 2 /\ split true (f32_of_Z 50) [10; 11; 12; 13; 14] [7; 12; 2; 5; 9] = Ret (Some ([Some 10; Some 12], [Some 11; Some 13; Some 14])).
Proof. split; vm_compute; reflexivity. Qed.
Example C164_ends_case : Forall (covers 2) [[1; 0]] /\ split true (f32_of_Z 50) [10; 11] (concat [[1; 0]]) = Ret (Some ([Some 11], [Some 10])).
Proof.
  split; [|vm_compute; reflexivity]. constructor; auto. intros s H. assert (s = 0 \/ s = 1) as [->| ->] by lia; [exists 0 | exists 1]; cbn; auto.
Qed.
Example C164_percent_case : n_train 167772 (f32_of_Z 100) = Ret 167772.
Proof. vm_compute. reflexivity. Qed.
(** 100 % of 671089 samples are one sample less. *)
Theorem C164_all_refuted : n_train 671089 (f32_of_Z 100) = Ret 671088.
Proof. vm_compute. reflexivity. Qed.
(** 100 % of 16777219 samples are one sample more: there is no validation array to allocate. *)
Theorem C164_more_refuted : n_train 16777219 (f32_of_Z 100) = Ret 16777220.
Proof. vm_compute. reflexivity. Qed.
(** Without a training sample the first row, which does not exist, is read. *)
Theorem C164_none_refuted : forall random rs, split random (f32_of_Z 50) [10] rs = UB.
Proof. intros [] rs; vm_compute; reflexivity. Qed.

(** ** C165 *)
(** There is one weight for each class, in ascending order of the classes; it is the share of the class. *)
Theorem C165_proportional_partial : forall x, differences_fit x -> x <> [] -> exists vs,
  StronglySorted Z.lt vs /\ (forall v, In v vs <-> In v x) /\ class_priors false Proportional x = Ret (Some (map (fun v => (often v x / IZR (zlen x))%R) vs)) /\
  total (map (fun v => (often v x / IZR (zlen x))%R) vs) = 1%R.
Proof.
  intros x D N. destruct (histogram_spec x D N) as (vs & cs & H & S & I & _ & C & T). exists vs. repeat split; auto; try apply I.
  - unfold class_priors. rewrite H. cbn [bind fst snd]. rewrite C, map_map. reflexivity.
  - rewrite total_map_div, total_counts, <- C, T. apply Rinv_r. apply not_0_IZR. unfold zlen. destruct x; [easy | cbn; lia].
Qed.
Print Assumptions C165_proportional_partial.
(** The weights are positive, sum up to one, and the weight times the number of samples is the same for all classes. *)
Theorem C165_antiproportional_partial : forall x, differences_fit x -> x <> [] -> exists vs w,
  StronglySorted Z.lt vs /\ (forall v, In v vs <-> In v x) /\ class_priors false Antiproportional x = Ret (Some (map w vs)) /\
  total (map w vs) = 1%R /\ (forall v, In v x -> (0 < w v)%R) /\ forall u v, In u x -> In v x -> (w u * often u x = w v * often v x)%R.
Proof.
  intros x D N. destruct (histogram_spec x D N) as (vs & cs & H & S & I & _ & C & T). set (f := fun v => (IZR (zlen x) / often v x)%R).
  assert (Pn : (0 < IZR (zlen x))%R) by (apply IZR_lt; unfold zlen; destruct x; [easy | cbn; lia]).
  assert (Pf : forall v, In v x -> (0 < f v)%R) by (intros v J; apply Rdiv_lt_0_compat; auto; now apply often_pos).
  assert (Ps : (0 < total (map f vs))%R). { apply total_pos; [|intros v J; apply Pf; now apply I]. intros ->. destruct x as [|a x]; [easy|]. destruct (proj2 (I a)); now left. }
  exists vs, (fun v => (f v / total (map f vs))%R). split; auto. split; auto. split; [|split; [|split]].
  - unfold class_priors. rewrite H. cbn [bind fst snd]. rewrite rsum_total, C, !map_map. reflexivity.
  - rewrite total_map_div. apply Rinv_r. lra.
  - intros v J. apply Rdiv_lt_0_compat; auto.
  - intros u v Iu Iv. pose proof (often_pos u x Iu). pose proof (often_pos v x Iv). cbv beta. set (t := total (map f vs)) in *. clearbody t. unfold f. field. repeat split; lra.
Qed.
Print Assumptions C165_antiproportional_partial.
(** Weights of the user are taken if there is one for each class. *)
Theorem C165_custom_partial : forall x ws, differences_fit x -> x <> [] -> class_priors false (Custom ws) x = if zlen ws =? distinct x then Ret (Some ws) else Exit.
Proof. intros x ws D N. unfold class_priors. rewrite (n_uniq_spec x D N). cbn [bind]. rewrite Z.eqb_sym. reflexivity. Qed.
Print Assumptions C165_custom_partial.
(** No weights for regressions and if they are equal. *)
Theorem C165_none : forall w x, class_priors true w x = Ret None /\ class_priors false Equalized x = Ret None.
Proof. intros. split; reflexivity. Qed.
Print Assumptions C165_none.
Example C165_case : differences_fit [3; 1; 3; 3] /\ histogram [3; 1; 3; 3] = Ret ([1; 3], [1; 3], 2).
Proof. split; [|vm_compute; reflexivity]. intros a b Ia Ib. cbn in *. unfold in_int. lia. Qed.
(** Weights are counted over all samples: if a class has no training sample, there are more weights than classes in the training. *)
Theorem C165_training_refuted : exists ws train val, split false (f32_of_Z 75) [1; 1; 1; 2] [] = Ret (Some (map Some train, map Some val)) /\
  class_priors false Proportional [1; 1; 1; 2] = Ret (Some ws) /\ zlen ws = 2 /\ distinct train = 1.
Proof.
  exists [(IZR 3 / IZR 4)%R; (IZR 1 / IZR 4)%R], [1; 1; 1], [2]. repeat split; reflexivity.
Qed.
(** Classes whose difference does not fit an int. *)
Theorem C165_overflow_refuted : class_priors false Proportional [2147483647; -1] = UB.
Proof. vm_compute. reflexivity. Qed.
