From Coq Require Import Reals Lra Sorting.Sorted Sorting.Permutation ZifyNat ZifyBool.
From Flocq Require Import Core.
From Verif Require Import Base BaseFacts Loops LoopsFacts RoundModel RoundFacts ChunkProofs CubeModel CubeSpec CubeProofs ToolModel ToolSpec.
#[local] Open Scope Z_scope.

(** ** Enumerations *)
Lemma combine_fst {A B} : forall (a : list A) (b : list B), length a = length b -> map fst (combine a b) = a.
Proof. induction a as [|x a IH]; intros [|y b] L; cbn in *; try discriminate; auto. f_equal. apply IH. lia. Qed.
Lemma combine_snd {A B} : forall (a : list A) (b : list B), length a = length b -> map snd (combine a b) = b.
Proof. induction a as [|x a IH]; intros [|y b] L; cbn in *; try discriminate; auto. f_equal. apply IH. lia. Qed.
Lemma zupto_length n : length (zupto n) = Z.to_nat n.
Proof. unfold zupto. rewrite map_length, seq_length. auto. Qed.
Lemma zupto_nodup n : NoDup (zupto n).
Proof. unfold zupto. apply FinFun.Injective_map_NoDup; [intros a b E; lia|apply seq_NoDup]. Qed.
Definition enum {A} (l : list A) : list (Z * A) := combine (zupto (zlen l)) l.
Lemma enum_length {A} (l : list A) : length (zupto (zlen l)) = length l.
Proof. rewrite zupto_length. unfold zlen. lia. Qed.
Lemma enum_get {A} (l : list A) i : get_at (enum l) i = option_map (fun x => (i, x)) (get_at l i).
Proof.
  unfold enum. unfold get_at at 1 2. destruct (i <? 0) eqn:N; auto.
  assert (forall (a : list Z) (b : list A) k, nth_error (combine a b) k = match nth_error a k, nth_error b k with Some x, Some y => Some (x, y) | _, _ => None end) as C.
  { induction a as [|x a IH]; intros [|y b] [|k]; cbn; auto; try (apply IH); destruct (nth_error a k); auto. }
  rewrite C. unfold zupto. destruct (nth_error l (Z.to_nat i)) as [y|] eqn:E; [|destruct (nth_error (map _ _) _); reflexivity].
  assert (Z.to_nat i < length l)%nat as L by (apply nth_error_Some; congruence).
  rewrite nth_error_map, (nth_error_nth' (seq 0 _) 0%nat) by (rewrite seq_length; unfold zlen; lia). rewrite seq_nth by (unfold zlen; lia). cbn. do 2 f_equal. lia.
Qed.
Lemma enum_In {A} (l : list A) i x : In (i, x) (enum l) <-> get_at l i = Some x.
Proof.
  split.
  - intros I. apply In_get_at in I. destruct I as (k & _ & G). rewrite enum_get in G. destruct (get_at l k) eqn:E; [|discriminate]. cbn in G. injection G as <- <-. auto.
  - intros G. apply (get_at_In _ i). rewrite enum_get, G. reflexivity.
Qed.
Lemma enum_nodup {A} (l : list A) : NoDup (enum l).
Proof. apply (NoDup_map_inv fst). unfold enum. rewrite combine_fst by apply enum_length. apply zupto_nodup. Qed.

Lemma pixels_In img i j v : In (i, j, v) (pixels img) <-> value_at img i j v.
Proof.
  unfold pixels, value_at. rewrite in_concat. split.
  - intros (l & Il & Ip). apply in_map_iff in Il. destruct Il as ((i', line) & <- & I1). apply in_map_iff in Ip. destruct Ip as ((j', v') & E & I2). cbn [fst snd] in *.
    injection E as -> -> ->. apply (enum_In img) in I1. apply (enum_In line) in I2. eauto.
  - intros (line & G1 & G2). apply enum_In in G1, G2. eexists. split; [apply in_map_iff; exists (i, line); split; [reflexivity|exact G1]|]. apply in_map_iff. exists (j, v). auto.
Qed.
Lemma concat_nodup {A} : forall (ls : list (list A)), (forall l, In l ls -> NoDup l) -> (forall i k l l' x, get_at ls i = Some l -> get_at ls k = Some l' -> In x l -> In x l' -> i = k) -> NoDup (concat ls).
Proof.
  induction ls as [|l ls IH]; intros N D; cbn [concat]; [constructor|].
  assert (NoDup (concat ls)) as Nc.
  { apply IH; [intros; apply N; right; auto|]. intros i k a b x Gi Gk Ia Ib. pose proof (get_at_inv _ _ _ Gi). pose proof (get_at_inv _ _ _ Gk).
    assert (i + 1 = k + 1); [|lia]. apply (D _ _ a b x); auto; rewrite get_cons_S by lia; rewrite Z.add_simpl_r; auto. }
  assert (forall x, In x l -> ~ In x (concat ls)) as X.
  { intros x Ix Ic. apply in_concat in Ic. destruct Ic as (l' & Il & Ix'). apply In_get_at in Il. destruct Il as (k & Rk & Gk).
    assert (0 = k + 1); [|lia]. apply (D _ _ l l' x); auto; try apply get_cons_0. rewrite get_cons_S by lia. now replace (k + 1 - 1) with k by lia. }
  assert (NoDup l) as Nl by (apply N; left; auto). clear N D IH. induction l as [|x l IH]; cbn [app]; auto. inversion Nl as [|? ? Nx Nl']; subst. constructor; [|apply IH; auto; intros; apply X; right; auto].
  rewrite in_app_iff. intros [I|I]; [auto|]. apply (X x); auto. left; auto.
Qed.
Lemma pixels_nodup img : NoDup (pixels img).
Proof.
  unfold pixels. apply concat_nodup.
  - intros l Il. apply in_map_iff in Il. destruct Il as ((i, line) & <- & _). apply FinFun.Injective_map_NoDup; [intros (a, b) (c, d) E; cbn in E; congruence|]. apply enum_nodup.
  - intros i k l l' ((a, b), v) Gi Gk Il Il'. rewrite get_map in Gi, Gk. change (combine (zupto (zlen img)) img) with (enum img) in *. rewrite enum_get in Gi, Gk.
    destruct (get_at img i); [|discriminate]. destruct (get_at img k); [|discriminate]. cbn in Gi, Gk. injection Gi as <-. injection Gk as <-.
    apply in_map_iff in Il, Il'. destruct Il as (p & E & _). destruct Il' as (q & E' & _). congruence.
Qed.
Lemma pixels_values img : map snd (pixels img) = concat img.
Proof.
  unfold pixels. rewrite concat_map, map_map.
  assert (forall il : Z * list Z, map snd (map (fun jv : Z * Z => (fst il, fst jv, snd jv)) (combine (zupto (zlen (snd il))) (snd il))) = snd il) as E.
  { intros (i, line). cbn [fst snd]. rewrite map_map. cbn [snd]. apply combine_snd, enum_length. }
  rewrite (map_ext _ snd E). f_equal. apply combine_snd, enum_length.
Qed.

(** ** Histogram *)
Definition short_image (img : list (list Z)) : Prop := Forall (Forall in_short) img.
Lemma short_pixels img px : short_image img -> In px (pixels img) -> in_short (snd px).
Proof.
  intros S I. assert (In (snd px) (concat img)) as Iv by (rewrite <- pixels_values; now apply in_map). apply in_concat in Iv. destruct Iv as (l & Il & Iv). unfold short_image in S. rewrite Forall_forall in S. specialize (S l Il). rewrite Forall_forall in S. auto.
Qed.
Definition counts_in (nodata : Z) (l : list (Z * Z * Z)) (row : Z) : Z := zlen (filter (fun px => negb (snd px =? nodata) && (snd px + offset =? row)) l).
Lemma tally_fold nodata : forall l c, (forall px, In px l -> in_short (snd px)) -> exists c',
  ofold (fun c (px : Z * Z * Z) => let v := snd px in if v =? nodata then Ret c else let row := v + offset in if (0 <=? row) && (row <? cells) then Ret (bump c row) else UB) l c = Ret c' /\
  forall row, c' row = c row + counts_in nodata l row.
Proof.
  induction l as [|px l IH]; intros c S; cbn [ofold]; [exists c; split; auto; intros; unfold counts_in, zlen; cbn; lia|]. cbv zeta.
  assert (in_short (snd px)) as Sp by (apply S; left; auto). unfold in_short in Sp. unfold counts_in. destruct (snd px =? nodata) eqn:E.
  - cbn [bind]. destruct (IH c) as (c' & E' & C); [intros; apply S; right; auto|]. exists c'. split; auto. intros row. rewrite C. cbn [filter]. rewrite E. reflexivity.
  - replace ((0 <=? snd px + offset) && (snd px + offset <? cells)) with true by (unfold offset, cells; lia). cbn [bind].
    destruct (IH (bump c (snd px + offset))) as (c' & E' & C); [intros; apply S; right; auto|]. exists c'. split; auto. intros row. rewrite C. cbn [filter]. rewrite E. unfold counts_in, bump. cbn [negb andb].
    rewrite (Z.eqb_sym row). destruct (snd px + offset =? row) eqn:E2; unfold zlen; cbn [length]; lia.
Qed.
Lemma tally_spec nodata img : short_image img -> exists c, tally nodata img = Ret c /\ forall row, c row = counts_in nodata (pixels img) row.
Proof.
  intros S. destruct (tally_fold nodata (pixels img) (fun _ => 0)) as (c & E & C); [intros; eapply short_pixels; eauto|]. exists c. split; [exact E|]. intros row. rewrite C. lia.
Qed.
Lemma counts_values nodata img v : v <> nodata -> counts_in nodata (pixels img) (v + offset) = zlen (filter (fun x => x =? v) (all_values img)).
Proof.
  intros N. unfold all_values. rewrite <- pixels_values. unfold counts_in, zlen. f_equal. induction (pixels img) as [|px l IH]; cbn [filter map]; auto.
  replace (negb (snd px =? nodata) && (snd px + offset =? v + offset)) with (snd px =? v) by lia. destruct (snd px =? v); cbn [length]; auto.
Qed.
Lemma counts_nodata nodata l : counts_in nodata l (nodata + offset) = 0.
Proof.
  unfold counts_in. induction l as [|px l IH]; cbn [filter]; auto. replace (negb (snd px =? nodata) && (snd px + offset =? nodata + offset)) with false by lia. auto.
Qed.
Lemma how_many_eq v l n : how_many (fun x : Z => x = v) l n <-> n = zlen (filter (fun x => x =? v) l).
Proof.
  split.
  - intros (l' & (f & F & ->) & <-). f_equal. apply filter_ext. intros a. pose proof (F a). destruct (f a), (a =? v) eqn:E; auto; [assert (a = v) by tauto; lia|assert (a = v) as Q by lia; assert (false = true) by tauto; discriminate].
  - intros ->. exists (filter (fun x => x =? v) l). split; auto. exists (fun x => x =? v). split; auto. intros a. lia.
Qed.
Lemma zupto_sorted n : StronglySorted Z.lt (zupto n).
Proof.
  unfold zupto. assert (forall k a, StronglySorted Z.lt (map Z.of_nat (seq a k))) as H.
  { induction k as [|k IH]; intros a; cbn [seq map]; constructor; auto. apply Forall_forall. intros x Ix. apply in_map_iff in Ix. destruct Ix as (y & <- & Iy). apply in_seq in Iy. lia. }
  apply H.
Qed.
Lemma sorted_filter {A} (R : A -> A -> Prop) f l : StronglySorted R l -> StronglySorted R (filter f l).
Proof.
  induction 1 as [|a l S IH F]; cbn [filter]; [constructor|]. destruct (f a); auto. constructor; auto. apply Forall_forall. intros x Ix. apply filter_In in Ix. rewrite Forall_forall in F. apply F. tauto.
Qed.
Lemma histogram_spec nodata img : short_image img -> in_short nodata -> exists h, histogram (Some nodata) img = Ret h /\ is_histogram nodata img h.
Proof.
  intros S Sn. unfold histogram. replace (in_shortb nodata) with true by (unfold in_short, in_shortb in *; lia). destruct (tally_spec nodata img S) as (c & -> & C). cbn [bind]. eexists. split; [reflexivity|]. split.
  - rewrite map_map. cbn [fst]. assert (StronglySorted Z.lt (filter (fun row => negb (c row =? 0)) (zupto cells))) as Q by apply sorted_filter, zupto_sorted.
    induction Q as [|a l Q IH F]; cbn [map]; constructor; auto. apply Forall_forall. intros x Ix. apply in_map_iff in Ix. destruct Ix as (y & <- & Iy). rewrite Forall_forall in F. specialize (F y Iy). lia.
  - intros v n. rewrite in_map_iff. split.
    + intros (row & E & I). apply filter_In in I. destruct I as (I & Nz). injection E as Ev En. assert (row = v + offset) as Er by lia. rewrite Er in *. clear row Er.
      assert (v <> nodata) as Nv. { intros ->. rewrite C, counts_nodata in Nz. discriminate. }
      rewrite C, counts_values in En, Nz by auto. split; auto. split; [unfold zlen in *; lia|]. apply how_many_eq. auto.
    + intros (Nv & P & H). apply how_many_eq in H. exists (v + offset). rewrite C, counts_values by auto. split; [f_equal; lia|]. apply filter_In. rewrite C, counts_values by auto. split; [|lia].
      apply zupto_In. assert (In v (all_values img)) as I.
      { destruct (filter (fun x => x =? v) (all_values img)) as [|y l] eqn:E; [unfold zlen in H; cbn in H; lia|]. assert (In y (filter (fun x => x =? v) (all_values img))) as Iy by (rewrite E; left; auto). apply filter_In in Iy. destruct Iy as (Iy & Ey). now replace v with y by lia. }
      unfold all_values in I. apply in_concat in I. destruct I as (l & Il & Iv). unfold short_image in S. rewrite Forall_forall in S. specialize (S l Il). rewrite Forall_forall in S. specialize (S v Iv). unfold in_short in S. unfold offset, cells. lia.
Qed.
