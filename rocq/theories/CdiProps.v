(** C158: the displacement index of Sentinel-2 and the clouds found with it. *)
From Coq Require Import Reals Lra Lia ZifyBool.
From Flocq Require Import Core.
From Verif Require Import Base BaseFacts Loops LoopsFacts RoundModel RoundFacts StatsModel StatsSpec StatsProofs CldModel CldSpec CldGrow CldProps2 ReadProofs ImgSpec CdiModel CdiSpec CdiProofs.
#[local] Open Scope Z_scope.

(** For every image of ratios: each cell gets the index and the smallest probability of its surroundings, nothing outside of the image is read,
    the first clouds are those described, and clouds may grow into the cells with an index below -0.25. *)
Theorem C158_index r0 r1 var2 nx ny : 0 <= nx -> 0 <= ny -> zlen r0 = nx * ny -> zlen r1 = nx * ny -> zlen var2 = nx * ny -> (forall v, In v var2 -> (v < 2147483647)%R) ->
  exists seeds cand cdi var3, parallax r0 r1 var2 nx ny = Ret (seeds, cand) /\ zlen seeds = nx * ny /\ zlen cand = nx * ny /\
    forall c, in_image nx ny c ->
      (exists v, at_cell cdi nx c v /\ index_is r0 r1 nx ny c v) /\ (exists v, at_cell var3 nx c v /\ least_is r0 var2 nx ny c v) /\
      (at_cell seeds nx c true <-> first_cloud nx ny (at_cell cdi nx) (at_cell var3 nx) c) /\
      (at_cell cand nx c true <-> exists x, at_cell cdi nx c (Val x) /\ (x < - (1 / 4))%R).
Proof.
  intros X Y L0 L1 L2 SM. destruct (omap_cells nx ny (fun c => cdi_at r0 r1 nx ny (fst c) (snd c)) (index_is r0 r1 nx ny) X Y) as (cdi & E1 & LC & HC). { intros c I. apply cdi_at_is; auto. }
  destruct (omap_cells nx ny (fun c => var3_at r0 var2 nx ny (fst c) (snd c)) (least_is r0 var2 nx ny) X Y) as (var3 & E2 & LV & HV). { intros c I. apply var3_at_is; auto. }
  destruct (omap_cells nx ny (fun c => seed_at cdi var3 nx ny (fst c) (snd c)) (fun c b => b = true <-> first_cloud nx ny (at_cell cdi nx) (at_cell var3 nx) c) X Y) as (seeds & E3 & LS & HS). { intros c I. apply seed_at_is; auto. }
  exists seeds, (map grows_into cdi), cdi, var3. unfold parallax. rewrite E1. cbn [bind]. rewrite E2. cbn [bind]. rewrite E3. cbn [bind]. split; [reflexivity|]. split; [exact LS|]. split; [unfold zlen in *; rewrite map_length; exact LC|].
  intros c I. destruct (HC c I) as (v & A & B). split; [eauto|]. split; [apply HV; exact I|]. split.
  - destruct (HS c I) as (b & G & K). rewrite <- K. unfold at_cell in *. rewrite G. split; [intros E; injection E as ->; reflexivity|intros ->; reflexivity].
  - unfold at_cell in *. unfold get_at in *. destruct (_ <? 0); [discriminate|]. rewrite nth_error_map, A. cbn [option_map]. split.
    + intros E. injection E as E. unfold grows_into in E. destruct v as [| |x]; try discriminate. exists x. split; auto. apply andb_prop in E as (E & _). apply Rltb_t in E. exact E.
    + intros (x & E & Q). injection E as ->. f_equal. unfold grows_into. apply andb_true_iff. split; [apply Rltb_t; exact Q|]. apply Rleb_t.
      destruct B as [(_ & B)|(u & l & _ & _ & _ & [(_ & B)|[(_ & _ & B)|(_ & N & B)]])]; try discriminate. injection B as ->. pose proof (contrast_bounds l N). apply (rnd32_between (-1) 1); [lia|lia|exact H].
Qed.
(** The index lies between -1 and 1. *)
Theorem C158_bounds r0 r1 nx ny c x : index_is r0 r1 nx ny c (Val x) -> (-1 <= x <= 1)%R.
Proof.
  intros [(_ & B)|(u & l & _ & _ & _ & [(_ & B)|[(_ & _ & B)|(_ & N & B)]])]; try discriminate. injection B as ->. apply (rnd32_between (-1) 1); [lia|lia|]. apply contrast_bounds. exact N.
Qed.
(** If the first ratio varies less than the second the index is not positive, and the other way round: of displaced objects and of others. *)
Theorem C158_sign r0 r1 nx ny c x : index_is r0 r1 nx ny c (Val x) -> exists l, pairs_around r0 r1 3 nx ny c l /\
  ((dev 2 (map fst l) <= dev 2 (map snd l))%R -> (x <= 0)%R) /\ ((dev 2 (map snd l) <= dev 2 (map fst l))%R -> (0 <= x)%R).
Proof.
  intros [(_ & B)|(u & l & _ & _ & P & [(_ & B)|[(_ & _ & B)|(_ & N & B)]])]; try discriminate. injection B as ->. exists l. split; auto. pose proof (dev2_nonneg (map fst l)) as X. pose proof (dev2_nonneg (map snd l)) as Y. assert (Q : (0 < / (dev 2 (map fst l) + dev 2 (map snd l)))%R) by (apply Rinv_0_lt_compat; lra).
  split; intros H; rewrite <- rnd32_0; apply rnd32_le; unfold contrast, Rdiv; cbv zeta; nra.
Qed.
(** Not every cell with enough neighbours has an index: where neither ratio varies it is 0/0. *)
Theorem C158_flat_refuted : ~ forall r0 r1 nx ny c l, 0 < nx -> 0 < ny -> zlen r0 = nx * ny -> zlen r1 = nx * ny -> in_image nx ny c ->
  pairs_around r0 r1 3 nx ny c l -> 3 <= zlen l -> (exists v, at_cell r0 nx c v /\ v <> 0%R) -> exists x, cdi_at r0 r1 nx ny (fst c) (snd c) = Ret (Val x).
Proof.
  intros H. pose proof (members_pairs [1; 1; 1]%R [1; 1; 1]%R 3 1 eq_refl eq_refl 3 (0, 0)) as P. set (l := map (pair_of [1; 1; 1]%R [1; 1; 1]%R 3) (members [1; 1; 1]%R 3 1 3 (0, 0))) in *.
  assert (C : forall p, In p l -> p = (1, 1)%R). { intros p I. unfold l in I. apply in_map_iff in I as (e & <- & I). apply (members_in [1; 1; 1]%R 3 1 eq_refl) in I. destruct e as (a, b). destruct I as (A & B). cbn [fst snd] in *. assert (b = 0 \/ b = 1 \/ b = 2) as [-> |[-> | ->]] by lia; replace a with 0 by lia; reflexivity. }
  assert (L : 3 <= zlen l). { unfold l, zlen. rewrite map_length. assert (incl [(0, 0); (0, 1); (0, 2)] (members [1; 1; 1]%R 3 1 3 (0, 0))).
    { intros e I. apply (members_part [1; 1; 1]%R 3 1 eq_refl). cbn [In] in I. repeat (destruct I as [<-|I]; [split; [repeat split; cbn; lia|exists 1%R; split; [reflexivity|lra]]|]). contradiction. }
    apply NoDup_incl_length in H0; [cbn [length] in H0; lia|]. repeat constructor; cbn; intuition congruence. }
  destruct (H [1; 1; 1]%R [1; 1; 1]%R 3 1 (0, 0) l ltac:(lia) ltac:(lia) eq_refl eq_refl ltac:(split; cbn; lia) P L ltac:(exists 1%R; split; [reflexivity|lra])) as (x & E).
  pose proof (feed_all [1; 1; 1]%R [1; 1; 1]%R 3 1 eq_refl eq_refl (0, 0) (offsets 3) []) as F. cbn [filter map app] in F. change (state_of []) with (0, mkCovar 0 0 0 0 0) in F. unfold cdi_at in E. change (get_at [1; 1; 1]%R (fst (0, 0) * 3 + snd (0, 0))) with (Some 1%R) in E. cbn [of_option bind] in E. rewrite (proj2 (Reqb_f 1 0)) in E by lra.
  rewrite F in E. cbn [bind] in E. change (map (shift (0, 0)) (filter (taking [1; 1; 1]%R 3 1 (0, 0)) (offsets 3))) with (members [1; 1; 1]%R 3 1 3 (0, 0)) in E. fold l in E. unfold state_of in E. cbn [fst snd] in E. rewrite (proj2 (Z.gtb_lt _ _)) in E by lia. destruct (variances l L) as (V1 & V2). rewrite V1, V2 in E.
  assert (D : forall f : R * R -> R, (f (1, 1)%R = 1)%R -> dev 2 (map f l) = 0%R).
  { intros f F1. assert (M : map f l = repeat 1%R (length l)). { clear - C F1. induction l as [|p l IH]; cbn [map length repeat]; auto. rewrite (C p) by now left. rewrite F1. f_equal. apply IH. intros q I. apply C. now right. }
    rewrite M. assert (S : forall n, sum (fun x : R => x) (repeat 1%R n) = INR n). { induction n; cbn [repeat sum]; [reflexivity|]. rewrite IHn, S_INR. lra. }
    assert (MM : mean (repeat 1%R (length l)) = 1%R). { unfold mean, size. rewrite S, repeat_length. field. apply not_0_INR. unfold zlen in L. lia. } unfold dev. rewrite MM. clear. induction (length l) as [|n IH]; cbn [repeat sum]; [reflexivity|]. rewrite IH. lra. }
  rewrite !D in E by reflexivity. rewrite (proj2 (Reqb_t _ _)) in E by (unfold Rdiv; ring). discriminate.
Qed.
(** From the ratios to the mask: marked are the bright pixels that are saturated or lie in a cell that becomes a cloud. *)
Theorem C158_mask r0 r1 var2 sat brt fx fy : let nx := fx / 2 in let ny := fy / 2 in
  0 < nx -> 0 < ny -> fx <= 65536 -> fy <= 65536 -> nx * ny <= 2147483647 -> zlen r0 = nx * ny -> zlen r1 = nx * ny -> zlen var2 = nx * ny -> (forall v, In v var2 -> (v < 2147483647)%R) -> zlen sat = fx * fy -> zlen brt = fx * fy ->
  exists cdi var3 out, (s <- parallax r0 r1 var2 nx ny ;; parallax_mask (fst s) (snd s) sat brt fx fy) = Ret (SUCCESS, out) /\
    (forall c, in_image nx ny c -> (exists v, at_cell cdi nx c v /\ index_is r0 r1 nx ny c v) /\ exists v, at_cell var3 nx c v /\ least_is r0 var2 nx ny c v) /\
    forall y x, 0 <= y < fy -> 0 <= x < fx ->
      (at_cell out fx (y, x) true <-> at_cell brt fx (y, x) true /\ (at_cell sat fx (y, x) true \/ grown nx ny (at_cell cdi nx) (at_cell var3 nx) (y / 2, x / 2))).
Proof.
  intros nx ny NX NY BX BY BI L0 L1 L2 SM LS LB. destruct (C158_index r0 r1 var2 nx ny ltac:(lia) ltac:(lia) L0 L1 L2 SM) as (seeds & cand & cdi & var3 & E & LSe & LCa & H). exists cdi, var3. rewrite E. cbn [bind fst snd].
  destruct (C113_region_growing seeds cand sat brt fx fy ltac:(repeat split; auto) LCa BX BY LS LB) as (out & EO & LO & HO). exists out. split; [exact EO|]. split. { intros c I. destruct (H c I) as (A & B & _). auto. }
  assert (T : forall (img : list bool) w h y x, inside w h y x -> is_true img w h y x <-> at_cell img w (y, x) true). { intros img w h y x I. unfold is_true, at_cell, pix. cbn [fst snd]. rewrite (Z.mul_comm w y). tauto. }
  intros y x Hy Hx. assert (I : inside fx fy y x) by (split; lia). pose proof (HO y x I) as K. rewrite !T in K by exact I. rewrite K. clear K HO. fold nx ny.
  assert (G : forall c, linked seeds cand nx ny (fst c) (snd c) <-> grown nx ny (at_cell cdi nx) (at_cell var3 nx) c).
  { intros (a, b). cbn [fst snd]. split.
    - induction 1 as [a b S|a b a' b' _ IH AD S].
      + pose proof S as (J & _). apply T in S; [|exact J]. apply grown_first; [exact J|]. apply (H (a, b) J). exact S.
      + pose proof S as (J & _). apply T in S; [|exact J]. apply (H (a', b') J) in S. destruct S as (v & V & Q). destruct AD as (A1 & A2 & A3). eapply grown_next; [exact IH| |congruence|exact V|exact Q]. split; [exact J|]. cbn [fst snd]. lia.
    - intros K. remember (a, b) as c eqn:Ec. revert a b Ec. induction K as [c J S|c d v _ IH CL N V Q]; intros a b ->.
      + apply linked_seed. apply T; [exact J|]. apply (H (a, b) J). exact S.
      + destruct CL as (J & A1 & A2). destruct c as (a0, b0). cbn [fst snd] in *. apply (linked_step _ _ _ _ a0 b0); [apply IH; reflexivity| |]. { split; [lia|]. split; [lia|congruence]. } apply T; [exact J|]. apply (H (a, b) J). exists v. auto. }
  pose proof (G (y / 2, x / 2)) as GG. cbn [fst snd] in GG. rewrite GG. tauto.
Qed.

(** ** A case: three cells, only the second ratio varies; the index is -1, all cells are displaced, and the middle one is a first cloud. *)
Lemma three_part c e : in_image 3 1 c -> (part [1; 1; 1]%R 3 3 1 c e <-> In e [(0, 0); (0, 1); (0, 2)]).
Proof.
  intros (C1 & C2). unfold part, close, at_cell. split.
  - intros (((A & B) & _) & _). destruct e as (a, b). cbn [fst snd] in *. assert (b = 0 \/ b = 1 \/ b = 2) as [-> |[-> | ->]] by lia; replace a with 0 by lia; cbn; auto.
  - intros I. split.
    + cbn [In] in I. repeat (destruct I as [<-|I]; [repeat split; cbn [fst snd]; lia|]). contradiction.
    + exists 1%R. split; [|lra]. cbn [In] in I. repeat (destruct I as [<-|I]; [reflexivity|]). contradiction.
Qed.
Example C158_case c : in_image 3 1 c -> index_is [1; 1; 1]%R [1; 2; 3]%R 3 1 c (Val (-1)).
Proof.
  intros I. right. exists 1%R, [(1, 1); (1, 2); (1, 3)]%R. split. { destruct c as (a, b). destruct I as (A & B). cbn [fst snd] in *. unfold at_cell. cbn [fst snd]. assert (b = 0 \/ b = 1 \/ b = 2) as [-> |[-> | ->]] by lia; replace a with 0 by lia; reflexivity. }
  split; [lra|]. split.
  - exists [(0, 0); (0, 1); (0, 2)]. split; [repeat constructor; cbn; intuition congruence|]. split; [intros d; symmetry; apply three_part; exact I|]. repeat constructor.
  - right. right. assert (D1 : dev 2 (map fst [(1, 1); (1, 2); (1, 3)]%R) = 0%R) by (unfold dev, mean, size; cbn; lra). assert (D2 : dev 2 (map snd [(1, 1); (1, 2); (1, 3)]%R) = 2%R) by (unfold dev, mean, size; cbn; lra). rewrite D1, D2. split; [cbv; congruence|]. split; [lra|]. f_equal. unfold contrast. cbv zeta. rewrite D1, D2. replace ((0 - 2) / (0 + 2))%R with (-1)%R by lra. symmetry. apply (rnd32_int (-1)). lia.
Qed.
Example C158_case_first var3 : zlen var3 = 3 -> first_cloud 3 1 (at_cell [Val (-1); Val (-1); Val (-1)] 3) (at_cell var3 3) (0, 1).
Proof.
  intros L. assert (A : forall d, in_image 3 1 d -> at_cell [Val (-1); Val (-1); Val (-1)] 3 d (Val (-1))). { intros (a, b) (A & B). cbn [fst snd] in *. unfold at_cell. cbn [fst snd]. assert (b = 0 \/ b = 1 \/ b = 2) as [-> |[-> | ->]] by lia; replace a with 0 by lia; reflexivity. }
  split.
  - destruct (get_at_some var3 1) as (v & V); [lia|]. exists (-1)%R, v. split; [apply A; split; cbn; lia|]. split; [exact V|]. left. lra.
  - intros d (I & _). specialize (A d I). unfold at_cell in *. rewrite A. split; [discriminate|]. intros x v E _. injection E as <-. left. lra.
Qed.

Print Assumptions C158_index.
Print Assumptions C158_mask.
Print Assumptions C158_flat_refuted.
