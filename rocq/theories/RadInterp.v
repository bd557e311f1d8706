(** Proofs about the interpolation of the coarse grids. *)
From Coq Require Import Reals Lra.
From Flocq Require Import Core.
From Verif Require Import Base BaseFacts Loops LoopsFacts RadModel RadSpec.
From Coq Require Import Lia.
#[local] Open Scope R_scope.

Lemma floor_in x n : 0 <= x < IZR n -> (0 <= Zfloor x < n)%Z.
Proof.
  intros (A & B). split.
  - rewrite <- (Zfloor_IZR 0). now apply Zfloor_le.
  - apply lt_IZR. eapply Rle_lt_trans; [apply Zfloor_lb|exact B].
Qed.
(** The two cells of an axis: inside the grid, neighbours, and around the coordinate. *)
Lemma axis_ok x n lo hi : 0 <= x < IZR n -> axis_cells x n = (lo, hi) -> (0 <= lo < n)%Z /\ (0 <= hi < n)%Z /\
  (lo = hi \/ (hi = lo + 1)%Z /\ IZR lo + 0.5 <= x <= IZR hi + 0.5).
Proof.
  intros X. pose proof (floor_in x n X) as F. pose proof (Zfloor_lb x) as L. pose proof (Zfloor_ub x) as U. unfold axis_cells. set (c := Zfloor x) in *. clearbody c.
  destruct (Rlt_dec (x - IZR c) 0.5) as [C|C].
  - destruct (Z.ltb_spec (c - 1) 0) as [M|M], (Z.geb_spec c n) as [K|K]; try lia; intros [= <- <-]; (split; [lia|]); (split; [lia|]); auto.
    right. split; [lia|]. rewrite minus_IZR. lra.
  - destruct (Z.ltb_spec c 0) as [M|M], (Z.geb_spec (c + 1) n) as [K|K]; try lia; intros [= <- <-]; (split; [lia|]); (split; [lia|]); auto.
    right. split; [lia|]. rewrite plus_IZR. lra.
Qed.
(** Weights of two neighbours. *)
Lemma pair_ok same va vb x ca cb w1 w2 v : pair_weights same va vb x ca cb = (w1, w2, v) -> (same = false -> ca <= x <= cb /\ ca < cb) ->
  0 <= w1 /\ 0 <= w2 /\ (v = true -> w1 + w2 = 1) /\ (v = false -> w1 = 0 /\ w2 = 0 /\ va = false /\ vb = false) /\
  (same = false -> (va = false -> w1 = 0) /\ (vb = false -> w2 = 0) /\ (va = true \/ vb = true -> v = true) /\
     (va = true -> vb = true -> w1 * ca + w2 * cb = x)).
Proof.
  unfold pair_weights. intros E H. destruct same.
  - injection E as <- <- <-. repeat split; try lra; intros; discriminate.
  - destruct (H eq_refl) as ((A & B) & C). destruct va, vb; injection E as <- <- <-; cbn [andb]; repeat split; intros; try discriminate; try lra; try (now auto); try (destruct H0; discriminate).
    + apply Rmult_le_pos; [lra|]. left. apply Rinv_0_lt_compat. lra.
    + apply Rmult_le_pos; [lra|]. left. apply Rinv_0_lt_compat. lra.
    + field. lra.
    + field. lra.
Qed.
Lemma axis_weights x n lo hi va vb w1 w2 v : 0 <= x < IZR n -> axis_cells x n = (lo, hi) ->
  pair_weights (lo =? hi)%Z va vb x (IZR lo + 0.5) (IZR hi + 0.5) = (w1, w2, v) ->
  0 <= w1 /\ 0 <= w2 /\ (v = true -> w1 + w2 = 1) /\ (v = false -> w1 = 0 /\ w2 = 0 /\ va = false /\ vb = false) /\
  (lo <> hi -> (va = false -> w1 = 0) /\ (vb = false -> w2 = 0) /\ (va = true \/ vb = true -> v = true) /\
     (va = true -> vb = true -> w1 * (IZR lo + 0.5) + w2 * (IZR hi + 0.5) = x)).
Proof.
  intros X AX P. destruct (axis_ok _ _ _ _ X AX) as (_ & _ & G). apply pair_ok in P.
  - destruct P as (A & B & C & D & E). split; [auto|]. split; [auto|]. split; [auto|]. split; [auto|]. intros N. apply E. now apply Z.eqb_neq.
  - intros N. apply Z.eqb_neq in N. destruct G as [G|(G & G')]; [tauto|]. split; auto. subst hi. rewrite plus_IZR. lra.
Qed.

(** The cells read lie in the grid. *)
Lemma cell_in r c nf ne : (0 <= r < ne)%Z -> (0 <= c < nf)%Z -> (0 <= r * nf + c < nf * ne)%Z.
Proof. intros R C. assert ((r + 1) * nf <= ne * nf)%Z by (apply Z.mul_le_mono_nonneg_r; lia). assert (0 <= r * nf)%Z by (apply Z.mul_nonneg_nonneg; lia). lia. Qed.

Section Grid.
Variables (x y : R) (nf ne : Z) (valid : Z -> bool).
Hypothesis X : 0 <= x < IZR nf.
Hypothesis Y : 0 <= y < IZR ne.
#[local] Notation w := (interpolation_weights x y nf ne valid).
Lemma cells : exists l r t d,
  axis_cells x nf = (l, r) /\ axis_cells y ne = (t, d) /\ gul w = (t * nf + l)%Z /\ gur w = (t * nf + r)%Z /\ gll w = (d * nf + l)%Z /\ glr w = (d * nf + r)%Z /\
  exists vt vd v, pair_weights (l =? r)%Z (valid (gul w)) (valid (gur w)) x (IZR l + 0.5) (IZR r + 0.5) = (wul w, wur w, vt) /\
    pair_weights (l =? r)%Z (valid (gll w)) (valid (glr w)) x (IZR l + 0.5) (IZR r + 0.5) = (wll w, wlr w, vd) /\
    pair_weights (t =? d)%Z vt vd y (IZR t + 0.5) (IZR d + 0.5) = (wtop w, wdown w, v).
Proof using.
  clear X Y. unfold interpolation_weights. destruct (axis_cells x nf) as (l, r). destruct (axis_cells y ne) as (t, d). exists l, r, t, d.
  destruct (pair_weights (l =? r)%Z (valid (t * nf + l)%Z) (valid (t * nf + r)%Z) x (IZR l + 0.5) (IZR r + 0.5)) as ((a1 & a2) & vt) eqn:E1.
  destruct (pair_weights (l =? r)%Z (valid (d * nf + l)%Z) (valid (d * nf + r)%Z) x (IZR l + 0.5) (IZR r + 0.5)) as ((b1 & b2) & vd) eqn:E2.
  destruct (pair_weights (t =? d)%Z vt vd y (IZR t + 0.5) (IZR d + 0.5)) as ((c1 & c2) & v) eqn:E3.
  cbn [gul gur gll glr wul wur wll wlr wtop wdown]. repeat split; auto. exists vt, vd, v. auto.
Qed.
Lemma four_in g : In g [gul w; gur w; gll w; glr w] -> (0 <= g < nf * ne)%Z.
Proof using X Y.
  destruct cells as (l & r & t & d & AX & AY & E1 & E2 & E3 & E4 & _). destruct (axis_ok _ _ _ _ X AX) as (L & R & _). destruct (axis_ok _ _ _ _ Y AY) as (T & D & _).
  intros [<-|[<-|[<-|[<-|[]]]]]; rewrite ?E1, ?E2, ?E3, ?E4; now apply cell_in.
Qed.
(** The weights of the four cells. *)
Definition four : list (Z * R) := [(gul w, wtop w * wul w); (gur w, wtop w * wur w); (gll w, wdown w * wll w); (glr w, wdown w * wlr w)].
Lemma four_nonneg : Forall (fun gw => 0 <= snd gw) four.
Proof using X Y.
  destruct cells as (l & r & t & d & AX & AY & E1 & E2 & E3 & E4 & vt & vd & v & P1 & P2 & P3).
  apply (axis_weights _ _ _ _ _ _ _ _ _ X AX) in P1. apply (axis_weights _ _ _ _ _ _ _ _ _ X AX) in P2. apply (axis_weights _ _ _ _ _ _ _ _ _ Y AY) in P3.
  unfold four. repeat apply Forall_cons; [..|constructor]; cbn [snd]; apply Rmult_le_pos; tauto.
Qed.
Definition sum4 (f : Z -> R) : R := wtop w * wul w * f (gul w) + wtop w * wur w * f (gur w) + wdown w * wll w * f (gll w) + wdown w * wlr w * f (glr w).
Lemma four_sum : (exists g, In g [gul w; gur w; gll w; glr w] /\ valid g = true) -> sum4 (fun _ => 1) = 1.
Proof using X Y.
  intros (g & I & V). destruct cells as (l & r & t & d & AX & AY & E1 & E2 & E3 & E4 & vt & vd & v & P1 & P2 & P3).
  assert (t = d -> vt = vd) as EQ. { intros Q. assert (gul w = gll w) as Q1 by congruence. assert (gur w = glr w) as Q2 by congruence. rewrite Q1, Q2, P2 in P1. congruence. }
  assert (vt = true \/ vd = true) as K.
  { destruct vt; auto. destruct vd; auto. apply (axis_weights _ _ _ _ _ _ _ _ _ X AX) in P1, P2. destruct P1 as (_ & _ & _ & P1 & _). destruct P2 as (_ & _ & _ & P2 & _).
    destruct (P1 eq_refl) as (_ & _ & A & B). destruct (P2 eq_refl) as (_ & _ & C & D). destruct I as [<-|[<-|[<-|[<-|[]]]]]; congruence. }
  apply (axis_weights _ _ _ _ _ _ _ _ _ X AX) in P1, P2. apply (axis_weights _ _ _ _ _ _ _ _ _ Y AY) in P3. unfold sum4.
  destruct P1 as (_ & _ & S1 & Z1 & _). destruct P2 as (_ & _ & S2 & Z2 & _). destruct P3 as (_ & _ & S3 & Z3 & R3).
  destruct v. 2: { destruct (Z3 eq_refl) as (_ & _ & A & B). destruct K; congruence. }
  specialize (S3 eq_refl). assert (vt = true -> vd = true -> wtop w * wul w * 1 + wtop w * wur w * 1 + wdown w * wll w * 1 + wdown w * wlr w * 1 = 1) as BOTH.
  { intros Q1 Q2. specialize (S1 Q1). specialize (S2 Q2). replace (wtop w * wul w * 1 + wtop w * wur w * 1 + wdown w * wll w * 1 + wdown w * wlr w * 1) with (wtop w * (wul w + wur w) + wdown w * (wll w + wlr w)) by ring. rewrite S1, S2. lra. }
  destruct (Z.eq_dec t d) as [Q|Q].
  - specialize (EQ Q). apply BOTH; destruct K; congruence.
  - destruct (R3 Q) as (A & B & _). destruct vt, vd; try (destruct K; discriminate).
    + now apply BOTH.
    + rewrite (B eq_refl). rewrite (B eq_refl) in S3. specialize (S1 eq_refl). replace (wtop w * wul w * 1 + wtop w * wur w * 1 + 0 * wll w * 1 + 0 * wlr w * 1) with (wtop w * (wul w + wur w)) by ring. rewrite S1. lra.
    + rewrite (A eq_refl). rewrite (A eq_refl) in S3. specialize (S2 eq_refl). replace (0 * wul w * 1 + 0 * wur w * 1 + wdown w * wll w * 1 + wdown w * wlr w * 1) with (wdown w * (wll w + wlr w)) by ring. rewrite S2. lra.
Qed.
(** Away from the left and right border, invalid cells get no weight. *)
Lemma four_valid g v : 0.5 <= x < IZR nf - 0.5 -> In (g, v) four -> valid g = false -> v = 0.
Proof using X Y.
  intros B I N. destruct cells as (l & r & t & d & AX & AY & E1 & E2 & E3 & E4 & vt & vd & v' & P1 & P2 & P3).
  assert (l <> r) as LR.
  { intros ->. revert AX. unfold axis_cells. pose proof (floor_in x nf X) as F. pose proof (Zfloor_lb x) as L. pose proof (Zfloor_ub x) as U. set (c := Zfloor x) in *. clearbody c.
    destruct (Rlt_dec (x - IZR c) 0.5) as [C|C].
    - destruct (Z.ltb_spec (c - 1) 0) as [M|M], (Z.geb_spec c nf) as [K|K]; try lia; intros [= Q1 Q2]; try lia. assert (c = 0%Z) as -> by lia. lra.
    - destruct (Z.ltb_spec c 0) as [M|M], (Z.geb_spec (c + 1) nf) as [K|K]; try lia; intros [= Q1 Q2]; try lia. assert (nf = c + 1)%Z as -> by lia. rewrite plus_IZR in B. lra. }
  apply (axis_weights _ _ _ _ _ _ _ _ _ X AX) in P1, P2. destruct P1 as (_ & _ & _ & _ & P1). destruct P2 as (_ & _ & _ & _ & P2). specialize (P1 LR). specialize (P2 LR).
  unfold four in I. destruct I as [[= <- <-]|[[= <- <-]|[[= <- <-]|[[= <- <-]|[]]]]].
  - destruct P1 as (Q & _). rewrite Q by auto. ring.
  - destruct P1 as (_ & Q & _). rewrite Q by auto. ring.
  - destruct P2 as (Q & _). rewrite Q by auto. ring.
  - destruct P2 as (_ & Q & _). rewrite Q by auto. ring.
Qed.
Lemma sum4_le f g : (forall c v, In (c, v) four -> v <> 0 -> f c <= g c) -> sum4 f <= sum4 g.
Proof using X Y.
  intros H. pose proof four_nonneg as P. unfold four in P. rewrite !Forall_cons_iff in P. cbn [snd] in P. destruct P as (P1 & P2 & P3 & P4 & _).
  assert (forall c v, In (c, v) four -> 0 <= v -> v * f c <= v * g c) as K.
  { intros c v I N. destruct (Req_dec v 0) as [->|Q]; [lra|]. apply Rmult_le_compat_l; auto. eapply H; eauto. }
  unfold sum4. repeat apply Rplus_le_compat; apply K; auto; unfold four; cbn; auto.
Qed.
Lemma read_four grid : zlen grid = (nf * ne)%Z -> interpolate_coarse w grid = Ret (sum4 (fun c => match get_at grid c with Some v => v | None => 0 end)).
Proof using X Y.
  intros Z. unfold interpolate_coarse. assert (forall g, In g [gul w; gur w; gll w; glr w] -> exists v, get_at grid g = Some v) as K. { intros g I. apply get_at_some. rewrite Z. now apply four_in. }
  destruct (K (gul w)) as (a & Ea); [cbn; auto|]. destruct (K (gur w)) as (b & Eb); [cbn; auto|]. destruct (K (gll w)) as (c & Ec); [cbn; auto 6|]. destruct (K (glr w)) as (e & Ee); [cbn; auto 6|].
  unfold sum4. rewrite Ea, Eb, Ec, Ee. cbn. f_equal. ring.
Qed.
(** The four cells are around the coordinate, and nothing nearer is left out. *)
Lemma axis_near z n lo hi c : 0 <= z < IZR n -> axis_cells z n = (lo, hi) -> c = lo \/ c = hi -> Rabs (IZR c + 0.5 - z) <= 1.
Proof using.
  clear. intros Z A C. pose proof A as A'. destruct (axis_ok _ _ _ _ Z A) as (L & H & [E|(E & B)]).
  - subst hi. assert (c = lo) as -> by tauto. clear C. unfold axis_cells in A'. pose proof (Zfloor_lb z). pose proof (Zfloor_ub z). set (f := Zfloor z) in *. assert (lo = f) as ->. { destruct (Rlt_dec (z - IZR f) 0.5), (Z.ltb_spec (f - 1) 0), (Z.geb_spec f n), (Z.ltb_spec f 0), (Z.geb_spec (f + 1) n); injection A' as <- ?; lia. }
    apply Rabs_le. lra.
  - subst hi. rewrite plus_IZR in B. destruct C as [-> | ->]; [|rewrite plus_IZR]; apply Rabs_le; lra.
Qed.
Lemma axis_nearest z n lo hi c : 0 <= z < IZR n -> axis_cells z n = (lo, hi) -> (0 <= c < n)%Z -> Rabs (IZR c + 0.5 - z) < 1 -> c = lo \/ c = hi.
Proof using.
  clear. intros Z A C D. apply Rabs_def2 in D. unfold axis_cells in A. pose proof (floor_in z n Z) as F. pose proof (Zfloor_lb z) as L. pose proof (Zfloor_ub z) as U. set (f := Zfloor z) in *. clearbody f.
  assert (IZR c < IZR f + 1.5) as B1 by lra. assert (IZR f - 1.5 < IZR c) as B2 by lra. assert (c <= f + 1)%Z. { assert (c < f + 2)%Z; [apply lt_IZR; rewrite plus_IZR; lra|lia]. } assert (f - 1 <= c)%Z. { assert (f - 2 < c)%Z; [apply lt_IZR; rewrite minus_IZR; lra|lia]. }
  destruct (Rlt_dec (z - IZR f) 0.5) as [Q|Q].
  - assert (c <> f + 1)%Z. { intros ->. rewrite plus_IZR in *. lra. } destruct (Z.ltb_spec (f - 1) 0), (Z.geb_spec f n); injection A as <- <-; lia.
  - assert (c <> f - 1)%Z. { intros ->. rewrite minus_IZR in *. lra. } destruct (Z.ltb_spec f 0), (Z.geb_spec (f + 1) n); injection A as <- <-; lia.
Qed.
Lemma four_around g : In g [gul w; gur w; gll w; glr w] -> exists r c, g = (r * nf + c)%Z /\ around Rle x y nf ne r c.
Proof using X Y.
  destruct cells as (l & r & t & d & AX & AY & E1 & E2 & E3 & E4 & _). destruct (axis_ok _ _ _ _ X AX) as (L & R & _). destruct (axis_ok _ _ _ _ Y AY) as (T & D & _).
  intros I. unfold around. destruct I as [<-|[<-|[<-|[<-|[]]]]]; rewrite ?E1, ?E2, ?E3, ?E4; eexists _, _; (split; [reflexivity|]); repeat split; try lia; eapply axis_near; eauto.
Qed.
Lemma around_four r c : around Rlt x y nf ne r c -> In (r * nf + c)%Z [gul w; gur w; gll w; glr w].
Proof using X Y.
  intros (R & C & DX & DY). destruct cells as (l & r' & t & d & AX & AY & E1 & E2 & E3 & E4 & _).
  destruct (axis_nearest _ _ _ _ _ X AX C DX) as [-> | ->], (axis_nearest _ _ _ _ _ Y AY R DY) as [-> | ->]; rewrite E1, E2, E3, E4; cbn; auto.
Qed.
Lemma sum4_const k : (exists g, In g [gul w; gur w; gll w; glr w] /\ valid g = true) -> sum4 (fun _ => k) = k.
Proof using X Y. intros H. transitivity (sum4 (fun _ => 1) * k); [unfold sum4; ring|]. rewrite (four_sum H). ring. Qed.
(** Convex hull of the valid cells around the coordinate. *)
Lemma interp_hull grid lo hi : zlen grid = (nf * ne)%Z -> (exists r c, around Rlt x y nf ne r c /\ valid (r * nf + c)%Z = true) ->
  0.5 <= x < IZR nf - 0.5 \/ (forall r c, around Rle x y nf ne r c -> valid (r * nf + c)%Z = true) ->
  (forall r c v, around Rle x y nf ne r c -> valid (r * nf + c)%Z = true -> get_at grid (r * nf + c)%Z = Some v -> lo <= v <= hi) ->
  exists v, interpolate_coarse w grid = Ret v /\ lo <= v <= hi.
Proof using X Y.
  intros Z (r0 & c0 & A0 & V0) BORDER HULL. rewrite read_four by auto. eexists. split; [reflexivity|].
  assert (exists g, In g [gul w; gur w; gll w; glr w] /\ valid g = true) as EX. { exists (r0 * nf + c0)%Z. split; auto. now apply around_four. }
  assert (forall c v, In (c, v) four -> v <> 0 -> lo <= match get_at grid c with Some a => a | None => 0 end <= hi) as K.
  { intros c v I N. assert (In c [gul w; gur w; gll w; glr w]) as J. { unfold four in I. destruct I as [[= <- _]|[[= <- _]|[[= <- _]|[[= <- _]|[]]]]]; cbn; auto. }
    destruct (get_at_some grid c) as (a & Ea). { rewrite Z. now apply four_in. } rewrite Ea.
    destruct (four_around c J) as (r & k & -> & AR). apply (HULL r k); auto. destruct BORDER as [B|B]; [|now apply B].
    destruct (valid (r * nf + k)%Z) eqn:VV; auto. destruct N. eapply four_valid; eauto. }
  split.
  - rewrite <- (sum4_const lo EX). apply sum4_le. intros c v I N. eapply K; eauto.
  - rewrite <- (sum4_const hi EX). apply sum4_le. intros c v I N. eapply K; eauto.
Qed.
(** With no valid cell nearby the result is 0 away from the border. *)
Lemma interp_none grid : zlen grid = (nf * ne)%Z -> 0.5 <= x < IZR nf - 0.5 -> (forall r c, around Rle x y nf ne r c -> valid (r * nf + c)%Z = false) -> interpolate_coarse w grid = Ret 0.
Proof using X Y.
  intros Z B N. rewrite read_four by auto. f_equal. unfold sum4.
  assert (forall c v, In (c, v) four -> v = 0) as K. { intros c v I. eapply four_valid; eauto. assert (In c [gul w; gur w; gll w; glr w]) as J. { unfold four in I. destruct I as [[= <- _]|[[= <- _]|[[= <- _]|[[= <- _]|[]]]]]; cbn; auto. } destruct (four_around c J) as (r & k & -> & AR). now apply N. }
  rewrite (K (gul w) (wtop w * wul w)), (K (gur w) (wtop w * wur w)), (K (gll w) (wdown w * wll w)), (K (glr w) (wdown w * wlr w)); unfold four; cbn; auto. ring.
Qed.
(** Linear fields are reproduced in the interior. *)
Lemma interp_linear grid a b e : zlen grid = (nf * ne)%Z -> 0.5 <= x < IZR nf - 0.5 -> 0.5 <= y < IZR ne - 0.5 ->
  (forall r c, around Rle x y nf ne r c -> valid (r * nf + c)%Z = true /\ get_at grid (r * nf + c)%Z = Some (a + b * (IZR c + 0.5) + e * (IZR r + 0.5))) ->
  interpolate_coarse w grid = Ret (a + b * x + e * y).
Proof using X Y.
  intros Z BX BY H.
  assert (forall z n lo hi, 0 <= z < IZR n -> 0.5 <= z < IZR n - 0.5 -> axis_cells z n = (lo, hi) -> lo <> hi) as NEQ.
  { clear. intros z n lo hi Z B A <-. revert A. unfold axis_cells. pose proof (floor_in z n Z) as F. pose proof (Zfloor_lb z) as L. pose proof (Zfloor_ub z) as U. set (c := Zfloor z) in *. clearbody c.
    destruct (Rlt_dec (z - IZR c) 0.5) as [C|C].
    - destruct (Z.ltb_spec (c - 1) 0) as [M|M], (Z.geb_spec c n) as [K|K]; try lia; intros [= Q1 Q2]; try lia. assert (c = 0%Z) as -> by lia. lra.
    - destruct (Z.ltb_spec c 0) as [M|M], (Z.geb_spec (c + 1) n) as [K|K]; try lia; intros [= Q1 Q2]; try lia. assert (n = c + 1)%Z as -> by lia. rewrite plus_IZR in B. lra. }
  assert (forall g, In g [gul w; gur w; gll w; glr w] -> valid g = true) as V. { intros g I. destruct (four_around g I) as (r & c & -> & AR). now apply H. }
  pose proof (read_four grid Z) as RD. pose proof (four_around) as FA. destruct cells as (l & r & t & d & AX & AY & E1 & E2 & E3 & E4 & vt & vd & v & P1 & P2 & P3).
  pose proof (NEQ _ _ _ _ X BX AX) as LR. pose proof (NEQ _ _ _ _ Y BY AY) as TD.
  destruct (axis_ok _ _ _ _ X AX) as (L & R & _). destruct (axis_ok _ _ _ _ Y AY) as (T & D & _).
  rewrite (V (gul w)), (V (gur w)) in P1 by (cbn; auto). rewrite (V (gll w)), (V (glr w)) in P2 by (cbn; auto 6).
  apply (axis_weights _ _ _ _ _ _ _ _ _ X AX) in P1, P2. destruct P1 as (_ & _ & S1 & _ & P1). destruct P2 as (_ & _ & S2 & _ & P2). specialize (P1 LR). specialize (P2 LR).
  destruct P1 as (_ & _ & V1 & M1). destruct P2 as (_ & _ & V2 & M2). specialize (V1 (or_introl eq_refl)). specialize (V2 (or_introl eq_refl)). specialize (M1 eq_refl eq_refl). specialize (M2 eq_refl eq_refl). subst vt vd. specialize (S1 eq_refl). specialize (S2 eq_refl).
  apply (axis_weights _ _ _ _ _ _ _ _ _ Y AY) in P3. destruct P3 as (_ & _ & S3 & _ & P3). specialize (P3 TD). destruct P3 as (_ & _ & V3 & M3). specialize (V3 (or_introl eq_refl)). specialize (M3 eq_refl eq_refl). subst v. specialize (S3 eq_refl).
  rewrite RD. f_equal. unfold sum4. rewrite E1, E2, E3, E4.
  assert (forall r' c', r' = t \/ r' = d -> c' = l \/ c' = r -> get_at grid (r' * nf + c')%Z = Some (a + b * (IZR c' + 0.5) + e * (IZR r' + 0.5))) as G.
  { intros r' c' R' C'. apply H. unfold around. repeat split; try (destruct R', C'; subst; lia); [eapply axis_near; [exact X|exact AX|auto]|eapply axis_near; [exact Y|exact AY|auto]]. }
  rewrite !G by auto.
  transitivity (wtop w * (a * (wul w + wur w) + b * (wul w * (IZR l + 0.5) + wur w * (IZR r + 0.5)) + e * (IZR t + 0.5) * (wul w + wur w)) + wdown w * (a * (wll w + wlr w) + b * (wll w * (IZR l + 0.5) + wlr w * (IZR r + 0.5)) + e * (IZR d + 0.5) * (wll w + wlr w))); [ring|].
  rewrite M1, M2, S1, S2. transitivity ((wtop w + wdown w) * (a + b * x) + e * (wtop w * (IZR t + 0.5) + wdown w * (IZR d + 0.5))); [ring|]. rewrite S3, M3. ring.
Qed.
End Grid.
