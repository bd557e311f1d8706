From Coq Require Import Reals Lra Lia.
From Flocq Require Import Core IEEE754.BinarySingleNaN.
From Verif Require Import Base BaseFacts Loops LoopsFacts Float FloatFacts ImgSpec ImgFacts DistModel DistSpec.
#[local] Open Scope Z_scope.

(** Integer square root through double. *)
Lemma sqrt_lower d : 0 <= d -> (IZR (Z.sqrt d) <= R_sqrt.sqrt (IZR d))%R.
Proof.
  intros H. pose proof (Z.sqrt_spec d H) as (A & B). pose proof (Z.sqrt_nonneg d) as N.
  rewrite <- (sqrt_square (IZR (Z.sqrt d))) by (apply IZR_le; exact N).
  apply sqrt_le_1_alt. rewrite <- mult_IZR. apply IZR_le. exact A.
Qed.

Lemma ushort_sqrt_ok d : 0 <= d <= 2147483647 -> ushort_sqrt d = Ret (Z.sqrt d).
Proof.
  intros H. unfold ushort_sqrt. pose proof (Z.sqrt_spec d ltac:(lia)) as (A & B). pose proof (Z.sqrt_nonneg d) as N.
  unfold Z.succ in B. set (s := Z.sqrt d) in *.
  assert (S46 : s <= 46340) by nia.
  pose proof (of_Z_exact 53 1024 prec53 emax53 ltac:(lia) d ltac:(lia)) as (E & F).
  change (binary_normalize 53 1024 prec53 emax53 mode_NE d 0 false) with (f64_of_Z d) in *.
  destruct (Bsqrt_correct 53 1024 prec53 emax53 mode_NE (f64_of_Z d)) as (R1 & R2 & _).
  assert (FS : is_finite (Bsqrt mode_NE (f64_of_Z d)) = true).
  { rewrite R2. destruct (f64_of_Z d) as [sg| | |sg m ex P] eqn:EE; try discriminate F; try reflexivity.
    destruct sg; [|reflexivity]. exfalso. cbn [B2R] in E. assert (IZR d < 0)%R; [|assert (0 <= IZR d)%R by (apply IZR_le; lia); lra].
    rewrite <- E. apply F2R_lt_0. cbn. lia. }
  rewrite (trunc_of_spec _ _ _ FS). rewrite R1, E.
  set (h := F2R (Float radix2 ((s + 1) * 131072 - 1) (-17))).
  assert (HH : h = (IZR s + 1 - / 131072)%R).
  { unfold h, F2R. cbn [Fnum Fexp bpow]. change (Z.pow_pos radix2 17) with 131072. rewrite minus_IZR, mult_IZR, plus_IZR. field. }
  assert (L1 : (IZR s <= round radix2 (SpecFloat.fexp 53 1024) (round_mode mode_NE) (R_sqrt.sqrt (IZR d)))%R).
  { apply round_ge_generic; try apply valid_rnd_N; try (apply (fexp_correct 53 1024); reflexivity).
    - apply int_in_format; try reflexivity; lia.
    - apply sqrt_lower. lia. }
  assert (L2 : (round radix2 (SpecFloat.fexp 53 1024) (round_mode mode_NE) (R_sqrt.sqrt (IZR d)) <= h)%R).
  { apply round_le_generic; try apply valid_rnd_N; try (apply (fexp_correct 53 1024); reflexivity).
    - change (SpecFloat.fexp 53 1024) with (FLT_exp (3 - 1024 - 53) 53). apply generic_format_FLT.
      exists (Float radix2 ((s + 1) * 131072 - 1) (-17)); cbn [Fnum Fexp]; [reflexivity| |lia].
      change (Z.abs ((s + 1) * 131072 - 1) < 9007199254740992). lia.
    - assert (P : (0 <= h)%R) by (rewrite HH; assert (0 <= IZR s)%R by (apply IZR_le; exact N); lra).
      rewrite <- (sqrt_square h) by exact P. apply sqrt_le_1_alt. rewrite HH.
      assert (D : d <= (s + 1) * (s + 1) - 1) by lia. apply IZR_le in D. rewrite minus_IZR, mult_IZR, plus_IZR in D.
      assert (Q : (IZR s <= 46340)%R) by (apply IZR_le; exact S46). assert (0 <= IZR s)%R by (apply IZR_le; exact N). nra. }
  set (rr := round radix2 (SpecFloat.fexp 53 1024) (round_mode mode_NE) (R_sqrt.sqrt (IZR d))) in *.
  assert (T : Ztrunc rr = s).
  { rewrite Ztrunc_floor by (assert (0 <= IZR s)%R by (apply IZR_le; exact N); lra).
    apply Zfloor_imp. rewrite plus_IZR. lra. }
  rewrite T. destruct (Z.leb_spec 0 s); [|lia]. destruct (Z.leb_spec s 65535); [reflexivity|lia].
Qed.

Lemma ushort_id z : 0 <= z < 65536 -> to_ushort z = z.
Proof. intros H. unfold to_ushort. now apply Z.mod_small. Qed.

(** First phase: distances within a column. *)
Section Column.
Context (img : list bool) (nx ny : Z).
Hypothesis HI : image img nx ny.
Hypothesis HS : small_enough nx ny.

Lemma size_bound : nx + 2 * ny <= 46340.
Proof. destruct HI as (A & B & _). unfold small_enough in HS. nia. Qed.

Definition T (x y : Z) : Prop := 0 <= y < ny /\ pix img nx y x = Some true.

Definition up_val (x y g : Z) : Prop :=
  (exists y0, T x y0 /\ y0 <= y /\ g = y - y0 /\ forall y1, T x y1 -> y1 <= y -> y1 <= y0) \/
  ((forall y1, T x y1 -> y < y1) /\ g = nx + ny + y).
Definition col_val (x y g : Z) : Prop :=
  (exists y0, T x y0 /\ g = Z.abs (y - y0) /\ forall y1, T x y1 -> g <= Z.abs (y - y1)) \/
  ((forall y1, ~ T x y1) /\ g = nx + ny + y).

Definition same_other (x : Z) (G G' : list Z) : Prop :=
  forall y' x', inside nx ny y' x' -> x' <> x -> pix G' nx y' x' = pix G nx y' x'.

Lemma column_ok G x : zlen G = nx * ny -> 0 <= x < nx -> exists G', column img nx ny G x = Ret G' /\ zlen G' = nx * ny /\
  same_other x G G' /\ forall y, 0 <= y < ny -> exists g, pix G' nx y x = Some g /\ col_val x y g.
Proof.
  intros L Hx. pose proof HI as (Hnx & Hny & LI & _). pose proof size_bound as SB. unfold column.
  destruct (pix_some img nx ny 0 x LI ltac:(unfold inside; lia)) as (b0 & E0).
  assert (E0' : get_at img x = Some b0) by (unfold pix in E0; replace (nx * 0 + x) with x in E0 by ring; exact E0).
  rewrite E0'. cbn [of_option bind].
  destruct (set_pix G nx ny 0 x (if b0 then 0 else to_ushort (nx + ny)) L ltac:(unfold inside; lia)) as (G0 & S0 & L0 & V0 & O0).
  change (0 * nx + x) with x in S0. rewrite S0. cbn [of_option bind].
  assert (N0 : forall y, T x y -> y = 0 -> b0 = true) by (intros y (_ & HT) ->; congruence).
  (* scan 1 *)
  destruct (ofold_zrange (scan1_step img nx x)
    (fun k H => zlen H = nx * ny /\ same_other x G H /\ forall y, 0 <= y < k -> exists g, pix H nx y x = Some g /\ up_val x y g)
    1 (ny - 1) G0) as (G1 & -> & L1 & O1 & U1); [lia| | |].
  - split; [exact L0|]. split.
    + intros y' x' I N. apply O0; auto. congruence.
    + intros y Hy. assert (y = 0) by lia. subst y. rewrite V0. eexists; split; [reflexivity|]. destruct b0.
      * left. exists 0. split; [split; [lia|exact E0]|]. split; [lia|]. split; [lia|]. intros; lia.
      * right. split; [|rewrite ushort_id; lia]. intros y1 HT. destruct (Z.eq_dec y1 0) as [->|]; [|destruct HT; lia]. destruct HT as (_ & HT). congruence.
  - intros k H Hk (LH & OH & UH). unfold scan1_step. rewrite get_pix.
    destruct (pix_some img nx ny k x LI ltac:(unfold inside; lia)) as (b & Eb). rewrite Eb. cbn [of_option bind].
    destruct (UH (k - 1) ltac:(lia)) as (g & Eg & Ug).
    assert (GB : 0 <= g < 65535) by (destruct Ug as [(y0 & (Q & _) & ? & -> & _)|(_ & ->)]; lia).
    destruct b.
    + destruct (set_pix H nx ny k x 0 LH ltac:(unfold inside; lia)) as (H' & -> & L' & V' & O'). cbn [of_option].
      eexists; split; [reflexivity|]. split; [exact L'|]. split.
      * intros y' x' I N. rewrite O' by (auto; congruence). now apply OH.
      * intros y Hy. destruct (Z.eq_dec y k) as [->|].
        -- rewrite V'. eexists; split; [reflexivity|]. left. exists k. split; [split; [lia|exact Eb]|]. split; [lia|]. split; [lia|]. auto.
        -- rewrite O' by (try congruence; unfold inside; lia). apply UH. lia.
    + rewrite get_pix, Eg. cbn [of_option bind].
      destruct (set_pix H nx ny k x (to_ushort (1 + g)) LH ltac:(unfold inside; lia)) as (H' & -> & L' & V' & O'). cbn [of_option].
      eexists; split; [reflexivity|]. split; [exact L'|]. split.
      * intros y' x' I N. rewrite O' by (auto; congruence). now apply OH.
      * intros y Hy. destruct (Z.eq_dec y k) as [->|].
        -- rewrite V'. eexists; split; [reflexivity|]. rewrite ushort_id by lia.
           assert (NK : ~ T x k) by (intros (_ & X); congruence).
           destruct Ug as [(y0 & HT & Q1 & -> & Q2)|(Q1 & ->)].
           ++ left. exists y0. split; [exact HT|]. split; [lia|]. split; [lia|]. intros y1 H1 H2.
              destruct (Z.eq_dec y1 k) as [->|]; [tauto|]. apply Q2; [exact H1|lia].
           ++ right. split; [|lia]. intros y1 H1. specialize (Q1 y1 H1). destruct (Z.eq_dec y1 k) as [->|]; [tauto|lia].
        -- rewrite O' by (try congruence; unfold inside; lia). apply UH. lia.
  - cbn [bind].
    (* scan 2 *)
    destruct (ofold_zrange_rev (scan2_step nx x)
      (fun k H => zlen H = nx * ny /\ same_other x G H /\ (forall y, 0 <= y < k -> exists g, pix H nx y x = Some g /\ up_val x y g) /\
                  forall y, k <= y < ny -> exists g, pix H nx y x = Some g /\ col_val x y g)
      0 (ny - 2) G1) as (G2 & -> & L2 & O2 & _ & C2); [lia| | |].
    + split; [exact L1|]. split; [exact O1|]. split; [intros y Hy; apply U1; lia|].
      intros y Hy. destruct (U1 y ltac:(lia)) as (g & Eg & Ug). exists g. split; [exact Eg|].
      destruct Ug as [(y0 & HT & Q1 & -> & Q2)|(Q1 & ->)].
      * left. exists y0. split; [exact HT|]. split; [lia|]. intros y1 H1. pose proof H1 as (B1 & _). specialize (Q2 y1 H1). lia.
      * right. split; [|lia]. intros y1 H1. pose proof H1 as (B1 & _). specialize (Q1 y1 H1). lia.
    + intros k H Hk (LH & OH & UH & CH). unfold scan2_step. rewrite !get_pix.
      destruct (CH (k + 1) ltac:(lia)) as (a & Ea & Ca). destruct (UH k ltac:(lia)) as (b & Eb & Ub). rewrite Ea, Eb. cbn [of_option bind].
      assert (AB : 0 <= a < 65535) by (destruct Ca as [(y0 & (Q & _) & -> & _)|(_ & ->)]; lia).
      destruct (Z.ltb_spec a b) as [LT|GE].
      * destruct (set_pix H nx ny k x (to_ushort (1 + a)) LH ltac:(unfold inside; lia)) as (H' & -> & L' & V' & O'). cbn [of_option].
        eexists; split; [reflexivity|]. split; [exact L'|]. split; [|split].
        -- intros y' x' I N. rewrite O' by (auto; congruence). now apply OH.
        -- intros y Hy. rewrite O' by (try (intros X; injection X; lia); unfold inside; lia). apply UH. lia.
        -- intros y Hy. destruct (Z.eq_dec y k) as [->|].
           2: { rewrite O' by (try congruence; unfold inside; lia). apply CH. lia. }
           rewrite V'. eexists; split; [reflexivity|]. rewrite ushort_id by lia. left.
           destruct Ca as [(y2 & H2 & -> & M2)|(M2 & ->)].
           2: { exfalso. destruct Ub as [(y0 & HT & Q1 & -> & Q2)|(Q1 & ->)]; [exact (M2 y0 HT)|lia]. }
           destruct Ub as [(y0 & HT & Q1 & -> & Q2)|(Q1 & ->)].
           ++ destruct (Z_le_gt_dec y2 k) as [Y2|Y2]; [specialize (Q2 y2 H2 Y2); lia|].
              exists y2. split; [exact H2|]. split; [lia|]. intros y1 H1. specialize (M2 y1 H1).
              destruct (Z_le_gt_dec y1 k) as [Y1|Y1]; [specialize (Q2 y1 H1 Y1); lia|lia].
           ++ pose proof (Q1 y2 H2). exists y2. split; [exact H2|]. split; [lia|]. intros y1 H1. specialize (M2 y1 H1). specialize (Q1 y1 H1). lia.
      * eexists; split; [reflexivity|]. split; [exact LH|]. split; [exact OH|]. split; [intros y Hy; apply UH; lia|].
        intros y Hy. destruct (Z.eq_dec y k) as [->|]; [|apply CH; lia]. exists b. split; [exact Eb|].
        destruct Ub as [(y0 & HT & Q1 & -> & Q2)|(Q1 & ->)].
        -- left. exists y0. split; [exact HT|]. split; [lia|]. intros y1 H1.
           destruct (Z_le_gt_dec y1 k) as [Y1|Y1]; [specialize (Q2 y1 H1 Y1); lia|].
           destruct Ca as [(y2 & H2 & -> & M2)|(M2 & ->)]; [specialize (M2 y1 H1); lia|exfalso; exact (M2 y1 H1)].
        -- right. split; [|lia]. intros y1 H1. destruct Ca as [(y2 & (B2 & _) & -> & M2)|(M2 & ->)]; [lia|exact (M2 y1 H1)].
    + exists G2. split; [reflexivity|]. split; [exact L2|]. split; [exact O2|]. exact C2.
Qed.

Lemma columns_ok : exists G, ofold (column img nx ny) (zrange 0 (nx - 1)) (zeros (nx * ny)) = Ret G /\ zlen G = nx * ny /\
  forall y x, inside nx ny y x -> exists g, pix G nx y x = Some g /\ col_val x y g.
Proof.
  pose proof HI as (Hnx & Hny & LI & _).
  destruct (ofold_zrange (column img nx ny)
    (fun k G => zlen G = nx * ny /\ forall y x, inside nx ny y x -> x < k -> exists g, pix G nx y x = Some g /\ col_val x y g)
    0 (nx - 1) (zeros (nx * ny))) as (G & E & L & C); [lia| | |].
  - split; [unfold zeros, zlen; rewrite repeat_length; nia|]. unfold inside. intros; lia.
  - intros k G Hk (L & C). destruct (column_ok G k L ltac:(lia)) as (G' & E & L' & O & V).
    exists G'. split; [exact E|]. split; [exact L'|]. intros y x I Hx. destruct (Z.eq_dec x k) as [->|].
    + apply V. destruct I. lia.
    + rewrite O by auto. apply C; [exact I|lia].
  - exists G. split; [exact E|]. split; [exact L|]. intros y x I. apply C; [exact I|]. destruct I. lia.
Qed.
End Column.

Lemma sq_le a b : - b <= a <= b -> 0 <= a * a <= b * b.
Proof. intros. nia. Qed.

Lemma parabola_sep i u a b x :
  (x - i) * (x - i) + a * a <= (x - u) * (x - u) + b * b <-> 2 * (u - i) * x <= u * u - i * i + b * b - a * a.
Proof. split; intros H; ring_simplify in H; ring_simplify; lia. Qed.

Lemma div_sep N d x : 0 < d -> (x <= N / d <-> d * x <= N).
Proof.
  intros D. split; intros H.
  - apply Z.le_trans with (d * (N / d)); [apply Z.mul_le_mono_nonneg_l; lia|apply Z.mul_div_le; exact D].
  - apply Z.div_le_lower_bound; assumption.
Qed.

(** Second phase: lower envelope of the parabolas of one row. *)
Section Row.
Context (nx ny y : Z) (G : list Z) (g : Z -> Z) (M : Z).
Hypothesis Hnx : 0 < nx.
Hypothesis HG : forall i, 0 <= i < nx -> pix G nx y i = Some (g i).
Hypothesis Hg : forall i, 0 <= i < nx -> 0 <= g i <= M.
Hypothesis HM : nx * nx + M * M <= 2147483647.
Hypothesis HM0 : 0 <= M.

Definition f (x i : Z) : Z := (x - i) * (x - i) + g i * g i.

Lemma f_bound x i : 0 <= x < nx -> 0 <= i < nx -> 0 <= f x i <= 2147483647.
Proof.
  intros A B. unfold f. pose proof (Hg i B). pose proof (sq_le (x - i) nx ltac:(lia)). pose proof (sq_le (g i) M ltac:(lia)). lia.
Qed.

Lemma dfun_ok x i : 0 <= x < nx -> 0 <= i < nx -> dt_dfun nx x i y G = Ret (f x i).
Proof.
  intros A B. unfold dt_dfun. change (get_at G (nx * y + i)) with (pix G nx y i). rewrite (HG i B). cbn [of_option bind].
  pose proof (Hg i B). pose proof (f_bound x i A B) as FB. unfold f in *.
  pose proof (sq_le (x - i) nx ltac:(lia)). pose proof (sq_le (g i) M ltac:(lia)).
  rewrite (chk_int_ok ((x - i) * (x - i))) by (unfold in_int; lia). rewrite (chk_int_ok (g i * g i)) by (unfold in_int; lia). cbn [bind].
  now rewrite chk_int_ok by (unfold in_int; lia).
Qed.

(** The difference of two parabolas is monotone. *)
Lemma f_mono x x' i u : i < u -> x <= x' -> f x' u - f x' i <= f x u - f x i.
Proof. unfold f. intros. nia. Qed.

Lemma sep_ok i u : 0 <= i < u -> u < nx -> (exists x, 0 <= x /\ f x i <= f x u) ->
  exists v, dt_Sep nx i u y G = Ret v /\ forall x, x <= v <-> f x i <= f x u.
Proof.
  intros A B (x0 & P & Q). unfold dt_Sep.
  change (get_at G (nx * y + i)) with (pix G nx y i). change (get_at G (nx * y + u)) with (pix G nx y u).
  rewrite (HG i) by lia. rewrite (HG u) by lia. cbn [of_option bind].
  pose proof (Hg i ltac:(lia)). pose proof (Hg u ltac:(lia)).
  pose proof (sq_le u nx ltac:(lia)). pose proof (sq_le i nx ltac:(lia)). pose proof (sq_le (g u) M ltac:(lia)). pose proof (sq_le (g i) M ltac:(lia)).
  rewrite (chk_int_ok (u * u)) by (unfold in_int; lia). rewrite (chk_int_ok (i * i)) by (unfold in_int; lia).
  rewrite (chk_int_ok (g u * g u)) by (unfold in_int; lia). rewrite (chk_int_ok (g i * g i)) by (unfold in_int; lia). cbn [bind].
  rewrite (chk_int_ok (u * u - i * i + g u * g u)) by (unfold in_int; lia). cbn [bind].
  rewrite (chk_int_ok (u * u - i * i + g u * g u - g i * g i)) by (unfold in_int; lia). cbn [bind].
  destruct (Z.eqb_spec (2 * (u - i)) 0); [lia|].
  set (N := u * u - i * i + g u * g u - g i * g i).
  assert (NE : forall x, f x i <= f x u <-> 2 * (u - i) * x <= N) by (intros x; apply parabola_sep).
  assert (N0 : 0 <= N).
  { apply NE in Q. apply Z.le_trans with (2 * (u - i) * x0); [apply Z.mul_nonneg_nonneg; lia|exact Q]. }
  eexists; split; [reflexivity|]. rewrite Z.quot_div_nonneg by lia. intros x. rewrite NE. apply div_sep. lia.
Qed.

(** Values of the stacks. *)
Definition val (l : list Z) (k : Z) : Z := match get_at l k with Some v => v | None => 0 end.
Lemma val_get l k : 0 <= k < zlen l -> get_at l k = Some (val l k).
Proof. intros H. unfold val. destruct (get_at_some l k H) as (v & ->). reflexivity. Qed.
Lemma val_set l l' k v j : set_at l k v = Some l' -> val l' j = if Z.eq_dec j k then v else val l j.
Proof.
  intros E. unfold val. destruct (Z.eq_dec j k) as [->|N]; [now rewrite (get_set_same l l' k v E)|].
  now rewrite (get_set_other l l' k j v E) by auto.
Qed.

(** [s] and [t] describe the lower envelope of the parabolas 0 .. u-1. *)
Record env (u q : Z) (s t : list Z) : Prop := {
  e_q : 0 <= q < u; e_ls : zlen s = nx; e_lt : zlen t = nx;
  e_t0 : val t 0 = 0; e_tq : val t q < nx;
  e_inc : forall k, 0 <= k < q -> val t k < val t (k + 1);
  e_s : forall k, 0 <= k <= q -> 0 <= val s k < u;
  e_min : forall k x i, 0 <= k <= q -> val t k <= x < nx -> (k < q -> x < val t (k + 1)) -> 0 <= i < u -> f x (val s k) <= f x i
}.

Lemma env_tpos u q s t k : env u q s t -> 0 <= k <= q -> 0 <= val t k < nx.
Proof.
  intros E Hk.
  assert (A : forall j, (j <= Z.to_nat q)%nat -> 0 <= val t (Z.of_nat j)).
  { induction j as [|j IH]; intros Hj; [change (Z.of_nat 0) with 0; rewrite (e_t0 _ _ _ _ E); lia|].
    pose proof (e_inc _ _ _ _ E (Z.of_nat j)). rewrite Nat2Z.inj_succ. unfold Z.succ. specialize (IH ltac:(lia)). lia. }
  assert (B : forall j, (j <= Z.to_nat q)%nat -> val t (q - Z.of_nat j) < nx).
  { induction j as [|j IH]; intros Hj; [replace (q - Z.of_nat 0) with q by lia; exact (e_tq _ _ _ _ E)|].
    pose proof (e_inc _ _ _ _ E (q - Z.of_nat (S j)) ltac:(lia)) as X. replace (q - Z.of_nat (S j) + 1) with (q - Z.of_nat j) in X by lia.
    specialize (IH ltac:(lia)). lia. }
  specialize (A (Z.to_nat k) ltac:(lia)). specialize (B (Z.to_nat (q - k)) ltac:(lia)).
  rewrite Z2Nat.id in A by lia. rewrite Z2Nat.id in B by lia. replace (q - (q - k)) with k in B by lia. lia.
Qed.

Lemma pop_ok u q0 s t : env u q0 s t -> u < nx -> forall fuel q, q + 1 < Z.of_nat fuel -> -1 <= q <= q0 ->
  (q < q0 -> forall x i, val t (q + 1) <= x < nx -> 0 <= i < u -> f x u < f x i) ->
  exists q', pop fuel nx y u G s t q = Ret q' /\ -1 <= q' <= q0 /\
    (q' < q0 -> forall x i, val t (q' + 1) <= x < nx -> 0 <= i < u -> f x u < f x i) /\
    (0 <= q' -> f (val t q') (val s q') <= f (val t q') u).
Proof.
  intros E Hu. induction fuel as [|n IH]; intros q Hf Hq HP; [lia|]. cbn [pop].
  destruct (Z.ltb_spec q 0).
  - exists q. split; [reflexivity|]. split; [lia|]. split; [exact HP|lia].
  - pose proof (env_tpos _ _ _ _ q E ltac:(lia)) as TP. pose proof (e_s _ _ _ _ E q ltac:(lia)) as SP. pose proof (e_q _ _ _ _ E) as QQ.
    rewrite (val_get t) by (rewrite (e_lt _ _ _ _ E); lia). rewrite (val_get s) by (rewrite (e_ls _ _ _ _ E); lia). cbn [of_option bind].
    rewrite !dfun_ok by lia. cbn [bind]. rewrite Z.gtb_ltb. destruct (Z.ltb_spec (f (val t q) u) (f (val t q) (val s q))) as [LT|GE].
    + apply IH; try lia. intros _ x i Hx Hi. replace (q - 1 + 1) with q in Hx by lia.
      destruct (Z_lt_ge_dec q q0) as [L|L].
      * destruct (Z_lt_ge_dec x (val t (q + 1))) as [L2|L2]; [|apply HP; lia].
        pose proof (f_mono (val t q) x (val s q) u ltac:(lia) ltac:(lia)).
        pose proof (e_min _ _ _ _ E q x i ltac:(lia) ltac:(lia) ltac:(lia) Hi). lia.
      * pose proof (f_mono (val t q) x (val s q) u ltac:(lia) ltac:(lia)).
        pose proof (e_min _ _ _ _ E q x i ltac:(lia) ltac:(lia) ltac:(lia) Hi). lia.
    + exists q. split; [reflexivity|]. split; [lia|]. split; [exact HP|]. intros _. exact GE.
Qed.

Lemma scan3_ok u q0 s t : env u q0 s t -> 0 < u < nx -> exists q s' t', scan3_step nx y G (q0, s, t) u = Ret (q, s', t') /\ env (u + 1) q s' t'.
Proof.
  intros E Hu. pose proof (e_q _ _ _ _ E) as QQ. pose proof (e_ls _ _ _ _ E) as LS. pose proof (e_lt _ _ _ _ E) as LT. unfold scan3_step.
  destruct (pop_ok u q0 s t E ltac:(lia) (Z.to_nat (nx + 1)) q0) as (q & -> & Hq & P1 & P2); [lia|lia|lia|]. cbn [bind].
  destruct (Z.ltb_spec q 0).
  - assert (q = -1) by lia. subst q. specialize (P1 ltac:(lia)). replace (-1 + 1) with 0 in P1 by lia. rewrite (e_t0 _ _ _ _ E) in P1.
    assert (ES : set_at s 0 u = Some (list_set s (Z.to_nat 0) u)) by (apply set_at_some; lia). rewrite ES. cbn [of_option bind].
    set (s' := list_set s (Z.to_nat 0) u) in *.
    assert (VS : forall j, val s' j = if Z.eq_dec j 0 then u else val s j) by (intros j; exact (val_set _ _ _ _ j ES)).
    exists 0, s', t. split; [reflexivity|]. constructor; try lia.
    + rewrite (set_at_length _ _ _ _ ES). exact LS.
    + exact (e_t0 _ _ _ _ E).
    + rewrite (e_t0 _ _ _ _ E). lia.
    + intros k Hk. assert (k = 0) by lia. subst k. rewrite VS. destruct (Z.eq_dec 0 0); lia.
    + intros k x i Hk Hx _ Hi. assert (k = 0) by lia. subst k. rewrite VS. destruct (Z.eq_dec 0 0); [|lia].
      rewrite (e_t0 _ _ _ _ E) in Hx. destruct (Z.eq_dec i u) as [->|]; [lia|]. specialize (P1 x i ltac:(lia) ltac:(lia)). lia.
  - specialize (P2 ltac:(lia)). pose proof (env_tpos _ _ _ _ q E ltac:(lia)) as TP. pose proof (e_s _ _ _ _ E q ltac:(lia)) as SP.
    rewrite (val_get s) by lia. cbn [of_option bind].
    destruct (sep_ok (val s q) u ltac:(lia) ltac:(lia)) as (v & EV & HV); [exists (val t q); split; [lia|exact P2]|].
    rewrite EV. cbn [bind]. apply HV in P2. cbv zeta.
    assert (VT : q < q0 -> v < val t (q + 1)).
    { intros L. destruct (Z_lt_ge_dec v (val t (q + 1))) as [|GE]; [assumption|]. exfalso.
      pose proof (proj1 (HV (val t (q + 1))) ltac:(lia)) as X.
      pose proof (env_tpos _ _ _ _ (q + 1) E ltac:(lia)).
      specialize (P1 L (val t (q + 1)) (val s q) ltac:(lia) ltac:(lia)). lia. }
    assert (LOW : forall k x, 0 <= k < q -> val t k <= x < val t (k + 1) -> f x (val s k) <= f x u).
    { intros k x Hk Hx.
      assert (X : x <= val t q).
      { assert (A : forall j, (j <= Z.to_nat (q - k - 1))%nat -> val t (k + 1) <= val t (k + 1 + Z.of_nat j)).
        { induction j as [|j IH]; intros Hj; [replace (k + 1 + Z.of_nat 0) with (k + 1) by lia; lia|].
          pose proof (e_inc _ _ _ _ E (k + 1 + Z.of_nat j) ltac:(lia)) as Y. rewrite Nat2Z.inj_succ.
          replace (k + 1 + Z.succ (Z.of_nat j)) with (k + 1 + Z.of_nat j + 1) by lia. specialize (IH ltac:(lia)). lia. }
        specialize (A (Z.to_nat (q - k - 1)) ltac:(lia)). rewrite Z2Nat.id in A by lia. replace (k + 1 + (q - k - 1)) with q in A by lia. lia. }
      pose proof (env_tpos _ _ _ _ k E ltac:(lia)).
      pose proof (e_min _ _ _ _ E k x (val s q) ltac:(lia) ltac:(lia) ltac:(lia) ltac:(lia)).
      pose proof (proj1 (HV x) ltac:(lia)). lia. }
    destruct (Z.ltb_spec (1 + v) nx) as [W|W].
    + assert (ES : set_at s (q + 1) u = Some (list_set s (Z.to_nat (q + 1)) u)) by (apply set_at_some; lia).
      assert (ET : set_at t (q + 1) (1 + v) = Some (list_set t (Z.to_nat (q + 1)) (1 + v))) by (apply set_at_some; lia).
      rewrite ES, ET. cbn [of_option bind]. set (s' := list_set s (Z.to_nat (q + 1)) u) in *. set (t' := list_set t (Z.to_nat (q + 1)) (1 + v)) in *.
      assert (VS : forall j, val s' j = if Z.eq_dec j (q + 1) then u else val s j) by (intros j; exact (val_set _ _ _ _ j ES)).
      assert (VT' : forall j, val t' j = if Z.eq_dec j (q + 1) then 1 + v else val t j) by (intros j; exact (val_set _ _ _ _ j ET)).
      exists (q + 1), s', t'. split; [reflexivity|]. constructor; try lia.
      * rewrite (set_at_length _ _ _ _ ES). exact LS.
      * rewrite (set_at_length _ _ _ _ ET). exact LT.
      * rewrite VT'. destruct (Z.eq_dec 0 (q + 1)); [lia|]. exact (e_t0 _ _ _ _ E).
      * rewrite VT'. destruct (Z.eq_dec (q + 1) (q + 1)); lia.
      * intros k Hk. rewrite !VT'. destruct (Z.eq_dec k (q + 1)); [lia|]. destruct (Z.eq_dec (k + 1) (q + 1)) as [Q|Q].
        -- replace k with q by lia. lia.
        -- apply (e_inc _ _ _ _ E). lia.
      * intros k Hk. rewrite VS. destruct (Z.eq_dec k (q + 1)); [lia|]. pose proof (e_s _ _ _ _ E k ltac:(lia)). lia.
      * intros k x i Hk Hx Hlt Hi. rewrite VS. rewrite !VT' in *. destruct (Z.eq_dec k (q + 1)) as [->|Nk].
        -- (* the new parabola *)
           assert (UQ : f x u < f x (val s q)). { destruct (Z_lt_ge_dec (f x u) (f x (val s q))); [assumption|]. pose proof (proj2 (HV x) ltac:(lia)). lia. }
           destruct (Z.eq_dec i u) as [->|]; [lia|].
           destruct (Z_lt_ge_dec q q0) as [L|L].
           ++ destruct (Z_lt_ge_dec x (val t (q + 1))) as [L2|L2].
              ** pose proof (e_min _ _ _ _ E q x i ltac:(lia) ltac:(lia) ltac:(lia) ltac:(lia)). lia.
              ** specialize (P1 L x i ltac:(lia) ltac:(lia)). lia.
           ++ pose proof (e_min _ _ _ _ E q x i ltac:(lia) ltac:(lia) ltac:(lia) ltac:(lia)). lia.
        -- specialize (Hlt ltac:(lia)). destruct (Z.eq_dec (k + 1) (q + 1)) as [Q|Q].
           ++ assert (k = q) by lia. subst k. destruct (Z.eq_dec i u) as [->|]; [apply HV; lia|].
              apply (e_min _ _ _ _ E q x i); try lia.
           ++ destruct (Z.eq_dec i u) as [->|]; [apply LOW; lia|]. apply (e_min _ _ _ _ E k x i); try lia.
    + exists q, s, t. split; [reflexivity|].
      assert (q = q0).
      { destruct (Z.eq_dec q q0); [assumption|]. specialize (VT ltac:(lia)). pose proof (env_tpos _ _ _ _ (q + 1) E ltac:(lia)). lia. }
      subst q0. constructor; try lia; try apply E.
      * intros k Hk. pose proof (e_s _ _ _ _ E k Hk). lia.
      * intros k x i Hk Hx Hlt Hi. destruct (Z.eq_dec i u) as [->|].
        -- destruct (Z.eq_dec k q) as [->|]; [apply HV; lia|]. apply LOW; lia.
        -- apply (e_min _ _ _ _ E k x i); lia.
Qed.

(** The result of one row. *)
Definition row_val (x v : Z) : Prop := exists i, 0 <= i < nx /\ v = Z.sqrt (f x i) /\ forall j, 0 <= j < nx -> f x i <= f x j.

Lemma row_ok dist s t : 0 <= y < ny -> zlen dist = nx * ny -> zlen s = nx -> zlen t = nx ->
  exists dist' s' t', row nx G (dist, s, t) y = Ret (dist', s', t') /\ zlen dist' = nx * ny /\ zlen s' = nx /\ zlen t' = nx /\
  (forall x, 0 <= x < nx -> exists v, pix dist' nx y x = Some v /\ row_val x v) /\
  (forall y' x', inside nx ny y' x' -> y' <> y -> pix dist' nx y' x' = pix dist nx y' x').
Proof.
  intros Hy LD LS LT. unfold row.
  assert (ES : set_at s 0 0 = Some (list_set s (Z.to_nat 0) 0)) by (apply set_at_some; lia).
  assert (ET : set_at t 0 0 = Some (list_set t (Z.to_nat 0) 0)) by (apply set_at_some; lia).
  rewrite ES, ET. cbn [of_option bind].
  assert (V0 : forall j, val (list_set s (Z.to_nat 0) 0) j = if Z.eq_dec j 0 then 0 else val s j) by (intros j; exact (val_set _ _ _ _ j ES)).
  assert (W0 : forall j, val (list_set t (Z.to_nat 0) 0) j = if Z.eq_dec j 0 then 0 else val t j) by (intros j; exact (val_set _ _ _ _ j ET)).
  destruct (ofold_zrange (scan3_step nx y G) (fun u st => let '(q, s, t) := st in env u q s t) 1 (nx - 1)
    (0, list_set s (Z.to_nat 0) 0, list_set t (Z.to_nat 0) 0)) as (((q & s1) & t1) & -> & E); [lia| | |].
  - constructor; try lia.
    + rewrite (set_at_length _ _ _ _ ES). exact LS.
    + rewrite (set_at_length _ _ _ _ ET). exact LT.
    + rewrite W0. destruct (Z.eq_dec 0 0); lia.
    + rewrite W0. destruct (Z.eq_dec 0 0); lia.
    + intros k Hk. assert (k = 0) by lia. subst k. rewrite V0. destruct (Z.eq_dec 0 0); lia.
    + intros k x i Hk Hx _ Hi. assert (k = 0) by lia. subst k. rewrite V0. destruct (Z.eq_dec 0 0); [|lia]. replace i with 0 by lia. lia.
  - intros u ((q & s') & t') Hu E. destruct (scan3_ok u q s' t' E ltac:(lia)) as (q2 & s2 & t2 & E2 & I2). exists (q2, s2, t2). auto.
  - replace (nx - 1 + 1) with nx in E by lia. cbn [bind].
    pose proof (e_ls _ _ _ _ E) as LS1. pose proof (e_lt _ _ _ _ E) as LT1. pose proof (e_q _ _ _ _ E) as QQ.
    destruct (ofold_zrange_rev (scan4_step nx y G s1 t1)
      (fun k st => let '(d, p) := st in zlen d = nx * ny /\
         (0 < k -> 0 <= p <= q /\ val t1 p < k /\ (p < q -> k <= val t1 (p + 1))) /\
         (forall x, k <= x < nx -> exists v, pix d nx y x = Some v /\ row_val x v) /\
         (forall y' x', inside nx ny y' x' -> y' <> y -> pix d nx y' x' = pix dist nx y' x'))
      0 (nx - 1) (dist, q)) as ((d & p) & -> & LD' & _ & VD & OD); [lia| | |].
    + replace (nx - 1 + 1) with nx by lia. split; [exact LD|]. split; [intros _; pose proof (e_tq _ _ _ _ E); lia|]. split; [intros; lia|auto].
    + intros u (d & p) Hu (L & PP & VD & OD). specialize (PP ltac:(lia)). unfold scan4_step.
      pose proof (e_s _ _ _ _ E p ltac:(lia)) as SP.
      rewrite (val_get s1) by lia. cbn [of_option bind]. rewrite dfun_ok by lia. cbn [bind].
      rewrite ushort_sqrt_ok by (apply f_bound; lia). cbn [bind].
      destruct (set_pix d nx ny y u (Z.sqrt (f u (val s1 p))) L ltac:(unfold inside; lia)) as (d' & -> & L' & V' & O'). cbn [of_option bind].
      rewrite (val_get t1) by lia. cbn [of_option bind]. eexists; split; [reflexivity|]. cbv beta iota.
      split; [exact L'|]. split; [|split].
      * intros U0. destruct (Z.eqb_spec u (val t1 p)) as [Q|Q]; [|lia].
        assert (p <> 0) by (intros ->; rewrite (e_t0 _ _ _ _ E) in Q; lia).
        pose proof (e_inc _ _ _ _ E (p - 1) ltac:(lia)) as X. replace (p - 1 + 1) with p in * by lia. lia.
      * intros x Hx. destruct (Z.eq_dec x u) as [->|].
        -- exists (Z.sqrt (f u (val s1 p))). split; [exact V'|]. exists (val s1 p). split; [lia|]. split; [reflexivity|].
           intros j Hj. apply (e_min _ _ _ _ E p u j); lia.
        -- rewrite O' by (try congruence; unfold inside; lia). apply VD. lia.
      * intros y' x' I N. rewrite O' by (auto; congruence). now apply OD.
    + cbn [bind fst]. exists d, s1, t1. split; [reflexivity|]. auto.
Qed.
End Row.

(** Both phases. *)
Definition choose_g (G : list Z) (nx y i : Z) : Z := match pix G nx y i with Some v => v | None => 0 end.

Lemma transform_ok img nx ny : image img nx ny -> small_enough nx ny ->
  exists out, dist_transform img nx ny = Ret out /\ zlen out = nx * ny /\
  forall y x, inside nx ny y x -> exists (g : Z -> Z) v i, pix out nx y x = Some v /\ 0 <= i < nx /\ v = Z.sqrt ((x - i) * (x - i) + g i * g i) /\
    (forall j, 0 <= j < nx -> (x - i) * (x - i) + g i * g i <= (x - j) * (x - j) + g j * g j) /\
    (forall j, 0 <= j < nx -> col_val img nx ny j y (g j)).
Proof.
  intros HI HS. pose proof HI as (Hnx & Hny & LI & _). unfold dist_transform.
  destruct (columns_ok img nx ny HI HS) as (G & -> & LG & CG). cbn [bind].
  destruct (ofold_zrange (row nx G)
    (fun k st => let '(d, s, t) := st in zlen d = nx * ny /\ zlen s = nx /\ zlen t = nx /\
       forall y x, inside nx ny y x -> y < k -> exists v, pix d nx y x = Some v /\ row_val nx (choose_g G nx y) x v)
    0 (ny - 1) (zeros (nx * ny), zeros nx, zeros nx)) as (((d & s) & t) & -> & L & _ & _ & V); [lia| | |].
  - unfold zeros, zlen. rewrite !repeat_length. split; [nia|]. split; [lia|]. split; [lia|]. unfold inside. intros; lia.
  - intros y ((d & s) & t) Hy (L & LS & LT & V).
    destruct (row_ok nx ny y G (choose_g G nx y) (nx + 2 * ny) Hnx) with (dist := d) (s := s) (t := t) as (d' & s' & t' & E & L' & LS' & LT' & V' & O'); auto; try lia.
    + intros i Hi. destruct (CG y i ltac:(unfold inside; lia)) as (g & E & _). unfold choose_g. now rewrite E.
    + intros i Hi. destruct (CG y i ltac:(unfold inside; lia)) as (g & E & C). unfold choose_g. rewrite E.
      destruct C as [(y0 & (B & _) & -> & _)|(_ & ->)]; lia.
    + exists (d', s', t'). split; [exact E|]. split; [exact L'|]. split; [exact LS'|]. split; [exact LT'|].
      intros y1 x I Hlt. destruct (Z.eq_dec y1 y) as [->|].
      * apply V'. destruct I. lia.
      * rewrite O' by auto. apply V; [exact I|lia].
  - cbn [bind fst]. exists d. split; [reflexivity|]. split; [exact L|]. intros y x I.
    destruct (V y x I) as (v & Ev & (i & Hi & -> & Hmin)); [destruct I; lia|].
    exists (choose_g G nx y), (Z.sqrt (f (choose_g G nx y) x i)), i. split; [exact Ev|]. split; [exact Hi|]. split; [reflexivity|]. split; [exact Hmin|].
    intros j Hj. destruct (CG y j ltac:(unfold inside in *; lia)) as (g & E & C). unfold choose_g. now rewrite E.
Qed.
