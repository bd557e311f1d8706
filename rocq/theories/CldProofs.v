(** Proofs about the cloud module. *)
From Coq Require Import Reals Lra.
From Flocq Require Import Core.
From Verif Require Import Base BaseFacts Loops LoopsFacts RoundModel RoundFacts ImgSpec ImgFacts ChunkProofs BapCor BapComposite ParamProofs
  QaiModel QaiSpec QaiProofs DistModel DistSpec DistProps BufferModel BufferProps QueueModel RecoModel RecoSpec RecoProps CldModel CldSpec L2tProofs.
#[local] Open Scope Z_scope.

(** ** Buffers *)
Lemma dist2_0 y x i j : dist2 y x i j <= 0 -> i = y /\ j = x.
Proof. unfold dist2. intros H. pose proof (Z.square_nonneg (y - i)). pose proof (Z.square_nonneg (x - j)). assert ((y - i) * (y - i) = 0) as A by lia. assert ((x - j) * (x - j) = 0) as B by lia. apply Z.mul_eq_0 in A. apply Z.mul_eq_0 in B. lia. Qed.

Definition rad (r : option Z) : Z := match r with Some r => Z.max 0 r | None => 0 end.
Lemma grow_ok mask nx ny r : image mask nx ny ->
  exists out, grow_mask mask nx ny r = Ret out /\ zlen out = nx * ny /\
  (forall y x, inside nx ny y x -> surely (is_true mask nx ny) nx ny (rad r) y x -> pix out nx y x = Some true) /\
  (forall y x, inside nx ny y x -> pix out nx y x = Some true -> possibly (is_true mask nx ny) (rad r) y x).
Proof.
  intros HI. destruct HI as (HI1 & HI2 & HI3 & HI4). assert (HI : image mask nx ny) by (repeat split; auto).
  assert (Triv : forall r0, rad r0 = 0 -> grow_mask mask nx ny r0 = Ret mask ->
    exists out, grow_mask mask nx ny r0 = Ret out /\ zlen out = nx * ny /\
    (forall y x, inside nx ny y x -> surely (is_true mask nx ny) nx ny (rad r0) y x -> pix out nx y x = Some true) /\
    (forall y x, inside nx ny y x -> pix out nx y x = Some true -> possibly (is_true mask nx ny) (rad r0) y x)).
  { intros r0 E0 E. exists mask. split; [exact E|]. split; [exact HI3|]. rewrite E0. split.
    - intros y x _ (i & j & _ & (_ & T) & D). change (0 * 0) with 0 in D. apply dist2_0 in D. destruct D as (-> & ->). exact T.
    - intros y x I T. exists y, x. split; [split; auto|]. unfold dist2. lia. }
  destruct r as [r|]; [|apply Triv; reflexivity].
  destruct (Z_le_gt_dec r 0) as [L|G].
  - apply Triv; [cbn [rad]; lia|]. exact (C35_zero_partial mask nx ny r L).
  - cbn [grow_mask rad]. destruct (C35_safe_partial mask nx ny r HI) as (out & E & Lo). exists out. split; [exact E|]. split; [exact Lo|].
    replace (Z.max 0 r) with r by lia. split.
    + intros y x _ (i & j & (Bi & Bj) & T & D). unfold dist2 in D. exact (proj2 (C35_covers_partial mask nx ny r out i j y x HI E ltac:(lia) Bi Bj T D)).
    + intros y x I T. destruct (C35_reach_partial mask nx ny r out y x HI E ltac:(lia) (conj I T)) as (i & j & T' & D). exists i, j. auto.
Qed.

Lemma radius_ok buf res r : pixels buf res r -> radius buf res = r.
Proof.
  intros ((R0 & R1) & (L & U)). unfold radius.
  assert (R1' : (IZR r <= 100000)%R) by (now apply IZR_le). assert (R0' : (0 <= IZR r)%R) by (now apply IZR_le).
  assert (A : (IZR r <= rnd64 (buf / res))%R) by (rewrite <- (rnd64_int r) at 1 by lia; now apply rnd64_le).
  assert (B : (rnd64 (buf / res) < IZR r + 1)%R).
  { assert (E : (Rabs (rnd64 (buf / res) - buf / res) <= 200000 / 1000000000000)%R) by (apply rnd64_err; [lra|apply Rabs_le; lra]).
    apply Rabs_le_inv in E. lra. }
  rewrite Ztrunc_floor by lra. apply Zfloor_imp. rewrite plus_IZR. lra.
Qed.
Lemma buffer_of_ok buf res r : (0 <= buf)%R -> (0 < res)%R -> pixels buf res r -> exists o, buffer_of buf res = Ret o /\ rad o = r.
Proof.
  intros B0 R0 P. unfold buffer_of. rewrite (radius_ok _ _ _ P). destruct P as ((P1 & P2) & P3 & P4). rewrite chk_int_ok by (unfold in_int; lia). cbn [bind].
  destruct (Rlt_bool_spec 0 buf) as [H|H].
  - exists (Some r). split; [reflexivity|cbn [rad]; lia].
  - exists None. split; [reflexivity|]. cbn [rad]. assert (buf = 0%R) by lra. subst buf. unfold Rdiv in P3. rewrite Rmult_0_l in P3. apply le_IZR in P3. lia.
Qed.

(** ** Words *)
Lemma is_off_spec w : in_short w -> is_off w = negb (flag_value Off w =? 0).
Proof. intros W. unfold is_off, on. now rewrite get_flag_value. Qed.
Lemma on_flag f w : in_short w -> on (get_flag f w) = negb (flag_value f w =? 0).
Proof. intros W. unfold on. now rewrite get_flag_value. Qed.
Lemma set_value f w v : in_short w -> 0 <= v <= flag_max f -> exists w', set_flag f w v = Ret w' /\ in_short w' /\ flag_value f w' = v /\
  forall g, g <> f -> flag_value g w' = flag_value g w.
Proof. intros W V. destruct (set_flag_spec f w v W V) as (w' & A & B & C & D & _). eauto. Qed.

Lemma cloud_pixel_ok w c : in_short w -> exists w', cloud_pixel (w, c) = Ret w' /\ in_short w' /\
  (forall g, g <> Cloud -> flag_value g w' = flag_value g w) /\
  flag_value Cloud w' = (if (flag_value Off w =? 0) && c then 2 else flag_value Cloud w) /\
  (flag_value Off w <> 0 -> w' = w).
Proof.
  intros W. unfold cloud_pixel. cbn [fst snd]. rewrite is_off_spec by auto. destruct (Z.eqb_spec (flag_value Off w) 0) as [V|V]; cbn [negb andb].
  - destruct c.
    + destruct (set_value Cloud w 2 W ltac:(cbn; lia)) as (w' & E & W' & F & O). exists w'. split; [exact E|]. split; [exact W'|]. split; [exact O|]. split; [exact F|lia].
    + exists w. split; [reflexivity|]. auto.
  - exists w. split; [reflexivity|]. auto.
Qed.

(** The last loop on one pixel. *)
Lemma final_pixel_ok w cld cir shd : in_short w -> exists w', final_pixel (w, (cld, (cir, shd))) = Ret (w', cloudy w') /\ in_short w' /\
  (flag_value Off w <> 0 -> w' = w) /\
  (forall g, g <> Cloud -> g <> Shadow -> flag_value g w' = flag_value g w) /\
  (flag_value Off w = 0 ->
     flag_value Cloud w' = (if cld then (if flag_value Cloud w =? 0 then 1 else flag_value Cloud w) else if cir then 3 else flag_value Cloud w) /\
     flag_value Shadow w' = (if shd then 1 else flag_value Shadow w)).
Proof.
  intros W. unfold final_pixel. cbn [fst snd]. rewrite is_off_spec by auto. destruct (Z.eqb_spec (flag_value Off w) 0) as [V|V]; cbn [negb].
  - assert (S1 : exists w1, (if cld then (if get_flag Cloud w =? 0 then set_flag Cloud w 1 else Ret w) else if cir then set_flag Cloud w 3 else Ret w) = Ret w1 /\ in_short w1 /\
      (forall g, g <> Cloud -> flag_value g w1 = flag_value g w) /\
      flag_value Cloud w1 = (if cld then (if flag_value Cloud w =? 0 then 1 else flag_value Cloud w) else if cir then 3 else flag_value Cloud w)).
    { rewrite get_flag_value by auto. destruct cld; [destruct (Z.eqb_spec (flag_value Cloud w) 0) as [C|C]|destruct cir].
      - destruct (set_value Cloud w 1 W ltac:(cbn; lia)) as (w' & E & W' & F & O). exists w'. auto.
      - exists w. auto.
      - destruct (set_value Cloud w 3 W ltac:(cbn; lia)) as (w' & E & W' & F & O). exists w'. auto.
      - exists w. auto. }
    destruct S1 as (w1 & -> & W1 & O1 & C1). cbn [bind].
    assert (S2 : exists w2, (if shd then set_flag Shadow w1 1 else Ret w1) = Ret w2 /\ in_short w2 /\
      (forall g, g <> Shadow -> flag_value g w2 = flag_value g w1) /\ flag_value Shadow w2 = (if shd then 1 else flag_value Shadow w1)).
    { destruct shd; [|exists w1; auto]. destruct (set_value Shadow w1 1 W1 ltac:(cbn; lia)) as (w' & E & W' & F & O). exists w'. auto. }
    destruct S2 as (w2 & -> & W2 & O2 & C2). cbn [bind]. exists w2. split; [|split; [exact W2|split; [lia|split]]].
    + f_equal. f_equal. unfold cloudy. rewrite on_flag, get_flag_value by auto. rewrite (O2 Off), (O1 Off), V by discriminate. cbn [Z.eqb andb].
      rewrite Z.gtb_ltb. f_equal. pose proof (flag_range Shadow w2) as B. cbn in B. lia.
    + intros g G1 G2. rewrite O2, O1; auto.
    + intros _. split; [rewrite O2 by discriminate; exact C1|]. rewrite C2, (O1 Shadow) by discriminate. reflexivity.
  - exists w. split; [|split; [exact W|split; [auto|split; [auto|lia]]]]. unfold cloudy. destruct (Z.eqb_spec (flag_value Off w) 0); [lia|reflexivity].
Qed.

(** ** The final mask, in terms of the grown masks *)
Lemma zlen_combine {A B} (a : list A) (b : list B) : zlen a = zlen b -> zlen (combine a b) = zlen a.
Proof. unfold zlen. rewrite combine_length. lia. Qed.

Lemma cirrus_mask_len (qai q : list Z) cirrus : zlen q = zlen qai -> (forall c, cirrus = Some c -> zlen c = zlen qai) -> zlen (cirrus_mask q cirrus) = zlen qai.
Proof. intros L C. destruct cirrus as [c|]; cbn [cirrus_mask]; rewrite zlen_map; [rewrite zlen_combine; [auto|rewrite L; symmetry; auto]|auto]. Qed.

Definition cloud_after (det cld cir : bool) (before : Z) : Z :=
  if cld then (if det then 2 else if before =? 0 then 1 else before) else if cir then 3 else if det then 2 else before.

Lemma final_mask_ok qai cld shd cirrus nx ny rc ri rs : image qai nx ny -> Forall in_short qai ->
  image cld nx ny -> image shd nx ny -> (forall c, cirrus = Some c -> image c nx ny) ->
  exists q C I S Q k, omap cloud_pixel (combine qai cld) = Ret q /\ zlen q = nx * ny /\
    grow_mask cld nx ny rc = Ret C /\ grow_mask (cirrus_mask q cirrus) nx ny (match cirrus with Some _ => ri | None => None end) = Ret I /\
    grow_mask shd nx ny rs = Ret S /\
    image (cirrus_mask q cirrus) nx ny /\
    final_mask qai cld shd cirrus nx ny rc ri rs = Ret (Q, k) /\ zlen Q = nx * ny /\ k = zlen (filter cloudy Q) /\
    (forall p w, get_at qai p = Some w -> exists w1, get_at q p = Some w1 /\ in_short w1 /\ forall g, g <> Cloud -> flag_value g w1 = flag_value g w) /\
    forall p w, get_at qai p = Some w -> exists w' d c i s, get_at Q p = Some w' /\ get_at cld p = Some d /\ get_at C p = Some c /\ get_at I p = Some i /\ get_at S p = Some s /\
      in_short w' /\ (flag_value Off w <> 0 -> w' = w) /\ (forall g, g <> Cloud -> g <> Shadow -> flag_value g w' = flag_value g w) /\
      (flag_value Off w = 0 -> flag_value Cloud w' = cloud_after d c i (flag_value Cloud w) /\ flag_value Shadow w' = if s then 1 else flag_value Shadow w).
Proof.
  intros (N1 & N2 & LQ & N4) SH IC IS IR.
  destruct (omap_get cloud_pixel (fun wc w' => in_short w' /\ (forall g, g <> Cloud -> flag_value g w' = flag_value g (fst wc)) /\
    flag_value Cloud w' = (if (flag_value Off (fst wc) =? 0) && snd wc then 2 else flag_value Cloud (fst wc)) /\ (flag_value Off (fst wc) <> 0 -> w' = fst wc)) (combine qai cld)) as (q & Eq & Lq & Gq).
  { intros i (w, c) G. rewrite get_combine in G. destruct (get_at qai i) as [w0|] eqn:G1; [|discriminate]. destruct (get_at cld i) as [c0|] eqn:G2; [|discriminate].
    injection G as -> ->. destruct (cloud_pixel_ok w c (Forall_get_at _ _ _ _ SH G1)) as (w' & E & R). exists w'. auto. }
  destruct IC as (_ & _ & LC & _). destruct IS as (_ & _ & LS & _). rewrite zlen_combine in Lq by lia.
  assert (IM : image (cirrus_mask q cirrus) nx ny).
  { split; [auto|]. split; [auto|]. split; [|auto]. rewrite (cirrus_mask_len qai); [auto|auto|]. intros c Ec. destruct (IR c Ec) as (_ & _ & L & _). lia. }
  destruct (grow_ok cld nx ny rc) as (C & EC & LC' & _); [repeat split; auto|].
  destruct (grow_ok (cirrus_mask q cirrus) nx ny (match cirrus with Some _ => ri | None => None end) IM) as (I & EI & LI & _).
  destruct (grow_ok shd nx ny rs) as (S & ES & LS' & _); [repeat split; auto|].
  destruct (omap_get final_pixel (fun x y => y = (fst y, cloudy (fst y)) /\ let w := fst x in let w' := fst y in
      in_short w' /\ (flag_value Off w <> 0 -> w' = w) /\ (forall g, g <> Cloud -> g <> Shadow -> flag_value g w' = flag_value g w) /\
      (flag_value Off w = 0 ->
       flag_value Cloud w' = (if fst (snd x) then (if flag_value Cloud w =? 0 then 1 else flag_value Cloud w) else if fst (snd (snd x)) then 3 else flag_value Cloud w) /\
       flag_value Shadow w' = (if snd (snd (snd x)) then 1 else flag_value Shadow w))) (combine q (combine C (combine I S)))) as (f & Ef & Lf & Gf).
  { intros i (w, (c, (u, s))) G. rewrite get_combine in G. destruct (get_at q i) as [w0|] eqn:G1; [|discriminate].
    destruct (get_at (combine C (combine I S)) i) as [t|] eqn:G2; [|discriminate]. injection G as -> ->.
    assert (W : in_short w).
    { pose proof (get_at_inv _ _ _ G1) as B. destruct (get_at_some qai i ltac:(lia)) as (wq & Gw). destruct (get_at_some cld i ltac:(lia)) as (cq & Gc).
      destruct (Gq i (wq, cq)) as (y & Gy & Hy & _); [rewrite get_combine, Gw, Gc; reflexivity|]. congruence. }
    destruct (final_pixel_ok w c u s W) as (w' & E & A1 & A2 & A3 & A4). exists (w', cloudy w'). split; [exact E|]. cbn [fst snd]. auto 10. }
  assert (LF : zlen (combine q (combine C (combine I S))) = nx * ny).
  { assert (L1 : zlen (combine I S) = nx * ny) by (rewrite zlen_combine; lia). assert (L2 : zlen (combine C (combine I S)) = nx * ny) by (rewrite zlen_combine; lia). rewrite zlen_combine; lia. }
  exists q, C, I, S, (map fst f), (zlen (filter cloudy (map fst f))).
  split; [exact Eq|]. split; [lia|]. split; [exact EC|]. split; [exact EI|]. split; [exact ES|]. split; [exact IM|]. split; [|split; [|split; [reflexivity|split]]].
  - unfold final_mask. rewrite Eq. cbn [bind]. rewrite EC. cbn [bind]. rewrite EI. cbn [bind]. rewrite ES. cbn [bind]. rewrite Ef. cbn [bind]. f_equal. f_equal.
    unfold count_true. f_equal.
    assert (A : Forall (fun y => y = (fst y, cloudy (fst y))) f).
    { apply Forall_forall. intros y Iy. apply In_get_at in Iy. destruct Iy as (i & Bi & Gi). rewrite Lf in Bi. destruct (get_at_some _ _ Bi) as (x & Gx).
      destruct (Gf i x Gx) as (y' & Gy' & Hy' & _). congruence. }
    clear - A. unfold zlen. f_equal. induction A as [|y l Hy _ IH]; [reflexivity|]. rewrite Hy at 1 2. cbn [map snd fst filter]. destruct (cloudy (fst y)); cbn [length]; rewrite IH; reflexivity.
  - rewrite zlen_map. lia.
  - intros p w Gw. pose proof (get_at_inv _ _ _ Gw) as B. destruct (get_at_some cld p ltac:(lia)) as (d & Gd).
    destruct (Gq p (w, d)) as (w1 & G1 & W1 & O1 & _); [rewrite get_combine, Gw, Gd; reflexivity|]. exists w1. auto.
  - intros p w Gw. pose proof (get_at_inv _ _ _ Gw) as B.
    destruct (get_at_some cld p ltac:(lia)) as (d & Gd). destruct (get_at_some C p ltac:(lia)) as (c & Gc). destruct (get_at_some I p ltac:(lia)) as (u & Gu). destruct (get_at_some S p ltac:(lia)) as (s & Gs).
    destruct (Gq p (w, d)) as (w1 & G1 & W1 & O1 & C1 & F1); [rewrite get_combine, Gw, Gd; reflexivity|]. cbn [fst snd] in *.
    destruct (Gf p (w1, (c, (u, s)))) as (y & Gy & _ & A1 & A2 & A3 & A4); [rewrite !get_combine, G1, Gc, Gu, Gs; reflexivity|]. cbn [fst snd] in *.
    exists (fst y), d, c, u, s. split; [rewrite get_map, Gy; reflexivity|]. split; [exact Gd|]. split; [exact Gc|]. split; [exact Gu|]. split; [exact Gs|]. split; [exact A1|].
    rewrite (O1 Off) in A2, A4 by discriminate. split; [intros V; rewrite (A2 V); auto|]. split; [intros g N M; rewrite A3, O1; auto|].
    intros V. destruct (A4 V) as (A5 & A6). rewrite (O1 Shadow) in A6 by discriminate. split; [|exact A6]. rewrite A5, C1, V. unfold cloud_after. cbn [Z.eqb andb].
    destruct c, u, d; reflexivity.
Qed.
