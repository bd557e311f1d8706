(** Reduction of the resolution with a point spread function: the claims. *)
From Coq Require Import Reals Lra Lia ZifyBool.
From Flocq Require Import Core.
From Verif Require Import Base BaseFacts RoundModel RoundFacts L1Cal PsfModel PsfSpec PsfProofs PsfKernel PsfReduce PsfCases.
#[local] Open Scope R_scope.

(** ** C127: values of the reduced image *)
(** Ratio a whole number up to 1000.  Missing: other ratios. *)
Theorem C127_values_partial : forall fuel hr NX NY k nodata, (1 <= k <= 1000)%Z -> (1 <= NX)%Z -> (1 <= NY)%Z -> (k * NX <= 4000000)%Z -> (k * NY <= 4000000)%Z ->
  image16 hr (k * NX) (k * NY) -> (4 < Z.abs nodata <= 32768)%Z -> (rounds k <= fuel)%nat ->
  exists lr, reduce_psf fuel hr (k * NX) (k * NY) NX NY nodata = Ret (Some lr) /\ zlen lr = (NX * NY)%Z /\
    forall i j, (0 <= i < NY)%Z -> (0 <= j < NX)%Z -> exists r, get_at lr (i * NX + j) = Some r /\
      ((forall a b v, of_cell k i j a b -> ~ value hr (k * NX) (k * NY) nodata a b v) -> r = nodata) /\
      (forall lo hi, (exists a b v, of_cell k i j a b /\ value hr (k * NX) (k * NY) nodata a b v) ->
         (forall a b v, around_cell k i j a b -> value hr (k * NX) (k * NY) nodata a b v -> lo <= v <= hi)%Z -> cut_between lo hi r).
Proof. exact reduce_ok. Qed.

(** For images without negative values and the usual nodata value: valid exactly where the image has data. *)
Theorem C127_valid_where_data : forall fuel hr NX NY k, (1 <= k <= 1000)%Z -> (1 <= NX)%Z -> (1 <= NY)%Z -> (k * NX <= 4000000)%Z -> (k * NY <= 4000000)%Z ->
  image16 hr (k * NX) (k * NY) -> Forall (fun v => v = -9999 \/ 0 <= v)%Z hr -> (rounds k <= fuel)%nat ->
  exists lr, reduce_psf fuel hr (k * NX) (k * NY) NX NY (-9999) = Ret (Some lr) /\
    forall i j, (0 <= i < NY)%Z -> (0 <= j < NX)%Z -> exists r, get_at lr (i * NX + j) = Some r /\
      (r = (-9999)%Z <-> forall a b v, of_cell k i j a b -> ~ value hr (k * NX) (k * NY) (-9999) a b v) /\ (r <> (-9999)%Z -> 0 <= r)%Z.
Proof.
  intros fuel hr NX NY k K X Y BX BY IM F FU. destruct (reduce_ok fuel hr NX NY k (-9999) K X Y BX BY IM ltac:(lia) FU) as (lr & E & _ & H).
  exists lr. split; auto. intros i j I J. destruct (H i j I J) as (r & G & A & B). exists r. split; auto.
  assert ((exists a b v, of_cell k i j a b /\ value hr (k * NX) (k * NY) (-9999) a b v) -> 0 <= r)%Z as P.
  { intros EX. specialize (B 0%Z 32767%Z EX). assert (cut_between 0 32767 r) as C; [|unfold cut_between in C; cbn [Z.ltb Z.compare] in C; lia].
    apply B. intros a b v _ (_ & _ & Gv & Nv). destruct IM as [_ R]. pose proof (Forall_get_at _ _ _ _ R Gv) as R1. pose proof (Forall_get_at _ _ _ _ F Gv) as R2. cbn beta in R1, R2. lia. }
  assert ((forall a b v, of_cell k i j a b -> ~ value hr (k * NX) (k * NY) (-9999) a b v) \/ exists a b v, of_cell k i j a b /\ value hr (k * NX) (k * NY) (-9999) a b v) as [N | S].
  { (* the cell has finitely many pixels *)
    set (test := fun w : Z * Z => match get_at hr ((i * k + fst w) * (k * NX) + (j * k + snd w)) with Some v => negb (v =? -9999)%Z | None => false end).
    destruct (existsb test (pairs k k)) eqn:T.
    - right. apply existsb_exists in T. destruct T as ([x y] & Iw & T). apply pairs_In in Iw. unfold test in T. cbn [fst snd] in T.
      destruct (get_at hr _) as [v|] eqn:Gv; [|discriminate]. exists (i * k + x)%Z, (j * k + y)%Z, v. split; [unfold of_cell; lia|].
      assert (i * k + k <= k * NY)%Z by nia. assert (j * k + k <= k * NX)%Z by nia. split; [nia|]. split; [nia|]. split; auto. lia.
    - left. intros a b v C V. assert (existsb test (pairs k k) = true); [|congruence]. apply existsb_exists. exists (a - i * k, b - j * k)%Z.
      destruct C as [C1 C2]. split; [apply pairs_In; lia|]. unfold test. cbn [fst snd]. replace (i * k + (a - i * k))%Z with a by lia. replace (j * k + (b - j * k))%Z with b by lia.
      destruct V as (_ & _ & Gv & Nv). rewrite Gv. lia. }
  - split; [split; auto|]. intros Nr. exfalso. auto.
  - specialize (P S). split; [|auto]. split; [lia|]. intros N. exfalso. destruct S as (a & b & v & C & V). exact (N a b v C V).
Qed.
Example C127_case : exists r, reduce_psf (rounds 2) [0; 0; 0; -9999]%Z (2 * 1) (2 * 1) 1 1 (-9999) = Ret (Some [r]) /\ r = 0%Z.
Proof.
  destruct (C127_values_partial (rounds 2) [0; 0; 0; -9999]%Z 1 1 2 (-9999) ltac:(lia) ltac:(lia) ltac:(lia) ltac:(lia) ltac:(lia)) as (lr & E & L & H); try lia.
  { split; [reflexivity|]. repeat constructor; lia. }
  destruct (H 0%Z 0%Z ltac:(lia) ltac:(lia)) as (r & G & _ & B). rewrite E.
  assert (cut_between 0 0 r) as C.
  { apply B. { exists 0%Z, 0%Z, 0%Z. split; [unfold of_cell; lia|]. split; [lia|]. split; [lia|]. split; [reflexivity|lia]. }
    intros a b v _ (A & B' & Gv & Nv). apply (in_2 a) in A. apply (in_2 b) in B'. destruct A as [-> | ->], B' as [-> | ->]; vm_compute in Gv; inversion Gv; subst; lia. }
  unfold cut_between in C. cbn [Z.ltb Z.compare] in C. destruct lr as [|r' [|? ?]]; try (unfold zlen in L; cbn [length] in L; lia). vm_compute in G. inversion G; subst. exists r. split; auto. lia.
Qed.
(** A uniform image does not keep its value. *)
Theorem C127_uniform_refuted : ~ (forall c, (0 <= c <= 10000)%Z -> reduce_psf (rounds 2) [c; c; c; c] 2 2 1 1 (-9999) = Ret (Some [c])).
Proof. intros H. specialize (H 1%Z ltac:(lia)). rewrite one_becomes_zero in H. discriminate. Qed.
(** Features may use any nodata value: the value 10000 is taken for nodata when nodata is 1. *)
Theorem C127_nodata_refuted : ~ (forall c nodata, (0 <= c <= 10000)%Z -> (-32768 <= nodata <= 32767)%Z -> c <> nodata ->
  exists r, reduce_psf (rounds 2) [c; c; c; c] 2 2 1 1 nodata = Ret (Some [r]) /\ r <> nodata).
Proof. intros H. destruct (H 10000%Z 1%Z ltac:(lia) ltac:(lia) ltac:(lia)) as (r & E & N). rewrite ones_are_lost in E. inversion E. congruence. Qed.
(** The same pixels read in two chunks give another image than read at once. *)
Theorem C127_chunks_refuted : ~ (forall a b c d e f g h, reduce_psf (rounds 2) [a; b; c; d; e; f; g; h] 4 2 2 1 (-9999) =
  match reduce_psf (rounds 2) [a; b; e; f] 2 2 1 1 (-9999), reduce_psf (rounds 2) [c; d; g; h] 2 2 1 1 (-9999) with
  | Ret (Some l), Ret (Some r) => Ret (Some (l ++ r))
  | _, _ => UB
  end).
Proof.
  intros H. specialize (H 0 0 20000 20000 0 0 20000 20000)%Z. destruct wide_first as (r0 & r1 & E & L). rewrite E, left_alone in H.
  destruct (reduce_psf _ [20000; 20000; 20000; 20000]%Z _ _ _ _ _) as [[l|]| |]; inversion H. lia.
Qed.

(** Whatever the ratio, also one that is no whole number, nothing is read outside of the image: neither when it is smoothed nor when it is aggregated. *)
Lemma inside (ny nx i j : Z) : (0 <= i < ny -> 0 <= j < nx -> 0 <= i * nx + j < nx * ny)%Z.
Proof. intros. split; nia. Qed.
Theorem C127_inside : forall hr nx ny nodata nk k i j ws sum num, zlen hr = (nx * ny)%Z -> exists s, convolve hr nx ny nodata nk k i j ws sum num = Ret s.
Proof.
  intros hr nx ny nodata nk k i j ws. induction ws as [|(ii, jj) rest IH]; intros sum num L; cbn [convolve]; [eauto|]. set (ni := (- _ + ii + i)%Z). set (nj := (- _ + jj + j)%Z). destruct ((ni <? 0) || (ny <=? ni) || (nj <? 0) || (nx <=? nj))%Z eqn:E; auto.
  destruct (get_at_some hr (ni * nx + nj)) as (v & ->); [rewrite L; apply inside; lia|]. cbn [of_option bind]. destruct (v =? nodata)%Z; auto.
Qed.
Theorem C127_inside_any_ratio : forall g nx ny nodata r i j ws sum num, zlen g = (nx * ny)%Z -> 0 <= r -> (0 <= i)%Z -> (0 <= j)%Z -> Forall (fun w => 0 <= fst w /\ 0 <= snd w)%Z ws ->
  exists s, aggregate g nx ny nodata r i j ws sum num = Ret s.
Proof.
  intros g nx ny nodata r i j ws. induction ws as [|(ii, jj) rest IH]; intros sum num L R I J F; cbn [aggregate]; [eauto|]. inversion F as [|? ? (F1 & F2) F3]; subst. cbn [fst snd] in *.
  assert (N : forall z, (0 <= z)%Z -> (0 <= Zfloor (fmul (float_of z) r))%Z). { intros z Hz. apply Zfloor_lub. change (IZR 0) with 0. unfold fmul. rewrite <- rnd32_0. apply rnd32_le. apply Rmult_le_pos; auto. unfold float_of. rewrite <- rnd32_0. apply rnd32_le. apply IZR_le. exact Hz. }
  pose proof (N i I) as NI. pose proof (N j J) as NJ. set (ni := (Zfloor (fmul (float_of i) r) + ii)%Z). set (nj := (Zfloor (fmul (float_of j) r) + jj)%Z). destruct ((ny <=? ni) || (nx <=? nj))%Z eqn:E; auto.
  destruct (get_at_some g (ni * nx + nj)) as (v & ->); [rewrite L; apply inside; lia|]. cbn [of_option bind]. destruct (Req_bool v (float_of nodata)); auto.
Qed.
(** Three pixels reduced to two: the second cell starts at pixel 1 and takes pixels 1 and 2. *)
Example C127_ratio_case : exists s, aggregate [1; 2; 3] 3 1 (-9999) (3 / 2) 0 1 (pairs 2 2) 0 0 = Ret s.
Proof. apply C127_inside_any_ratio; try lia; try lra; [reflexivity|]. cbn. repeat constructor; cbn; lia. Qed.

(** ** C128: the kernel *)
(** The search ends for every ratio of at least 1; at half the ratio the curve is just below half of its peak. *)
Theorem C128_half_width : forall fuel k r, (1 <= k)%Z -> 1 <= r <= IZR k -> (rounds k <= fuel)%nat ->
  exists s, find_sigma fuel r = Some s /\ r / 3 <= s <= IZR k /\ bell s (r / 2) < / 2 <= bell (s + / 100) (r / 2).
Proof. exact sigma_found. Qed.
Theorem C128_kernel : forall h s i j i' j', (0 <= h)%Z -> 0 < s ->
  (from_centre h i j <= from_centre h i' j')%Z -> 0 <= kernel_at (2 * h + 1) s i' j' <= kernel_at (2 * h + 1) s i j /\
  (from_centre h i j = from_centre h i' j' -> kernel_at (2 * h + 1) s i' j' = kernel_at (2 * h + 1) s i j) /\
  kernel_at (2 * h + 1) s h h = rnd32 (/ (2 * PI * (s * s))).
Proof.
  intros h s i j i' j' H S D. assert (forall a b, kernel_at (2 * h + 1) s a b = rnd32 (amp s * exp (- IZR (from_centre h a b) / (s * s * 2)))) as K.
  { intros a b. unfold kernel_at. replace ((2 * h + 1 - 1) / 2)%Z with h by (rewrite Z.add_simpl_r, Z.mul_comm, Z.div_mul by lia; auto).
    unfold amp, from_centre. replace ((- h + b) * (- h + b) + (- h + a) * (- h + a))%Z with ((a - h) * (a - h) + (b - h) * (b - h))%Z by ring. reflexivity. }
  rewrite !K. assert (0 < s * s * 2) as P by nra. pose proof (amp_pos s S) as A. split; [split|split].
  - apply rnd32_nonneg. apply Rmult_le_pos; [lra|left; apply exp_pos].
  - apply rnd32_le. apply Rmult_le_compat_l; [lra|]. apply exp_mono. apply Rmult_le_compat_r; [left; apply Rinv_0_lt_compat; auto|]. apply Ropp_le_contravar, IZR_le. auto.
  - intros ->. auto.
  - unfold from_centre. rewrite Z.sub_diag. cbn [Z.mul Z.add]. replace (- 0 / (s * s * 2)) with 0 by (field; lra). rewrite exp_0, Rmult_1_r. unfold amp. f_equal. pose proof PI_RGT_0. field. split; lra.
Qed.
Example C128_case : exists s, find_sigma (rounds 3) (IZR 3) = Some s /\ 0 < s /\ (from_centre 3 3 3 <= from_centre 3 2 3)%Z.
Proof. destruct (C128_half_width (rounds 3) 3 (IZR 3) ltac:(lia) ltac:(lra) ltac:(lia)) as (s & E & R & _). exists s. split; auto. split; [lra|vm_compute; discriminate]. Qed.

Print Assumptions C127_values_partial.
Print Assumptions C127_valid_where_data.
Print Assumptions C127_inside.
Print Assumptions C127_inside_any_ratio.
Print Assumptions C127_uniform_refuted.
Print Assumptions C127_nodata_refuted.
Print Assumptions C127_chunks_refuted.
Print Assumptions C128_half_width.
Print Assumptions C128_kernel.
