(** The metrics from the arrays and sums of a window. *)
From Coq Require Import Reals Lra Lia.
From Flocq Require Import Core.
From Verif Require Import Base Loops BaseFacts LoopsFacts ImgSpec StatsModel StatsSpec StatsProofs AggModel ChunkProofs CsoProofs BapComposite BapMode LsmModel LsmSpec LsmProofs LsmState.
#[local] Open Scope Z_scope.

Lemma cast_ok x : (-32769 < x < 32768)%R -> exists v, short_of_real (Some x) = Ret v /\ whole x v.
Proof.
  intros B. exists (Ztrunc x). cbn [short_of_real]. assert (-32768 <= Ztrunc x <= 32767) as K.
  { destruct (Rle_lt_dec 0 x) as [P|N].
    - rewrite Ztrunc_floor by auto. pose proof (Zfloor_lb x). assert (0 <= Zfloor x) by (apply Zfloor_lub; auto). split; [lia|]. assert (IZR (Zfloor x) < 32768)%R as L by lra. apply lt_IZR in L. lia.
    - rewrite Ztrunc_ceil by lra. pose proof (Zceil_ub x). assert (Zceil x <= 0) by (apply Zceil_glb; lra). split; [|lia]. assert (-32769 < IZR (Zceil x))%R as L by lra. apply lt_IZR in L. lia. }
  assert (in_shortb (Ztrunc x) = true) as -> by (clear - K; unfold in_shortb; lia). split; auto. exact (trunc_part x).
Qed.
Lemma rsum_sum l : rsum l = sum (fun x => x) l.
Proof.
  unfold rsum. assert (forall l a, fold_left Rplus l a = (a + sum (fun x => x) l)%R) as G by (clear; induction l as [|x l IH]; intros a; cbn [fold_left sum]; [ring|rewrite IH; ring]). rewrite G. ring.
Qed.
Lemma rsum_map {A} (f : A -> R) l : rsum (map f l) = sum f l.
Proof. rewrite rsum_sum, sum_map. reflexivity. Qed.
Lemma sum_ext {A} (f g : A -> R) l : (forall x, In x l -> f x = g x) -> sum f l = sum g l.
Proof. induction l as [|x l IH]; intros H; cbn [sum]; auto. rewrite H by (now left). rewrite IH; auto. intros; apply H; now right. Qed.
Lemma sum_le {A} (f g : A -> R) l : (forall x, In x l -> (f x <= g x)%R) -> (sum f l <= sum g l)%R.
Proof. induction l as [|x l IH]; intros H; cbn [sum]; [lra|]. pose proof (H x (or_introl eq_refl)). specialize (IH ltac:(intros; apply H; now right)). lra. Qed.
Lemma sum_scale {A} (f : A -> R) c l : sum (fun x => c * f x)%R l = (c * sum f l)%R.
Proof. induction l as [|x l IH]; cbn [sum]; [ring|rewrite IH; ring]. Qed.
Lemma sum_plus {A} (f g : A -> R) l : sum (fun x => f x + g x)%R l = (sum f l + sum g l)%R.
Proof. induction l as [|x l IH]; cbn [sum]; [ring|rewrite IH; ring]. Qed.
Lemma sum_const {A} c (l : list A) : sum (fun _ => c) l = (c * size l)%R.
Proof. induction l as [|x l IH]; [cbn [sum]; unfold size; cbn; ring|]. cbn [sum]. rewrite IH, size_cons. ring. Qed.
Lemma sum_0 {A} (f : A -> R) l : (forall x, In x l -> f x = 0%R) -> sum f l = 0%R.
Proof. intros H. rewrite (sum_ext _ (fun _ => 0%R)) by auto. rewrite sum_const. ring. Qed.
Lemma sum_swap {A B} (f : A -> B -> R) l1 l2 : sum (fun a => sum (f a) l2) l1 = sum (fun b => sum (fun a => f a b) l1) l2.
Proof. induction l1 as [|a l1 IH]; cbn [sum]; [symmetry; apply sum_0; auto|]. rewrite IH, <- sum_plus. reflexivity. Qed.
Lemma zsize {A} (l : list A) : IZR (zlen l) = size l.
Proof. unfold zlen, size. now rewrite INR_IZR_INZ. Qed.
Lemma mean_bounds l lo hi : l <> [] -> (forall x, In x l -> (lo <= x <= hi)%R) -> (lo <= mean l <= hi)%R.
Proof.
  intros N H. unfold mean. pose proof (size_pos l N). assert (lo * size l <= sum (fun x => x) l <= hi * size l)%R.
  { rewrite <- !sum_const. split; apply sum_le; intros x I; apply H; auto. }
  split; [apply Rmult_le_reg_r with (size l)|apply Rmult_le_reg_r with (size l)]; auto; unfold Rdiv; rewrite Rmult_assoc, Rinv_l by lra; lra.
Qed.
Lemma ratio_bounds s t lo hi : (0 < t)%R -> (lo * t <= s <= hi * t)%R -> (lo <= s / t <= hi)%R.
Proof. intros T H. split; (apply Rmult_le_reg_r with t; [auto|]); unfold Rdiv; rewrite Rmult_assoc, Rinv_l by lra; lra. Qed.

Section Values.
Variables (pa : params) (ft : feature) (fg : list bool) (lab : list Z) (nobj p : Z).
Let r := l_radius pa.
Let nx := f_nx ft.
Let ny := f_ny ft.
Let ms := members r (l_circle pa) nx fg p.
Let k := IZR (ksize r).
Hypothesis LG : legal pa ft.
Hypothesis NO : 0 < nobj.
Hypothesis LF : zlen fg = nx * ny.
Hypothesis LL : zlen lab = nx * ny.
Hypothesis P : 0 <= p < nx * ny.
Hypothesis V : forall x, In x ms -> 1 <= val lab x <= nobj.

Lemma K1 : (1 <= k)%R.
Proof. unfold k. apply IZR_le. pose proof (lg_radius _ _ LG) as R0. fold r in R0. unfold ksize. nia. Qed.
Lemma ms_len : zlen ms <= ksize r.
Proof. exact (members_len pa ft LG fg LF p P). Qed.
Lemma ms_size : (size ms <= k)%R.
Proof. rewrite <- zsize. apply IZR_le, ms_len. Qed.
Lemma ms_share : (0 <= size ms / k <= 1)%R.
Proof. apply ratio_bounds; [pose proof K1; lra|]. pose proof ms_size. pose proof (size_nonneg ms). lra. Qed.

Let us := found lab ms.
Lemma us_patches : patches lab ms us.
Proof.
  split; [apply firsts_NoDup|]. intros c. unfold us, found. rewrite firsts_In. unfold labels. rewrite in_map_iff. split; intros (q & A & B); exists q; auto.
Qed.
Lemma us_In q : In q ms -> In (val lab q) us.
Proof. intros I. apply us_patches. eauto. Qed.
Lemma area_pos c : In c us -> 1 <= area lab ms c.
Proof.
  intros I. apply us_patches in I. destruct I as (q & I & E). unfold area. assert (In q (same lab ms c)) as J by (apply filter_In; split; auto; lia). destruct (same lab ms c) as [|x l]; [destruct J|]. rewrite zlen_c. pose proof (zlen_nonneg l). lia.
Qed.
Lemma group (f : Z -> R) : forall l, (forall q, In q l -> In (val lab q) us) -> sum (fun c => IZR (area lab l c) * f c)%R us = sum (fun q => f (val lab q)) l.
Proof.
  assert (forall x vs, NoDup vs -> In x vs -> sum (fun c => (if x =? c then 1 else 0) * f c)%R vs = f x) as IND.
  { clear. induction vs as [|c vs IH]; intros D I; [destruct I|]. inversion D as [|? ? N D']; subst. cbn [sum]. destruct (Z.eqb_spec x c) as [->|NE].
    - rewrite sum_0; [ring|]. intros y Iy. destruct (Z.eqb_spec c y) as [->|]; [contradiction|ring].
    - destruct I as [->|I]; [congruence|]. rewrite IH by auto. ring. }
  induction l as [|q l IH]; intros H; cbn [sum].
  - apply sum_0. intros c _. unfold area. cbn. ring.
  - rewrite <- IH by (intros; apply H; now right). rewrite <- (IND (val lab q) us) by (try apply firsts_NoDup; apply H; now left). rewrite <- sum_plus. apply sum_ext. intros c _.
    unfold area, same. cbn [filter]. destruct (val lab q =? c); [rewrite zlen_c, plus_IZR|]; ring.
Qed.
Lemma areas_sum : sum (fun c => IZR (area lab ms c)) us = size ms.
Proof.
  rewrite (sum_ext _ (fun c => IZR (area lab ms c) * 1)%R) by (intros; ring). rewrite (group (fun _ => 1%R)) by (apply us_In). rewrite sum_const. ring.
Qed.
Lemma patch_areas_ok : patch_areas (priv_of pa ft fg lab nobj p ms) = Ret (map (fun c => (area lab ms c, perim pa ft fg lab p ms c)) us).
Proof.
  unfold patch_areas. cbn [priv_of t_n t_uniq t_area t_perim]. fold us. destruct (omap_get (fun u => c <- of_option (get_at (us ++ repeat 0 (Z.to_nat (ksize (l_radius pa) - zlen us))) u) ;;
     a <- of_option (get_at (tab (nobj + 1) (area lab ms)) c) ;; pp <- of_option (get_at (tab (nobj + 1) (perim pa ft fg lab p ms)) c) ;; Ret (a, pp))
     (fun u ap => exists c, get_at us u = Some c /\ ap = (area lab ms c, perim pa ft fg lab p ms c)) (zupto (zlen us))) as (ys & E & L & G).
  { intros i u Gi. pose proof (get_at_In _ _ _ Gi) as I. rewrite zupto_In in I. rewrite get_app_l by lia. destruct (get_at_some us u I) as (c & Gc). rewrite Gc. cbn [of_option bind].
    assert (1 <= c <= nobj) as C. { pose proof (get_at_In _ _ _ Gc) as J. apply us_patches in J. destruct J as (q & J & <-). now apply V. }
    rewrite !tab_get by lia. cbn [of_option bind]. eexists. split; [reflexivity|]. eauto. }
  rewrite E. f_equal. assert (zlen (zupto (zlen us)) = zlen us) as LZ by (unfold zlen at 1; rewrite zupto_length; pose proof (zlen_nonneg us); lia). apply get_at_ext; [rewrite zlen_map; lia|].
  intros i I. rewrite L, LZ in I. destruct (G i i) as (y & -> & c & Gc & ->); [apply get_zupto; exact I|]. rewrite get_map, Gc. reflexivity.
Qed.

Lemma mpa_ok : exists v, mpa (ksize r) (zlen ms) (map (fun c => (area lab ms c, perim pa ft fg lab p ms c)) us) = Ret v /\ describes pa ft fg lab p MPA v.
Proof.
  pose proof K1 as K. unfold mpa, describes. fold r nx ms k. rewrite !rsum_map, !sum_map. cbn [fst].
  assert (ms = [] \/ ms <> []) as [EM|NE] by (destruct ms; [left|right]; congruence).
  - assert (us = []) as EU by (unfold us; now rewrite EM). destruct (Rlt_dec 0 _) as [H|H]; [rewrite EU in H; cbn [sum] in H; lra|]. exists 0. split; auto. split; auto. congruence.
  - pose proof (size_pos ms NE) as SP. rewrite zsize.
    assert (sum (fun x => IZR (area lab ms x) / k / (size ms / k)) us = 1)%R as E1.
    { rewrite (sum_ext _ (fun c => / size ms * IZR (area lab ms c))%R) by (intros; field; lra). rewrite sum_scale, areas_sum. field. lra. }
    destruct (Rlt_dec 0 _) as [_|H]; [|rewrite E1 in H; lra]. rewrite E1. set (x := (_ / 1 * 10000)%R).
    assert (x = 10000 * mean (map (fun q => patch_area lab ms (val lab q) / k)%R ms))%R as EX.
    { unfold x, mean. rewrite sum_map, size_map. rewrite (sum_ext _ (fun c => (/ size ms * / k) * (IZR (area lab ms c) * IZR (area lab ms c)))%R) by (intros; field; lra). rewrite sum_scale.
      rewrite (group (fun c => IZR (area lab ms c))) by apply us_In. rewrite (sum_ext (fun q => patch_area lab ms (val lab q) / k)%R (fun q => / k * IZR (area lab ms (val lab q)))%R).
      2:{ intros q _. unfold patch_area, area. rewrite zsize. field. lra. } rewrite sum_scale. field. lra. }
    assert (0 <= mean (map (fun q => patch_area lab ms (val lab q) / k)%R ms) <= 1)%R as B.
    { apply mean_bounds; [now apply map_nonnil|]. intros y I. apply in_map_iff in I. destruct I as (q & <- & I). apply ratio_bounds; [lra|]. unfold patch_area. pose proof (size_nonneg (same lab ms (val lab q))).
      assert (size (same lab ms (val lab q)) <= size ms)%R; [|pose proof ms_size; lra]. unfold size. apply le_INR. unfold same. clear. induction ms as [|a l IH]; cbn [filter length]; [lia|]. destruct (_ =? _); cbn [length]; lia. }
    destruct (cast_ok x) as (v & E & W); [lra|]. exists v. split; [exact E|]. split; [congruence|]. intros _. now rewrite <- EX.
Qed.

Lemma ems_ok : exists v, short_of_real (Some ((IZR (zlen ms) / k) * (IZR (zlen ms) / k) * 10000)%R) = Ret v /\ describes pa ft fg lab p EMS v.
Proof.
  rewrite zsize. pose proof ms_share as B. destruct (cast_ok ((size ms / k) * (size ms / k) * 10000)%R) as (v & E & W); [nra|]. exists v. split; auto. unfold describes. fold r nx ms k.
  replace (10000 * (size ms / k * (size ms / k)))%R with ((size ms / k) * (size ms / k) * 10000)%R by ring. exact W.
Qed.

(** ** Edges *)
Lemma sides_bounds q : 0 <= sides r nx ny fg p q <= 4.
Proof. unfold sides. split; [apply zlen_nonneg|]. cbn [filter]. repeat match goal with |- context [if ?b then _ else _] => destruct b end; rewrite ?zlen_c; unfold zlen; cbn [length]; lia. Qed.

Let square := filter (fun q => in_square r nx p q) (zupto (nx * ny)).
Let out := filter (fun q => negb (on fg q)) square.
Lemma count_le {A} (f g h : A -> bool) l : (forall x, In x l -> f x = true -> h x = true /\ g x = false) -> (length (filter f l) + length (filter g (filter h l)) <= length (filter h l))%nat.
Proof.
  induction l as [|x l IH]; intros H; cbn [filter length]; [lia|]. specialize (IH ltac:(intros; apply H; auto; now right)). pose proof (H x (or_introl eq_refl)) as Hx.
  destruct (f x); [destruct (Hx eq_refl) as (-> & E); cbn [filter length]; rewrite E; cbn [length]; lia|]. destruct (h x); cbn [filter length]; [destruct (g x); cbn [length]|]; lia.
Qed.
Lemma square_len : zlen square <= ksize r.
Proof.
  assert (square = members r false nx (repeat true (Z.to_nat (nx * ny))) p) as ->.
  { unfold square, members. rewrite zlen_repeat by lia. apply filter_ext_in. intros q I. rewrite zupto_In in I. unfold in_kernel, on. rewrite get_repeat by lia. cbn [negb orb]. now rewrite !andb_true_r. }
  apply (members_len (mkParams r false (l_allpx pa) (l_exclude pa) (l_query pa) (l_threshold pa) (l_minpatch pa) (l_metrics pa)) ft); [destruct LG; constructor; auto|rewrite zlen_repeat; unfold nx, ny in *; lia|exact P].
Qed.
Lemma in_out_len : zlen ms + zlen out <= ksize r.
Proof.
  etransitivity; [|exact square_len]. unfold ms, members, out, square. rewrite LF.
  pose proof (count_le (fun q => in_kernel r (l_circle pa) nx p q && on fg q) (fun q => negb (on fg q)) (in_square r nx p) (zupto (nx * ny))) as H. unfold zlen in *. rewrite <- Nat2Z.inj_add. apply inj_le, H.
  intros x _ E. apply andb_true_iff in E. destruct E as (E & O). unfold in_kernel in E. apply andb_true_iff in E. split; [apply E|]. now rewrite O.
Qed.
Definition next_to (q b : Z) : bool := (dist (q / nx) (b / nx) + dist (q mod nx) (b mod nx) =? 1).
Lemma indicator_sum {A} (f : A -> bool) l : sum (fun x => if f x then 1 else 0)%R l = size (filter f l).
Proof. induction l as [|x l IH]; cbn [sum filter]; [reflexivity|]. rewrite IH. destruct (f x); rewrite ?size_cons; ring. Qed.
Lemma incl_size (l l' : list Z) : NoDup l -> incl l l' -> (size l <= size l')%R.
Proof. intros D I. unfold size. apply le_INR. now apply NoDup_incl_length. Qed.
Lemma square_NoDup : NoDup square.
Proof. apply NoDup_filter. rewrite zupto_zrange. apply zrange_NoDup. Qed.
Lemma ms_NoDup : NoDup ms.
Proof. apply NoDup_filter. rewrite zupto_zrange. apply zrange_NoDup. Qed.
Lemma sides_le q : In q ms -> (IZR (sides r nx ny fg p q) <= sum (fun b => if next_to q b then 1 else 0) out)%R.
Proof.
  intros I. rewrite indicator_sum. pose proof (lg_nx _ _ LG) as N. fold nx in N. assert (0 <= q < nx * ny) as Q. { unfold ms, members in I. apply filter_In in I. rewrite zupto_In, LF in I. tauto. }
  destruct (row_range nx ny q N Q) as (Y & X). unfold sides. rewrite zsize.
  match goal with |- (size (filter ?f ?l) <= _)%R => set (F := f); set (ds := l) end.
  assert (forall d, In d (filter F ds) -> 0 <= q / nx + fst d < ny /\ 0 <= q mod nx + snd d < nx /\ In ((q / nx + fst d) * nx + (q mod nx + snd d)) out /\ Z.abs (fst d) + Z.abs (snd d) = 1) as H.
  { intros d D. apply filter_In in D. destruct D as (D & E). unfold F in E. cbv zeta in E. rewrite !andb_true_iff in E. destruct E as (((((E1 & E2) & E3) & E4) & E5) & E6). repeat split; try lia.
    - unfold out, square. rewrite !filter_In, zupto_In. split; [split|]; auto. apply pos_range; lia.
    - unfold ds in D. cbn [In] in D. destruct D as [<- |[<- |[<- |[<- |[]]]]]; reflexivity. }
  rewrite <- (size_map (fun d : Z * Z => (q / nx + fst d) * nx + (q mod nx + snd d))). apply incl_size.
  - assert (NoDup (filter F ds)) as ND. { apply NoDup_filter. unfold ds. repeat constructor; cbn [In]; intuition congruence. }
    revert ND H. generalize (filter F ds). induction l as [|d l IH]; intros ND H; cbn [map]; constructor.
    + intros J. apply in_map_iff in J. destruct J as (d' & E & J). inversion ND as [|? ? NI ND']; subst. destruct (H d (or_introl eq_refl)) as (Y1 & X1 & _). destruct (H d' (or_intror J)) as (Y2 & X2 & _).
      assert (q / nx + fst d' = q / nx + fst d) as E1. { rewrite <- (at_row nx (q / nx + fst d') (q mod nx + snd d')), <- (at_row nx (q / nx + fst d) (q mod nx + snd d)) by auto. now rewrite E. }
      assert (q mod nx + snd d' = q mod nx + snd d) as E2. { rewrite <- (at_col nx (q / nx + fst d') (q mod nx + snd d')), <- (at_col nx (q / nx + fst d) (q mod nx + snd d)) by auto. now rewrite E. }
      apply NI. replace d with d'; auto. destruct d, d'. cbn [fst snd] in *. f_equal; lia.
    + apply IH; [now inversion ND|]. intros; apply H; now right.
  - intros b J. apply in_map_iff in J. destruct J as (d & <- & J). destruct (H d J) as (Y1 & X1 & O & A). apply filter_In. split; auto. unfold next_to, dist. rewrite at_row, at_col by auto. lia.
Qed.
Lemma next_le b : 0 <= b < nx * ny -> (sum (fun q => if next_to q b then 1 else 0) ms <= 4)%R.
Proof.
  intros B. rewrite indicator_sum. replace 4%R with (size [b - nx; b + nx; b - 1; b + 1]) by (unfold size; cbn; ring). apply incl_size; [apply NoDup_filter, ms_NoDup|].
  intros q J. apply filter_In in J. destruct J as (_ & J). unfold next_to, dist in J. pose proof (lg_nx _ _ LG) as N. fold nx in N. pose proof (at_pos nx q N). pose proof (at_pos nx b N). cbn [In].
  revert J H H0. generalize (q / nx) (q mod nx) (b / nx) (b mod nx). intros y x v u J H H0.
  assert ((y = v + 1 \/ y = v - 1) /\ x = u \/ y = v /\ (x = u + 1 \/ x = u - 1)) as [([->| ->] & ->)|(-> & [->| ->])] by lia; lia.
Qed.
Lemma edge_total : (0 <= sum (fun q => IZR (sides r nx ny fg p q)) ms <= 2 * k)%R.
Proof.
  split; [clear; induction ms as [|q l IH]; cbn [sum]; [lra|]; assert (0 <= IZR (sides r nx ny fg p q))%R by (apply IZR_le; apply zlen_nonneg); lra|].
  assert (sum (fun q => IZR (sides r nx ny fg p q)) ms <= 4 * size ms)%R as A.
  { rewrite <- sum_const. apply sum_le. intros q _. apply IZR_le. apply sides_bounds. }
  assert (sum (fun q => IZR (sides r nx ny fg p q)) ms <= 4 * size out)%R as B.
  { eapply Rle_trans; [apply sum_le; intros q I; apply sides_le; exact I|]. rewrite sum_swap, <- sum_const. apply sum_le. intros b I. apply next_le. unfold out, square in I. rewrite !filter_In, zupto_In in I. tauto. }
  assert (size ms + size out <= k)%R as C. { rewrite <- !zsize, <- plus_IZR. apply IZR_le, in_out_len. }
  lra.
Qed.
Lemma edd_ok : exists v, short_of_real (Some (IZR (zsum (sides r nx ny fg p) ms) * sqrt (1 / k) / sqrt k * 10000)%R) = Ret v /\ describes pa ft fg lab p EDD v.
Proof.
  pose proof K1. rewrite zsum_R. set (e := sum _ ms). assert (e * sqrt (1 / k) / sqrt k * 10000 = 10000 * (e / k))%R as ->.
  { rewrite sqrt_div_alt by lra. rewrite sqrt_1. rewrite <- (sqrt_sqrt k) at 3 by lra. assert (sqrt k <> 0)%R by (apply Rgt_not_eq, sqrt_lt_R0; lra). field. auto. }
  assert (0 <= e / k <= 2)%R. { apply ratio_bounds; [lra|]. pose proof edge_total as B. fold e in B. lra. }
  destruct (cast_ok (10000 * (e / k))) as (v & E & W); [lra|]. exists v. split; auto.
Qed.

(** ** Fractal dimension *)
Let per c := perim pa ft fg lab p ms c.
Lemma per_R c : IZR (per c) = patch_perimeter r nx ny fg lab ms p c.
Proof. unfold per, perim. rewrite zsum_R. reflexivity. Qed.
Lemma area_R c : IZR (area lab ms c) = patch_area lab ms c.
Proof. unfold area, patch_area. apply zsize. Qed.
Lemma per_le c : (patch_perimeter r nx ny fg lab ms p c <= 4 * patch_area lab ms c)%R.
Proof. unfold patch_perimeter, patch_area. rewrite <- sum_const. apply sum_le. intros q _. apply IZR_le, sides_bounds. Qed.
Lemma filter_map {A B} (f : B -> bool) (g : A -> B) l : filter f (map g l) = map g (filter (fun x => f (g x)) l).
Proof. induction l as [|x l IH]; cbn [map filter]; auto. destruct (f (g x)); cbn [map]; now rewrite IH. Qed.
Lemma fdi_ok : has_metric pa ft fg lab p FDI -> exists v, fdi (ksize r) (map (fun c => (area lab ms c, per c)) us) = Ret v /\ describes pa ft fg lab p FDI v.
Proof.
  unfold has_metric, describes. fold r nx ms. intros H. pose proof K1 as K. destruct H as [E|((q0 & I0 & B0) & H)].
  - assert (us = []) as -> by (unfold us; now rewrite E). exists 0. split; auto. split; auto. intros N. contradiction.
  - assert (ms <> []) as NE by (intros E; rewrite E in I0; destruct I0). unfold fdi. rewrite filter_map. cbn [fst snd]. set (big := filter (fun c => negb (area lab ms c =? 1)) us).
    assert (big = filter (large lab ms) us) as EB by reflexivity.
    assert (forall c, In c big -> (2 <= patch_area lab ms c)%R /\ (4 <= patch_perimeter r nx ny fg lab ms p c)%R) as BB.
    { intros c I. apply filter_In in I. destruct I as (I & L). pose proof (area_pos c I). split; [rewrite <- area_R; apply IZR_le; lia|]. apply us_patches in I. destruct I as (q & I & <-). apply H; auto. }
    assert (In (val lab q0) big) as IB by (rewrite EB; apply filter_In; split; auto; now apply us_In).
    assert (map (fun c => (area lab ms c, per c)) us <> []) as NM. { apply map_nonnil. intros E. rewrite EB, E in IB. destruct IB. }
    destruct (map (fun c => (area lab ms c, per c)) us) as [|ap aps]; [congruence|]. clear ap aps NM.
    assert (forallb (fun ap => negb (snd ap =? 0)) (map (fun c => (area lab ms c, per c)) big) = true) as ->.
    { apply forallb_forall. intros ap I. apply in_map_iff in I. destruct I as (c & <- & I). cbn [snd]. destruct (BB c I) as (_ & P4). rewrite <- per_R in P4. apply le_IZR in P4. lia. }
    assert (negb (zlen (map (fun c => (area lab ms c, per c)) big) =? 0) = true) as ->.
    { rewrite zlen_map. destruct big; [destruct IB|]. rewrite zlen_c. pose proof (zlen_nonneg big). lia. }
    cbn [andb]. rewrite !rsum_map, !sum_map. cbn [fst snd].
    match goal with |- context [short_of_real (Some ?y)] => set (x := y) end.
    assert (0 < sum (patch_area lab ms) big)%R as S0.
    { destruct big as [|c l]; [destruct IB|]. cbn [sum]. destruct (BB c (or_introl eq_refl)) as (A & _). assert (0 <= sum (patch_area lab ms) l)%R by (apply sum_nonneg; intros; unfold patch_area; apply size_nonneg). lra. }
    assert (x = 10000 * mean_fractal r nx ny fg lab ms p us)%R as EX.
    { unfold x, mean_fractal. rewrite <- EB. rewrite (sum_ext (fun c => IZR (area lab ms c) / IZR (ksize r))%R (fun c => / k * patch_area lab ms c)%R) by (intros; rewrite area_R; unfold Rdiv; apply Rmult_comm). rewrite sum_scale.
      rewrite (sum_ext _ (fun c => / k * (patch_area lab ms c * fractal (patch_area lab ms c) (patch_perimeter r nx ny fg lab ms p c)))%R). 2:{ intros c _. rewrite area_R, per_R. unfold fractal. fold k. unfold Rdiv. ring. }
      rewrite sum_scale. field. lra. }
    assert (0 <= mean_fractal r nx ny fg lab ms p us <= 2)%R as B.
    { unfold mean_fractal. rewrite <- EB. apply ratio_bounds; auto. rewrite <- !sum_scale. split; apply sum_le; intros c I; destruct (BB c I) as (A & P4); pose proof (per_le c) as PL;
        set (a := patch_area lab ms c) in *; set (q := patch_perimeter r nx ny fg lab ms p c) in *; assert (0 < ln a)%R by (rewrite <- ln_1; apply ln_increasing; lra);
        assert (0 <= ln (q / 4))%R by (rewrite <- ln_1; destruct (Req_dec (q / 4) 1) as [->|]; [lra|apply Rlt_le, ln_increasing; lra]).
      - assert (0 <= fractal a q)%R. { unfold fractal. apply Rmult_le_pos; [lra|]. apply Rlt_le, Rinv_0_lt_compat. auto. } rewrite Rmult_0_l. apply Rmult_le_pos; lra.
      - assert (ln (q / 4) <= ln a)%R by (destruct (Req_dec (q / 4) a) as [->|]; [lra|apply Rlt_le, ln_increasing; lra]).
        assert (fractal a q <= 2)%R. { unfold fractal. apply Rmult_le_reg_r with (ln a); auto. unfold Rdiv. rewrite Rmult_assoc, Rinv_l by lra. lra. } rewrite (Rmult_comm 2 a). apply Rmult_le_compat_l; lra. }
    destruct (cast_ok x) as (v & E & W); [lra|]. exists v. split; [exact E|]. split; [intros; contradiction|]. intros _. exists us. split; [exact us_patches|]. fold ny. now rewrite <- EX.
Qed.

(** ** Statistics of the values *)
Let vs := values (f_nodata ft) (f_dat ft) ms.
Lemma val_short q : in_short (val (f_dat ft) q).
Proof. unfold val. destruct (get_at (f_dat ft) q) as [v|] eqn:G; [exact (Forall_get_at _ _ _ _ (lg_short _ _ LG) G)|unfold in_short; lia]. Qed.
Lemma vs_short v : In v vs -> in_short v.
Proof. intros I. unfold vs, values in I. apply filter_In in I. destruct I as (I & _). apply in_map_iff in I. destruct I as (q & <- & _). apply val_short. Qed.
Lemma avg_ok : exists v, short_of_real (Some (r_mx (run_var (map IZR vs)))) = Ret v /\ describes pa ft fg lab p LAVG v.
Proof.
  unfold describes. fold r nx ms vs. destruct vs as [|v0 l0] eqn:EV.
  - cbn [map]. unfold run_var, feed. cbn [r_mx]. exists 0. split; [|split; [auto|congruence]]. cbn [short_of_real]. now rewrite Ztrunc_IZR.
  - rewrite <- EV in *. assert (vs <> []) as NE by (rewrite EV; discriminate). clear EV. destruct (run_var_spec (map IZR vs)) as (-> & _); [now apply map_nonnil|].
    destruct (cast_ok (mean (map IZR vs))) as (v & E & W).
    { assert (-32768 <= mean (map IZR vs) <= 32767)%R; [|lra]. apply mean_bounds; [now apply map_nonnil|]. intros x I. apply in_map_iff in I. destruct I as (z & <- & I). apply vs_short in I. unfold in_short in I. split; apply IZR_le; lia. }
    exists v. split; auto. split; [congruence|auto].
Qed.
Lemma std_ok : has_metric pa ft fg lab p LSTD -> exists v, short_of_real (standdev_o (r_vx (run_var (map IZR vs))) (zlen vs)) = Ret v /\ describes pa ft fg lab p LSTD v.
Proof.
  unfold has_metric, describes. fold r nx ms vs. intros (N1 & B). unfold standdev_o. replace (zlen vs =? 1) with false by (unfold zlen; lia). rewrite zsize. unfold standdev, variance.
  destruct vs as [|v0 l0] eqn:EV.
  - exists 0. split; [|split; [auto|congruence]]. cbn [map]. unfold run_var, feed. cbn [r_vx short_of_real]. unfold Rdiv. rewrite Rmult_0_l, sqrt_0. now rewrite Ztrunc_IZR.
  - rewrite <- EV in *. assert (vs <> []) as NE by (rewrite EV; discriminate). clear EV. destruct (run_var_spec (map IZR vs)) as (_ & ->); [now apply map_nonnil|].
    destruct (cast_ok (sqrt (dev 2 (map IZR vs) / (size vs - 1)))) as (v & E & W). { pose proof (sqrt_pos (dev 2 (map IZR vs) / (size vs - 1))). lra. }
    exists v. split; auto. split; [congruence|auto].
Qed.
Lemma geo_ok : has_metric pa ft fg lab p GEO -> let ps := positives (f_dat ft) ms in
  exists v, (if zlen ps =? 0 then UB else short_of_real (Some (exp (sum (fun x => ln (IZR x)) ps / IZR (zlen ps))))) = Ret v /\ describes pa ft fg lab p GEO v.
Proof.
  unfold has_metric, describes. fold r nx ms. cbv zeta. set (ps := positives (f_dat ft) ms). intros NE. replace (zlen ps =? 0) with false. 2:{ destruct ps; [congruence|]. rewrite zlen_c. pose proof (zlen_nonneg ps). lia. }
  rewrite zsize. assert (sum (fun x => ln (IZR x)) ps / size ps = mean (map (fun x => ln (IZR x)) ps))%R as -> by (unfold mean; now rewrite sum_map, size_map).
  assert (0 <= mean (map (fun x => ln (IZR x)) ps) <= ln 32767)%R as B.
  { apply mean_bounds; [now apply map_nonnil|]. intros y I. apply in_map_iff in I. destruct I as (x & <- & I). unfold ps, positives in I. apply filter_In in I. destruct I as (I & X). apply in_map_iff in I. destruct I as (q & <- & _).
    pose proof (val_short q) as S. unfold in_short in S. assert (1 <= IZR (val (f_dat ft) q) <= 32767)%R as (A & C) by (split; apply IZR_le; lia). split.
    - rewrite <- ln_1. destruct (Req_dec (IZR (val (f_dat ft) q)) 1) as [->|]; [lra|apply Rlt_le, ln_increasing; lra].
    - destruct (Req_dec (IZR (val (f_dat ft) q)) 32767) as [->|]; [lra|apply Rlt_le, ln_increasing; lra]. }
  destruct (cast_ok (exp (mean (map (fun x => ln (IZR x)) ps)))) as (v & E & W); [|eauto]. set (m := mean _) in *. pose proof (exp_pos m). assert (exp m <= 32767)%R; [|lra].
  rewrite <- (exp_ln 32767) by lra. destruct (Req_dec m (ln 32767)) as [->|]; [lra|]. apply Rlt_le, exp_increasing. lra.
Qed.
Lemma max_ok l : 0 <= fold_left Z.max l 0 /\ (forall x, In x l -> x <= fold_left Z.max l 0) /\ (fold_left Z.max l 0 = 0 \/ In (fold_left Z.max l 0) l).
Proof.
  induction l as [|a l IH] using rev_ind; [cbn; split; [lia|split; [tauto|auto]]|]. rewrite fold_left_app. cbn [fold_left]. destruct IH as (A & B & C). split; [lia|]. split.
  - intros x I. apply in_app_iff in I. destruct I as [I|[<- |[]]]; [specialize (B x I)|]; lia.
  - destruct (Z.max_spec (fold_left Z.max l 0) a) as [(_ & ->)|(_ & ->)]; [right; apply in_or_app; right; now left|]. destruct C as [C|C]; auto. right. apply in_or_app. auto.
Qed.

Lemma metric_ok m : has_metric pa ft fg lab p m -> 0 <= val lab p -> exists v, metric_value r lab p (priv_of pa ft fg lab nobj p ms) (sums_of pa ft fg p ms) m = Ret v /\ describes pa ft fg lab p m v.
Proof.
  intros H L0. assert (sums_of pa ft fg p ms = mkSums (zlen ms) (zsum (sides r nx ny fg p) ms) (zlen vs) (run_var (map IZR vs)) (fold_left Z.max vs 0) (sum (fun v => ln (IZR v)) (positives (f_dat ft) ms)) (zlen (positives (f_dat ft) ms))) as -> by reflexivity.
  destruct m; unfold metric_value; cbv zeta; cbn [s_area s_edge s_valid s_var s_max s_logsum s_logn]; fold k.
  - rewrite patch_areas_ok. cbn [bind]. apply mpa_ok.
  - rewrite val_get by (rewrite LL; exact P). cbn [of_option bind]. eexists. split; [reflexivity|]. unfold has_metric in H. unfold describes. apply BaseFacts.to_short_id. unfold in_short. lia.
  - rewrite patch_areas_ok. cbn [bind]. now apply fdi_ok.
  - apply edd_ok.
  - cbn [priv_of t_n]. fold us. eexists. split; [reflexivity|]. unfold describes. fold r nx ms. exists us. split; [exact us_patches|]. apply BaseFacts.to_short_id. unfold has_metric in H. fold r in H.
    pose proof (found_len lab ms) as FL. pose proof ms_len. pose proof (zlen_nonneg (found lab ms)). unfold us, in_short. lia.
  - apply ems_ok.
  - apply avg_ok.
  - now apply std_ok.
  - exact (geo_ok H).
  - eexists. split; [reflexivity|]. unfold describes. fold r nx ms vs. destruct (max_ok vs) as (A & B & C). rewrite BaseFacts.to_short_id; auto. destruct C as [->|C]; [unfold in_short; lia|now apply vs_short].
  - eexists. split; [reflexivity|]. unfold describes. fold r nx ms vs. destruct (zlen vs <=? 32767) eqn:E; lia.
Qed.
End Values.
