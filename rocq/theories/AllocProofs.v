From Verif Require Import Base BaseFacts AllocModel AllocSpec.

Section P.
Context {A : Type} (zero undef : A).

Lemma nth_repeat' (x d : A) n i : (i < n)%nat -> nth i (repeat x n) d = x.
Proof. revert i; induction n as [|n IH]; intros [|i] H; cbn; try lia; auto. apply IH; lia. Qed.

Lemma nth_firstn (l : list A) n i d : (i < n)%nat -> nth i (firstn n l) d = nth i l d.
Proof.
  revert n i; induction l as [|x l IH]; intros [|n] [|i] H; cbn; try lia; auto. apply IH; lia.
Qed.

(** Closed form of a legal re_alloc. *)
Lemma re_alloc_eq (arr : list A) o n : length arr = o -> (0 < n)%nat ->
  re_alloc zero undef arr o n = Ret (firstn n arr ++ repeat zero (n - o)).
Proof.
  intros L N; unfold re_alloc.
  destruct (Nat.eqb_spec o n) as [->|NE].
  - rewrite firstn_all2 by lia. rewrite Nat.sub_diag; cbn; now rewrite app_nil_r.
  - unfold realloc; destruct n as [|n']; [lia|]. set (n := S n') in *. cbn [bind].
    destruct (Nat.ltb_spec o n) as [LT|GE].
    + unfold memset0. rewrite app_length, firstn_length, repeat_length.
      replace (Nat.min n (length arr) + (n - length arr))%nat with n by lia.
      replace (o + (n - o))%nat with n by lia. rewrite Nat.leb_refl.
      rewrite (firstn_all2 (n:=n) arr) by lia.
      rewrite firstn_app, L, Nat.sub_diag, firstn_O, app_nil_r, firstn_all2 by lia.
      rewrite skipn_all2. now rewrite app_nil_r.
      rewrite app_length, repeat_length; lia.
    + rewrite L. replace (n - o)%nat with 0%nat by lia. reflexivity.
Qed.

Lemma resized1_eq (arr : list A) o n : length arr = o ->
  resized1 zero arr o n (firstn n arr ++ repeat zero (n - o)).
Proof.
  intros L; split.
  - rewrite app_length, firstn_length, repeat_length; lia.
  - intros i I; unfold cell1.
    destruct (Nat.ltb_spec i o).
    + rewrite app_nth1 by (rewrite firstn_length; lia). now apply nth_firstn.
    + rewrite app_nth2 by (rewrite firstn_length; lia). rewrite firstn_length.
      apply nth_repeat'; lia.
Qed.

Lemma re_alloc_spec (arr : list A) o n : length arr = o -> (0 < n)%nat ->
  exists a', re_alloc zero undef arr o n = Ret a' /\ resized1 zero arr o n a'.
Proof. intros L N; rewrite re_alloc_eq by auto; eexists; split; eauto. apply resized1_eq; auto. Qed.

Lemma re_alloc_zero_exits (arr : list A) o : (0 < o)%nat -> re_alloc zero undef arr o 0 = Exit.
Proof. destruct o; [lia|]; reflexivity. Qed.
End P.

Section P2.
Context {A : Type} (zero undef : A).

Lemma nth_error_nth_some {B} (l : list B) i d : (i < length l)%nat -> nth_error l i = Some (nth i l d).
Proof. revert i; induction l as [|x l IH]; intros [|i] H; cbn in *; try lia; auto. apply IH; lia. Qed.

Lemma resize_rows_spec o1 o2 n2 (all : list (list A)) : (0 < n2)%nat ->
  forall (rows : list (option (list A))) k,
  (forall i r, nth_error rows i = Some r ->
     (i + k < o1)%nat -> exists row, r = Some row /\ length row = o2 /\ row = nth (i + k) all []) ->
  exists out, resize_rows zero undef rows k o1 o2 n2 = Ret out /\ length out = length rows /\
    forall i, (i < length rows)%nat ->
      length (nth i out []) = n2 /\
      forall j, (j < n2)%nat ->
        nth j (nth i out []) zero =
        if (i + k <? o1)%nat && (j <? o2)%nat then nth j (nth (i + k) all []) zero else zero.
Proof.
  intros N2; induction rows as [|r rows IH]; intros k H; cbn [resize_rows].
  - exists []; repeat split; auto; cbn in *; lia.
  - destruct (IH (S k)) as (out & E & L & C).
    { intros i r' N B. destruct (H (S i) r' N ltac:(lia)) as (row & -> & LR & Q).
      exists row; repeat split; auto. rewrite Q; f_equal; lia. }
    assert (exists row', (if (o1 <=? k)%nat then Ret (alloc zero n2)
            else match r with Some row => re_alloc zero undef row o2 n2 | None => UB end) = Ret row' /\
            length row' = n2 /\ forall j, (j < n2)%nat ->
            nth j row' zero = if (k <? o1)%nat && (j <? o2)%nat then nth j (nth k all []) zero else zero)
      as (row' & E' & L' & C').
    { destruct (Nat.leb_spec o1 k).
      - exists (alloc zero n2); unfold alloc; rewrite repeat_length; repeat split; auto.
        intros j J. replace (k <? o1)%nat with false by lia. cbn [andb]. now apply nth_repeat'.
      - destruct (H 0%nat r eq_refl ltac:(lia)) as (row & -> & LR & Q); cbn [Nat.add] in Q.
        destruct (re_alloc_spec zero undef row o2 n2 LR N2) as (a' & -> & La & Ca).
        exists a'; repeat split; auto. intros j J. unfold cell1 in Ca. rewrite Ca by auto.
        replace (k <? o1)%nat with true by lia. cbn [andb]. now rewrite Q. }
    rewrite E'; cbn [bind]. rewrite E; cbn [bind].
    eexists; split; [reflexivity|]. split; [cbn; congruence|].
    intros [|i] I; cbn [nth length] in *.
    + split; auto.
    + replace (S i + k)%nat with (i + S k)%nat by lia. apply C; lia.
Qed.

Lemma re_alloc_2D_spec (a : list (list A)) o1 o2 n1 n2 :
  shape2 a o1 o2 -> (0 < n1)%nat -> (0 < n2)%nat ->
  exists a', re_alloc_2D zero undef a o1 o2 n1 n2 = Ret a' /\ resized2 zero a o1 o2 n1 n2 a'.
Proof.
  intros [L R] N1 N2; unfold re_alloc_2D.
  destruct ((o1 =? n1)%nat && (o2 =? n2)%nat) eqn:E.
  { apply andb_prop in E; destruct E as [E1 E2].
    apply Nat.eqb_eq in E1; apply Nat.eqb_eq in E2; subst.
    exists a; split; auto. split; [split; auto|]. intros i j I J.
    replace (i <? length a)%nat with true by lia. replace (j <? n2)%nat with true by lia. reflexivity. }
  rewrite re_alloc_eq by (rewrite ?map_length; auto). cbn [bind].
  set (ptrs := firstn n1 (map Some a) ++ repeat None (n1 - o1)).
  assert (length ptrs = n1) as LP.
  { unfold ptrs; rewrite app_length, firstn_length, repeat_length, map_length; lia. }
  destruct (resize_rows_spec o1 o2 n2 a N2 ptrs 0) as (out & EO & LO & C).
  { intros i r N B. rewrite Nat.add_0_r in *.
    assert (i < n1)%nat by (rewrite <- LP; apply nth_error_Some; congruence).
    assert (nth_error ptrs i = Some (Some (nth i a []))) as Q.
    { unfold ptrs. rewrite nth_error_app1 by (rewrite firstn_length, map_length; lia).
      rewrite (nth_error_nth_some _ i None) by (rewrite firstn_length, map_length; lia).
      rewrite nth_firstn by auto.
      rewrite (nth_indep _ None (Some [])) by (rewrite map_length; lia).
      now rewrite map_nth. }
    rewrite Q in N; inversion N; subst r. eexists; split; [reflexivity|]. split; auto.
    apply (R i). apply nth_error_nth_some; lia. }
  exists out; split; auto. split.
  - split; [congruence|]. intros i r N.
    assert (i < length out)%nat by (apply nth_error_Some; congruence).
    destruct (C i ltac:(congruence)) as (C1 & _).
    rewrite (nth_error_nth_some _ i []) in N by auto. congruence.
  - intros i j I J. unfold cell2. destruct (C i ltac:(lia)) as (_ & C2).
    rewrite C2 by auto. now rewrite Nat.add_0_r.
Qed.

(** Contiguous arrays: cell (i,j) with row stride [s]. *)
Definition cell2c (flat : list A) (s i j : nat) : A := nth (i * s + j) flat zero.

Lemma re_alloc_2DC_spec (flat : list A) o1 n1 n2 :
  length flat = (o1 * n2)%nat -> (0 < o1)%nat -> (0 < n1)%nat -> (0 < n2)%nat ->
  exists f', re_alloc_2DC zero undef flat o1 n2 n1 n2 = Ret f' /\ length f' = (n1 * n2)%nat /\
    forall i j, (i < n1)%nat -> (j < n2)%nat ->
      cell2c f' n2 i j = if (i <? o1)%nat then cell2c flat n2 i j else zero.
Proof.
  intros L O1 N1 N2; unfold re_alloc_2DC.
  replace (o1 =? 0)%nat with false by lia.
  destruct ((o1 =? n1)%nat && (n2 =? n2)%nat) eqn:E.
  { apply andb_prop in E; destruct E as [E1 E2]. apply Nat.eqb_eq in E1; subst.
    exists flat; split; [auto|]. split; [auto|]. intros i j I J.
    replace (i <? n1)%nat with true by lia. reflexivity. }
  assert (0 < n1 * n2)%nat by nia.
  destruct (re_alloc_spec zero undef flat (o1 * n2) (n1 * n2) L) as (f' & E1 & L1 & C1); auto.
  rewrite E1; cbn [bind].
  rewrite re_alloc_eq by (rewrite ?repeat_length; auto). cbn [bind].
  exists f'; split; [auto|]. split; [auto|]. intros i j I J. unfold cell2c, cell1 in *.
  rewrite C1 by nia.
  destruct (Nat.ltb_spec i o1).
  - replace (i * n2 + j <? o1 * n2)%nat with true; auto. symmetry; apply Nat.ltb_lt; nia.
  - replace (i * n2 + j <? o1 * n2)%nat with false; auto. symmetry; apply Nat.ltb_ge; nia.
Qed.
End P2.

Lemma re_alloc_2DC_refuted : exists (flat f' : list Z) n2_now n2,
  length flat = (2 * n2_now)%nat /\ re_alloc_2DC 0 0 flat 2 n2_now 2 n2 = Ret f' /\
  cell2c 0 flat n2_now 1 0 = 3 /\ cell2c 0 f' n2 1 0 = 0.
Proof. exists [1; 2; 3; 4], [1; 2; 3; 4; 0; 0; 0; 0], 2%nat, 4%nat. repeat split. Qed.

Section P3.
Context {A : Type} (zero undef : A).

Lemma resize_planes_spec o2 o3 n2 n3 : (0 < n2)%nat -> (0 < n3)%nat ->
  forall (planes : list (list (list A))) k, k = length planes ->
  (forall i p, nth_error planes i = Some p -> shape2 p o2 o3) ->
  exists out, resize_planes zero undef planes k o2 o3 n2 n3 = Ret out /\ length out = length planes /\
    forall i, (i < length planes)%nat -> resized2 zero (nth i planes []) o2 o3 n2 n3 (nth i out []).
Proof.
  intros N2 N3; induction planes as [|p planes IH]; intros k -> H; cbn [resize_planes length].
  - exists []; repeat split; auto; cbn in *; lia.
  - destruct (re_alloc_2D_spec zero undef p o2 o3 n2 n3 (H 0%nat p eq_refl) N2 N3) as (p' & -> & R).
    cbn [bind].
    destruct (IH _ eq_refl) as (out & -> & L & C). { intros i q N; apply (H (S i) q N). }
    cbn [bind]. eexists; split; [reflexivity|]. split; [cbn; congruence|].
    intros [|i] I; cbn [nth]; auto. apply C; cbn in I; lia.
Qed.

Lemma fill_planes_spec o1 n2 n3 (all : list (list (list A))) :
  forall (planes : list (option (list (list A)))) k,
  (forall i p, nth_error planes i = Some p -> (i + k < o1)%nat -> p = Some (nth (i + k) all [])) ->
  exists out, fill_planes zero planes k o1 n2 n3 = Ret out /\ length out = length planes /\
    forall i, (i < length planes)%nat ->
      nth i out [] = if (i + k <? o1)%nat then nth (i + k) all [] else alloc_2D zero n2 n3.
Proof.
  induction planes as [|p planes IH]; intros k H; cbn [fill_planes].
  - exists []; repeat split; auto; cbn in *; lia.
  - destruct (IH (S k)) as (out & -> & L & C).
    { intros i q N B. rewrite (H (S i) q N) by lia. do 2 f_equal; lia. }
    assert ((if (o1 <=? k)%nat then Ret (alloc_2D zero n2 n3)
             else match p with Some x => Ret x | None => UB end)
            = Ret (if (k <? o1)%nat then nth k all [] else alloc_2D zero n2 n3)) as ->.
    { destruct (Nat.leb_spec o1 k).
      - replace (k <? o1)%nat with false by lia; auto.
      - rewrite (H 0%nat p eq_refl) by lia. replace (k <? o1)%nat with true by lia; auto. }
    cbn [bind]. eexists; split; [reflexivity|]. split; [cbn; congruence|].
    intros [|i] I; cbn [nth].
    + reflexivity.
    + rewrite C by (cbn in I; lia). replace (S i + k)%nat with (i + S k)%nat by lia. reflexivity.
Qed.

Lemma alloc_2D_cell n2 n3 : shape2 (alloc_2D zero n2 n3) n2 n3 /\
  forall j k, cell2 zero (alloc_2D zero n2 n3) j k = zero.
Proof.
  unfold alloc_2D, alloc, cell2. split; [split|].
  - apply repeat_length.
  - intros i r N. apply nth_error_In, repeat_spec in N. subst; apply repeat_length.
  - intros j k. destruct (Nat.ltb_spec j n2).
    + rewrite nth_repeat' by auto. destruct (Nat.ltb_spec k n3).
      * now apply nth_repeat'.
      * apply nth_overflow; rewrite repeat_length; auto.
    + rewrite (nth_overflow _ []) by (rewrite repeat_length; auto). now destruct k.
Qed.

Lemma re_alloc_3D_spec (a : list (list (list A))) o1 o2 o3 n1 n2 n3 :
  shape3 a o1 o2 o3 -> (0 < n1)%nat -> (0 < n2)%nat -> (0 < n3)%nat ->
  exists a', re_alloc_3D zero undef a o1 o2 o3 n1 n2 n3 = Ret a' /\
    resized3 zero a o1 o2 o3 n1 n2 n3 a'.
Proof.
  intros [L R] N1 N2 N3; unfold re_alloc_3D.
  destruct ((o1 =? n1)%nat && (o2 =? n2)%nat && (o3 =? n3)%nat) eqn:E.
  { apply andb_prop in E; destruct E as [E E3]; apply andb_prop in E; destruct E as [E1 E2].
    apply Nat.eqb_eq in E1; apply Nat.eqb_eq in E2; apply Nat.eqb_eq in E3; subst.
    exists a; split; auto. split; [split; auto|]. intros i j k I J K.
    replace (i <? length a)%nat with true by lia. replace (j <? n2)%nat with true by lia.
    replace (k <? n3)%nat with true by lia. reflexivity. }
  assert (exists b, (if negb (o2 =? n2)%nat || negb (o3 =? n3)%nat
          then resize_planes zero undef a o1 o2 o3 n2 n3 else Ret a) = Ret b /\ length b = o1 /\
          forall i, (i < o1)%nat -> resized2 zero (nth i a []) o2 o3 n2 n3 (nth i b []))
    as (b & -> & LB & CB).
  { destruct (negb (o2 =? n2)%nat || negb (o3 =? n3)%nat) eqn:D.
    - destruct (resize_planes_spec o2 o3 n2 n3 N2 N3 a o1) as (b & E' & LB & CB); auto.
      exists b; split; auto. split; [congruence|]. intros i I; apply CB; lia.
    - assert (o2 = n2 /\ o3 = n3) as [-> ->] by lia.
      exists a; split; auto. split; auto. intros i I.
      assert (shape2 (nth i a []) n2 n3) as S by (apply (R i), nth_error_nth_some; lia).
      split; auto. intros j k J K.
      replace (j <? n2)%nat with true by lia. replace (k <? n3)%nat with true by lia. reflexivity. }
  cbn [bind]. rewrite re_alloc_eq by (rewrite ?map_length; auto). cbn [bind].
  set (ptrs := firstn n1 (map Some b) ++ repeat None (n1 - o1)).
  assert (length ptrs = n1) as LP.
  { unfold ptrs; rewrite app_length, firstn_length, repeat_length, map_length; lia. }
  destruct (fill_planes_spec o1 n2 n3 b ptrs 0) as (out & EO & LO & C).
  { intros i r N B. rewrite Nat.add_0_r in *.
    assert (i < n1)%nat by (rewrite <- LP; apply nth_error_Some; congruence).
    assert (nth_error ptrs i = Some (Some (nth i b []))) as Q.
    { unfold ptrs. rewrite nth_error_app1 by (rewrite firstn_length, map_length; lia).
      rewrite (nth_error_nth_some _ i None) by (rewrite firstn_length, map_length; lia).
      rewrite nth_firstn by auto.
      rewrite (nth_indep _ None (Some [])) by (rewrite map_length; lia).
      now rewrite map_nth. }
    congruence. }
  exists out; split; auto.
  assert (forall i, (i < n1)%nat -> shape2 (nth i out []) n2 n3 /\
    forall j k, (j < n2)%nat -> (k < n3)%nat -> cell2 zero (nth i out []) j k =
      if (i <? o1)%nat && (j <? o2)%nat && (k <? o3)%nat then cell2 zero (nth i a []) j k else zero) as Q.
  { intros i I. rewrite C by lia. rewrite Nat.add_0_r.
    destruct (Nat.ltb_spec i o1) as [B|B].
    - destruct (CB i B) as (S & CC). split; auto. 
    - destruct (alloc_2D_cell n2 n3) as (S & CC). split; auto. }
  split.
  - split; [congruence|]. intros i r N.
    assert (i < length out)%nat by (apply nth_error_Some; congruence).
    rewrite (nth_error_nth_some _ i []) in N by auto. inversion N; subst r. apply Q; lia.
  - intros i j k I J K. destruct (Q i I) as (_ & CC). apply (CC j k J K).
Qed.
End P3.
