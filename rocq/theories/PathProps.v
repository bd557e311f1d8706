(** C40: path decomposition. *)
From Verif Require Import Base BaseFacts CStr StringProofs PathModel PathSpec PathProofs.

(** Every path that names something (i.e. has a component) and fits the buffers:
    the basename is its last component, stem and extension recombine to it.  The
    path itself loses its trailing slashes. *)
Theorem C40_basename_partial : forall path size, zlen path < size -> zlen path < 1024 ->
  (exists c, In c path /\ c <> 47) ->
  exists path' base stem ext stem2 ext2,
    last_component path base /\
    (exists trailing, path = path' ++ repeat 47 trailing) /\
    basename_with_ext path size = Ret (path', base) /\
    basename_without_ext path size = Ret (path', stem) /\
    extension path size = Ret (path', ext) /\
    extension2 path size = Ret (path', ext2) /\
    first_dot_split base stem ext /\ last_dot_split base stem2 ext2.
Proof.
  intros path size Hs Hk (c & Hc & Nc).
  destruct (slashes_or_component path) as [(t & E)|(p & d & t & E & Nd)].
  { exfalso. subst. apply repeat_spec in Hc. contradiction. }
  subst path.
  assert (LB: forall front base, p ++ [d] = front ++ base -> zlen base <= zlen (p ++ d :: repeat 47 t)).
  { intros front base E. unfold zlen. assert (length (p ++ [d]) = length (front ++ base)) as EL by (rewrite E; auto).
    rewrite !app_length in *. cbn [length] in *. lia. }
  destruct (basename_spec p d t size Nd) as (front & base & E & Cb & Nb & Ff & EB).
  specialize (LB front base E).
  rewrite (fits size base) in EB by lia. cbn [bind] in EB.
  destruct (basename_spec p d t 1024 Nd) as (front2 & base2 & E2 & Cb2 & Nb2 & Ff2 & EB2).
  assert (LC: last_component (p ++ d :: repeat 47 t) base).
  { split; [auto|]. split; [auto|]. exists front, t. split; auto. rewrite app_assoc, <- E, <- app_assoc. reflexivity. }
  assert (LC2: last_component (p ++ d :: repeat 47 t) base2).
  { split; [auto|]. split; [auto|]. exists front2, t. split; auto. rewrite app_assoc, <- E2, <- app_assoc. reflexivity. }
  pose proof (last_component_unique _ _ _ LC2 LC). subst base2.
  rewrite (fits 1024 base) in EB2 by lia. cbn [bind] in EB2.
  destruct (first_dot base) as (stem & ext & S1 & S2 & S3).
  destruct (last_dot base) as (stem2 & ext2 & S4 & S5).
  assert (zlen ext <= zlen base /\ zlen ext2 <= zlen base) as [L1 L2].
  { destruct S1 as (-> & _). destruct S4 as (E4 & _). unfold zlen. rewrite E4 at 2. rewrite !app_length. lia. }
  exists (p ++ [d]), base, stem, ext, stem2, ext2.
  split; [auto|]. split; [exists t; rewrite <- app_assoc; reflexivity|]. split; [exact EB|].
  split; [unfold basename_without_ext; rewrite EB; cbn [bind]; rewrite S2; reflexivity|].
  split; [|split; [|auto]].
  - unfold extension, extension_by. rewrite EB2. cbn [bind]. destruct (strchr dot base) as [k|]; [|rewrite <- S3; reflexivity].
    rewrite S3, fits by lia. reflexivity.
  - unfold extension2, extension_by. rewrite EB2. cbn [bind]. destruct (strrchr dot base) as [k|]; [|rewrite <- S5; reflexivity].
    rewrite S5, fits by lia. reflexivity.
Qed.

(** Paths without trailing slash: directory, slash and basename recombine; a path
    without any slash is its own basename, in the working directory. *)
Theorem C40_recombine_partial : forall cwd path size, zlen path < size -> zlen cwd < size ->
  (exists p c, path = p ++ [c] /\ c <> 47) ->
  exists dir base, directoryname cwd path size = Ret dir /\ basename_with_ext path size = Ret (path, base) /\
    component base /\
    ((In 47 path /\ path = dir ++ 47 :: base) \/ (~ In 47 path /\ dir = cwd /\ base = path)).
Proof.
  intros cwd path size Hs Hw (p & c & -> & Nc).
  destruct (basename_spec p c 0 size Nc) as (front & base & E & Cb & Nb & Ff & EB).
  assert (zlen base <= zlen (p ++ [c])) by (rewrite E; unfold zlen; rewrite app_length; lia).
  rewrite fits in EB by lia. cbn [bind repeat] in EB.
  unfold directoryname. rewrite fits by lia. cbn [bind].
  pose proof (strrchr_spec slash (p ++ [c])) as R. destruct (strrchr slash (p ++ [c])) as [k|].
  - destruct R as (a & b & E2 & L & N). exists a, base.
    split; [f_equal; rewrite E2; subst k; rewrite firstn_app, Nat.sub_diag, firstn_all; apply app_nil_r|].
    split; [exact EB|]. split; [exact Cb|]. left. split; [rewrite E2; apply in_or_app; right; left; reflexivity|].
    assert (b = base) as <-; [|exact E2].
    apply (last_component_unique (p ++ [c])).
    + split; [exact N|]. split.
      * intros ->. apply app_inj_tail in E2 as [_ E2]. contradiction.
      * exists (a ++ [47]), O. split; [cbn [repeat]; rewrite app_nil_r, <- app_assoc; exact E2|eauto].
    + split; [auto|]. split; [auto|]. exists front, O. split; [cbn [repeat]; rewrite app_nil_r; exact E|auto].
  - exists cwd, base. destruct (Z.geb_spec (zlen cwd) size); [lia|]. split; [reflexivity|]. split; [exact EB|]. split; [exact Cb|].
    right. split; [exact R|]. split; [reflexivity|].
    destruct Ff as [->|(f & ->)]; [cbn in E; auto|]. exfalso. apply R. rewrite E. apply in_or_app. left. apply in_or_app. right. left. reflexivity.
Qed.

(** The empty path and paths of slashes only (such as the root directory) make the
    basename functions read in front of the string. *)
Theorem C40_root_refuted : forall t size,
  basename_with_ext (repeat 47 t) size = UB /\ basename_without_ext (repeat 47 t) size = UB /\
  extension (repeat 47 t) size = UB.
Proof.
  intros t size. unfold basename_without_ext, extension, extension_by, basename_with_ext.
  change 47 with slash. rewrite strip_only_slashes. auto.
Qed.

(** With a trailing slash the directory name is not the one the basename belongs
    to; for a file in the root directory it is empty. *)
Theorem C40_directory_refuted :
  directoryname (` "/wd") (` "a/b/") 64 = Ret (` "a/b") /\ basename_with_ext (` "a/b/") 64 = Ret (` "a/b", ` "b") /\
  directoryname (` "/wd") (` "/f") 64 = Ret [].
Proof. vm_compute. auto. Qed.

Example C40_example :
  basename_without_ext (` "/data/X0001_Y0002/img.tar.gz") 64 = Ret (` "/data/X0001_Y0002/img.tar.gz", ` "img") /\
  extension (` "/data/X0001_Y0002/img.tar.gz") 64 = Ret (` "/data/X0001_Y0002/img.tar.gz", ` ".tar.gz") /\
  extension2 (` "/data/X0001_Y0002/img.tar.gz") 64 = Ret (` "/data/X0001_Y0002/img.tar.gz", ` ".gz") /\
  directoryname (` "/wd") (` "/data/X0001_Y0002/img.tar.gz") 64 = Ret (` "/data/X0001_Y0002") /\
  directoryname (` "/wd") (` "img.tar.gz") 64 = Ret (` "/wd") /\
  basename_with_ext (` "/data/dir//") 64 = Ret (` "/data/dir", ` "dir").
Proof. vm_compute. repeat split. Qed.

Print Assumptions C40_basename_partial.
Print Assumptions C40_recombine_partial.
Print Assumptions C40_root_refuted.
Print Assumptions C40_directory_refuted.
