(** Distance transform of a binary image. *)
From Coq Require Import Lia List.
From Verif Require Import Base BaseFacts Loops ImgSpec ImgFacts DistModel DistSpec DistProofs.
Import ListNotations.
#[local] Open Scope Z_scope.

(** For every image with at least one TRUE pixel, every pixel of the result is
    the Euclidean distance to the nearest TRUE pixel, rounded down.  The routine
    neither reads nor writes outside of its arrays, and no computation overflows. *)
Theorem C34_exact img nx ny : image img nx ny -> small_enough nx ny -> (exists i j, is_true img nx ny i j) ->
  exists out, dist_transform img nx ny = Ret out /\ zlen out = nx * ny /\
  forall y x, inside nx ny y x -> exists d, nearest2 img nx ny y x d /\ pix out nx y x = Some (Z.sqrt d).
Proof.
  intros HI HS (i0 & j0 & (I0 & T0)). destruct (transform_ok img nx ny HI HS) as (out & E & L & H).
  exists out. split; [exact E|]. split; [exact L|]. intros y x I. destruct (H y x I) as (g & v & i & Ev & Hi & -> & Hmin & Hcol).
  destruct I0 as (Iy & Ix). destruct I as (Jy & Jx).
  exists ((x - i) * (x - i) + g i * g i). split; [|exact Ev].
  assert (Q : exists y0, T img nx ny i y0 /\ g i = Z.abs (y - y0)).
  { destruct (Hcol i Hi) as [(y0 & HT & G & _)|(_ & G)]; [exists y0; auto|]. exfalso.
    destruct (Hcol j0 ltac:(lia)) as [(y0 & (HT & _) & G0 & Gm)|(N & _)]; [|apply (N i0); split; [lia|exact T0]].
    specialize (Hmin j0 ltac:(lia)). rewrite G, G0 in Hmin.
    pose proof (sq_le (x - j0) (nx - 1) ltac:(lia)). pose proof (sq_le (Z.abs (y - y0)) (ny - 1) ltac:(lia)).
    pose proof (sq_le (nx + ny) (nx + ny + y) ltac:(lia)). pose proof (sq_le (x - i) nx ltac:(lia)).
    assert ((nx - 1) * (nx - 1) + (ny - 1) * (ny - 1) < (nx + ny) * (nx + ny)) by nia. lia. }
  destruct Q as (y0 & (By & HT) & G). split.
  - exists y0, i. split; [split; [split; lia|exact HT]|]. unfold dist2. rewrite G. nia.
  - intros a b ((Ba & Bb) & HT'). specialize (Hmin b ltac:(lia)). unfold dist2.
    destruct (Hcol b ltac:(lia)) as [(y1 & _ & G1 & Gm)|(N & _)]; [|exfalso; apply (N a); split; [lia|exact HT']].
    specialize (Gm a ltac:(split; [lia|exact HT'])). pose proof (sq_le (g b) (Z.abs (y - a)) ltac:(lia)). nia.
Qed.
Print Assumptions C34_exact.

(** TRUE pixels, and only they, have distance zero. *)
Theorem C34_zero img nx ny out y x : image img nx ny -> small_enough nx ny -> (exists i j, is_true img nx ny i j) ->
  dist_transform img nx ny = Ret out -> inside nx ny y x ->
  pix out nx y x = Some 0 <-> is_true img nx ny y x.
Proof.
  intros HI HS HT E I. destruct (C34_exact img nx ny HI HS HT) as (out' & E' & _ & H).
  rewrite E in E'. injection E' as <-. destruct (H y x I) as (d & ((i & j & Tij & Ed) & Hmin) & P). rewrite P.
  assert (D0 : 0 <= d) by (subst d; unfold dist2; pose proof (Z.square_nonneg (y - i)); pose proof (Z.square_nonneg (x - j)); lia). split.
  - intros Q. injection Q as Q. assert (D : d = 0).
    { destruct (Z.sqrt_spec d D0) as (A & B). rewrite Q in *. lia. }
    unfold dist2 in Ed. pose proof (Z.square_nonneg (y - i)). pose proof (Z.square_nonneg (x - j)). assert (y - i = 0) by nia. assert (x - j = 0) by nia.
    replace y with i by lia. replace x with j by lia. exact Tij.
  - intros Q. specialize (Hmin y x Q). unfold dist2 in *. replace d with 0 by lia. reflexivity.
Qed.
Print Assumptions C34_zero.

(** Without any TRUE pixel the result is a value that depends on the row,
    at least the number of rows plus the number of columns: no pixel is
    mistaken for one near to a TRUE pixel. *)
Theorem C34_empty img nx ny : image img nx ny -> small_enough nx ny -> (forall i j, ~ is_true img nx ny i j) ->
  exists out, dist_transform img nx ny = Ret out /\ zlen out = nx * ny /\
  forall y x, inside nx ny y x -> pix out nx y x = Some (nx + ny + y).
Proof.
  intros HI HS HN. destruct (transform_ok img nx ny HI HS) as (out & E & L & H). pose proof HI as (Hnx & Hny & _).
  exists out. split; [exact E|]. split; [exact L|]. intros y x I. destruct (H y x I) as (g & v & i & Ev & Hi & -> & Hmin & Hcol).
  destruct I as (Jy & Jx).
  assert (Q : forall j, 0 <= j < nx -> g j = nx + ny + y).
  { intros j Hj. destruct (Hcol j Hj) as [(y0 & (B & HT) & _)|(_ & G)]; [|exact G]. exfalso. apply (HN y0 j). split; [split; lia|exact HT]. }
  pose proof (Hmin x ltac:(lia)) as X. rewrite (Q x), (Q i) in X by lia.
  assert (x - i = 0) by nia. rewrite Ev. f_equal. rewrite (Q i) by lia. replace (x - i) with 0 by lia.
  replace (0 * 0 + (nx + ny + y) * (nx + ny + y)) with ((nx + ny + y) * (nx + ny + y)) by ring.
  apply Z.sqrt_square. lia.
Qed.
Print Assumptions C34_empty.

(** A 5 x 4 image with two TRUE pixels. *)
Definition two_pixels : list bool :=
  [false; false; false; false; false;
   false; false; true;  false; false;
   false; false; false; false; false;
   true;  false; false; false; false].
Example C34_example : image two_pixels 5 4 /\ small_enough 5 4 /\ (exists i j, is_true two_pixels 5 4 i j) /\
  dist_transform two_pixels 5 4 = Ret [2; 1; 1; 1; 2; 2; 1; 0; 1; 2; 1; 1; 1; 1; 2; 0; 1; 2; 2; 2].
Proof.
  split; [repeat split; cbv; congruence|]. split; [cbv; congruence|]. split.
  - exists 1, 2. repeat split; cbv; congruence.
  - vm_compute. reflexivity.
Qed.
(** An image without TRUE pixel. *)
Example C34_empty_example : image (repeat false 6) 3 2 /\ small_enough 3 2 /\ dist_transform (repeat false 6) 3 2 = Ret [5; 5; 5; 6; 6; 6].
Proof. split; [repeat split; cbv; congruence|]. split; [cbv; congruence|]. vm_compute. reflexivity. Qed.
