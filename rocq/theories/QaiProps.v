(** C07 - C09: quality words. *)
From Coq Require Import Sorting.Permutation.
From Verif Require Import Base QaiModel QaiSpec QaiProofs.

(** C07 *)
Theorem C07_read_flag : forall f w, in_short w ->
  get_flag f w = flag_value f w /\ 0 <= flag_value f w <= flag_max f.
Proof. exact (fun f w W => conj (get_flag_value f w W) (flag_range f w)). Qed.
Print Assumptions C07_read_flag.

Theorem C07_write_flag : forall f w v, in_short w -> 0 <= v <= flag_max f ->
  exists w', set_flag f w v = Ret w' /\ in_short w' /\ get_flag f w' = v /\
    forall g, g <> f -> get_flag g w' = get_flag g w.
Proof. exact set_get_flag. Qed.
Print Assumptions C07_write_flag.

Theorem C07_write_flag_in_image : forall f img p v,
  Forall in_short img -> 0 <= p < zlen img -> 0 <= v <= flag_max f ->
  exists img', set_flag_at f img p v = Ret img' /\ zlen img' = zlen img /\ Forall in_short img' /\
    (forall w w', get_at img p = Some w -> get_at img' p = Some w' ->
       get_flag f w' = v /\ forall g, g <> f -> get_flag g w' = get_flag g w) /\
    (forall q, q <> p -> get_at img' q = get_at img q).
Proof. exact set_flag_at_spec. Qed.
Print Assumptions C07_write_flag_in_image.

(** Flags are independent: two of them can be written in any order. *)
Theorem C07_flags_disjoint : forall f g w a b, f <> g -> in_short w ->
  0 <= a <= flag_max f -> 0 <= b <= flag_max g ->
  disjoint_flags f g /\
  exists u v, (x <- set_flag f w a ;; set_flag g x b) = Ret u /\
    (x <- set_flag g w b ;; set_flag f x a) = Ret v /\
    get_flag f u = a /\ get_flag g u = b /\
    forall h, get_flag h u = get_flag h v /\ (h <> f -> h <> g -> get_flag h u = get_flag h w).
Proof. exact writes_commute. Qed.
Print Assumptions C07_flags_disjoint.

(** Over-wide values spill into the neighbouring flag. *)
Theorem C07_overwide_value_refuted : exists w, in_short w /\ get_flag Cloud w = 0 /\
  exists w', set_flag Off w 2 = Ret w' /\ get_flag Off w' = 0 /\ get_flag Cloud w' = 1.
Proof. exact overwide_refuted. Qed.
Print Assumptions C07_overwide_value_refuted.

Example C07_example : let w := 21 in
  in_short w /\ get_flag Cloud w = 2 /\ set_flag Aerosol w 3 = Ret 213 /\ get_flag Cloud 213 = 2 /\
  get_flag Aerosol 213 = 3 /\ get_flag Snow 213 = 1 /\ get_flag Off (-1) = 1.
Proof. cbv zeta; split; [unfold in_short; lia|]. repeat split. Qed.

(** C08 *)
Theorem C08_merge_worst_partial : forall old a b, in_short old -> in_short a -> in_short b ->
  exists w, merge_qai old a b = Ret w /\ in_short w /\
    forall f, f <> Illumination -> flag_value f w = worst f (flag_value f a) (flag_value f b).
Proof. exact merge_worst_partial. Qed.
Print Assumptions C08_merge_worst_partial.

Theorem C08_merge_illumination_refuted : exists a b w, in_short a /\ in_short b /\
  flag_value Illumination a = 3 /\ flag_value Illumination b = 0 /\
  merge_qai 0 a b = Ret w /\ flag_value Illumination w = 0 /\
  worst Illumination (flag_value Illumination a) (flag_value Illumination b) = 3.
Proof. exact merge_illumination_refuted. Qed.
Print Assumptions C08_merge_illumination_refuted.

Theorem C08_merge_commutative : forall old a b, in_short old -> in_short a -> in_short b ->
  merge_qai old a b = merge_qai old b a.
Proof. exact merge_comm. Qed.
Print Assumptions C08_merge_commutative.

Theorem C08_merge_associative : forall old a b c,
  in_short old -> in_short a -> in_short b -> in_short c ->
  (x <- merge_qai old a b ;; merge_qai old x c) = (y <- merge_qai old b c ;; merge_qai old a y).
Proof. exact merge_assoc. Qed.
Print Assumptions C08_merge_associative.

Theorem C08_merge_idempotent : forall old a, in_short old -> in_short a ->
  exists w, merge_qai old a a = Ret w /\ forall f, flag_value f w = flag_value f a.
Proof. exact merge_idem. Qed.
Print Assumptions C08_merge_idempotent.

Example C08_example : merge_qai 5 (2 + 16) (4 + 8 + 1) = Ret (4 + 8 + 16).
Proof. reflexivity. Qed.

(** C09 *)
Theorem C09_pixel_used_iff : forall w r ard, in_short w ->
  use_this_pixel w r ard = true <-> usable w r ard.
Proof. exact use_this_pixel_usable. Qed.
Print Assumptions C09_pixel_used_iff.

Theorem C09_keywords : forall w flags, in_short w ->
  use_this_pixel w (parse_quality flags) true = true <->
  (forall c s, In c flags -> keyword c = Some s -> ~ applies s w).
Proof. exact screen_keywords. Qed.
Print Assumptions C09_keywords.

Theorem C09_more_screening_excludes_more : forall w r r' ard, in_short w ->
  (forall s, selected s r = true -> selected s r' = true) ->
  use_this_pixel w r' ard = true -> use_this_pixel w r ard = true.
Proof. exact use_mono. Qed.
Print Assumptions C09_more_screening_excludes_more.

(** All acquisitions and pixels at once, with the processing mask. *)
Theorem C09_screen_qai : forall qai mask r l,
  (forall m img, mask = Some m -> In img qai -> zlen img <= zlen m) ->
  exists out, screen_qai qai mask r l = Ret out /\ length out = length qai /\
    forall t img om, nth_error qai t = Some img -> nth_error out t = Some om ->
      length om = length img /\
      forall i w o, nth_error img i = Some w -> nth_error om i = Some o -> in_short w ->
      (o = true <->
       (forall m, mask = Some m -> exists v, get_at m (Z.of_nat i) = Some v /\ v <> 0) /\
       usable_at w r l).
Proof.
  intros qai mask r l M. destruct (screen_qai_spec qai mask r l M) as (out & E & L & N). exists out. split; [exact E|]. split; [exact L|].
  intros t img om G1 G2. destruct (N t img om G1 G2) as (L1 & N1). split; [exact L1|]. intros i w o I1 I2 S. rewrite <- usable_level. auto.
Qed.
Print Assumptions C09_screen_qai.

Example C09_example :
  screen_qai [[0; 2; 4; 1; 16]; [8; 0; 0; 0; 0]] (Some [1; 1; 1; 1; 0])
    (parse_quality [QAI_OFF; QAI_CLD_OPQ; QAI_SHD]) INP_ARD
  = Ret [[true; true; false; false; false]; [false; true; true; true; false]].
Proof. reflexivity. Qed.

(** C65 *)
Theorem C65_merge_in_any_order : forall old a l a' l', in_short old -> Forall in_short (a :: l) ->
  Permutation (a :: l) (a' :: l') -> merge_all old a l = merge_all old a' l'.
Proof. exact merge_all_order. Qed.
Print Assumptions C65_merge_in_any_order.

(** Nodata only if nodata in all, every other flag (but illumination) the worst of all. *)
Theorem C65_merge_worst_of_all : forall old a x l, in_short old -> Forall in_short (a :: x :: l) ->
  exists w, merge_all old a (x :: l) = Ret w /\ in_short w /\
    forall f, f <> Illumination -> flag_value f w = fold_right (worst f) (flag_value f a) (map (flag_value f) (x :: l)).
Proof. exact merge_all_value. Qed.
Print Assumptions C65_merge_worst_of_all.

(** A pixel that is screened out of one of the acquisitions (for any state but nodata and
    illumination) is screened out of the merged one or shows a worse state of that flag. *)
Theorem C65_clear_only_if_all_clear : forall old a x l w, in_short old -> Forall in_short (a :: x :: l) ->
  merge_all old a (x :: l) = Ret w -> forall f, f <> Illumination -> f <> Off -> flag_value f w = 0 ->
  Forall (fun v => flag_value f v = 0) (a :: x :: l).
Proof.
  intros old a x l w O S E f NI NO Z. destruct (merge_all_value old a x l O S) as (w' & E' & _ & V).
  rewrite E in E'. injection E' as <-. rewrite (V f NI) in Z.
  assert (forall u, 0 <= flag_value f u) as P by (intros u; apply (flag_range f u)).
  revert Z. generalize (x :: l). clear - P NO. intros m. induction m as [|y m IH]; intros Z; cbn [map fold_right] in Z.
  - constructor; auto.
  - pose proof (P y). assert (fold_right (worst f) (flag_value f a) (map (flag_value f) m) >= 0) as G.
    { clear - P NO. induction m; cbn [map fold_right]; [specialize (P a); lia|]. specialize (P a0). unfold worst at 1. destruct f; try lia. }
    assert (flag_value f y = 0 /\ fold_right (worst f) (flag_value f a) (map (flag_value f) m) = 0) as (Y & M).
    { unfold worst at 1 in Z. destruct f; try lia. now elim NO. }
    specialize (IH M). inversion IH; subst. repeat constructor; auto.
Qed.
Print Assumptions C65_clear_only_if_all_clear.

Example C65_example : merge_all 0 (2 + 16) [4 + 1; 8; 1] = Ret (4 + 8 + 16) /\ merge_all 0 1 [8; 4 + 1; 2 + 16] = Ret (4 + 8 + 16) /\
  Permutation [2 + 16; 4 + 1; 8; 1] [1; 8; 4 + 1; 2 + 16].
Proof.
  split; [reflexivity|]. split; [reflexivity|]. apply (Permutation_rev [2 + 16; 4 + 1; 8; 1]).
Qed.
