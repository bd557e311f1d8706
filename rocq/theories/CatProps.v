(** C31: change detection. *)
From Verif Require Import Base BaseFacts CatModel CatSpec CatProofs.

(** Without penalty, and if no rise reaches 32768 and no drop exceeds 32767, the
    change is the largest drop, at the first band attaining it; no result iff
    there is no pair of valid values. *)
Theorem C31_largest_drop_partial : forall nodata ser,
  (forall f d, drop nodata ser f d -> -32768 < d <= 32767) ->
  (cat_pixel nodata false ser = Ret None /\ forall f d, ~ drop nodata ser f d) \/
  exists r, cat_pixel nodata false ser = Ret (Some r) /\ drop nodata ser (cat_f r) (cat_change r) /\
    (forall f d, drop nodata ser f d -> d <= cat_change r /\ (f < cat_f r -> d < cat_change r)) /\
    part_values nodata ser (part_total r) = valid_between nodata ser 0 (zlen ser) /\
    part_values nodata ser (part_after r) = valid_between nodata ser (cat_f r) (zlen ser).
Proof.
  intros nodata ser B. destruct (cat_pixel_spec nodata ser B) as [H|(r & E & D & M & P1 & _ & P3)]; [auto|].
  right. exists r. split; auto. split; auto. split; auto. rewrite P1, P3.
  assert (0 <= cat_f r) as F by (destruct D as (g & v & w & (V & _) & _); apply get_at_inv in V; lia).
  pose proof (zlen_nonneg ser).
  split; apply part_values_between; lia.
Qed.

(** The part before the change lacks the last band before the change. *)
Theorem C31_before_part_refuted : exists nodata ser r,
  cat_pixel nodata false ser = Ret (Some r) /\ cat_f r = 2 /\
  valid_between nodata ser 0 2 = [10; 20] /\ part_values nodata ser (part_before r) = [10].
Proof.
  exists (-9999), [10; 20; 5; 7]. eexists. repeat split; vm_compute; reflexivity.
Qed.

(** A drop larger than 32767 (values of opposite sign) is undefined; a series that
    rises by more than 32767 only is treated as having no change at all. *)
Theorem C31_range_refuted :
  cat_pixel (-9999) false [20000; -20000] = UB /\
  cat_pixel (-9999) false [-20000; 20000] = Ret None /\ drop (-9999) [-20000; 20000] 1 (-40000).
Proof.
  split; [vm_compute; reflexivity|]. split; [vm_compute; reflexivity|].
  exists 0, 20000, (-20000). split; [split; [reflexivity|lia]|]. split; [split; [reflexivity|lia]|].
  split; [lia|]. split; [lia|]. intros h H. lia.
Qed.

(** With penalty the penalised change is compared against the unpenalised change
    of the previous best: the band with the largest penalised drop is not found. *)
Theorem C31_penalty_refuted : exists ser r,
  cat_pixel (-9999) true ser = Ret (Some r) /\ cat_f r = 1 /\
  (* drops times (value before - value after): 1000 -> 0 -> 999 and 999 -> 499 -> 499 *)
  ser = [1000; 0; 999; 499; 499] /\ (1000 - 0) * (1000 - 999) < (999 - 499) * (999 - 499).
Proof.
  exists [1000; 0; 999; 499; 499]. eexists. split; [vm_compute; reflexivity|]. split; [vm_compute; reflexivity|].
  split; [reflexivity|lia].
Qed.

Example C31_example : cat_pixel (-9999) false [100; -9999; 300; 50; 250; 0; -9999] =
  Ret (Some (mkCat 250 3 (0, 7) (0, 2) (3, 7))).
Proof. vm_compute. reflexivity. Qed.

Print Assumptions C31_largest_drop_partial.
Print Assumptions C31_before_part_refuted.
Print Assumptions C31_range_refuted.
Print Assumptions C31_penalty_refuted.
