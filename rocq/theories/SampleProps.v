(** Property C38: sample points. *)
From Coq Require Import Permutation.
From Verif Require Import Base BaseFacts Loops CubeModel CubeSpec SampleModel SampleSpec SampleProofs.

(** With projected coordinates no sample is ever extracted, whatever the units. *)
Theorem C38_projected_refuted s units st : s_projected s = true ->
  Forall (fun u => 0 < b_res (fst (fst u)) /\ 0 < k_nrow (fst (fst u))) units -> run s units st = Ret st.
Proof.
  intros P F. apply empty_run. eapply Forall_impl; [|exact F]. intros [[k m] fs] [A B]. cbn [fst] in *.
  unfold chunk_box. rewrite P. unfold box_projected, brick_y. cbn [miny maxy]. nia.
Qed.

(** Nor with geographic ones, for any warper that maps north to higher latitudes and
    bends the upper and lower edge of a chunk by less than a quarter of its height. *)
Definition edge (k : chunk) (i : Z) : Z := brick_y k i.
Definition gently_bent (g : Z -> Z -> Z * Z) (y0 y1 : Z) : Prop := forall x1 x2 x3 x4,
  4 * Z.abs (snd (g x1 y0) - snd (g x2 y0)) < snd (g x3 (Z.max y0 y1)) - snd (g x4 (Z.min y0 y1)) /\
  4 * Z.abs (snd (g x1 y1) - snd (g x2 y1)) < snd (g x3 (Z.max y0 y1)) - snd (g x4 (Z.min y0 y1)).
Theorem C38_geographic_refuted s units st : s_projected s = false ->
  Forall (fun u : chunk * option (list Z) * list feature => let k := fst (fst u) in 0 < b_res k /\ 0 < k_nrow k /\
    gently_bent (s_to_geo s) (edge k (k_y k * k_nrow k)) (edge k ((k_y k + 1) * k_nrow k))) units ->
  run s units st = Ret st.
Proof.
  intros P F. apply empty_run. eapply Forall_impl; [|exact F]. intros [[k m] fs] (A & B & G). cbn [fst] in *.
  unfold chunk_box. rewrite P. unfold box_geographic. cbv zeta. cbn [miny maxy].
  unfold edge in G. set (i0 := k_y k * k_nrow k) in *. set (i1 := (k_y k + 1) * k_nrow k) in *.
  assert (brick_y k i0 < brick_y k i1) as L by (unfold brick_y, i0, i1; nia).
  unfold gently_bent in G. rewrite Z.max_r, Z.min_l in G by lia.
  set (x0 := brick_x k (k_x k * k_ncol k)). set (x1 := brick_x k ((k_x k + 1) * k_ncol k)).
  set (xm := brick_x k (k_x k * k_ncol k + Z.quot (k_ncol k) 2)).
  pose proof (G xm x0 x0 x0) as G1. pose proof (G xm x0 x0 x1) as G2. pose proof (G xm x0 x1 x0) as G3. pose proof (G xm x0 x1 x1) as G4.
  pose proof (G xm x1 x0 x0) as G5. pose proof (G xm x1 x0 x1) as G6. pose proof (G xm x1 x1 x0) as G7. pose proof (G xm x1 x1 x1) as G8.
  clear G F.
  set (a := snd (s_to_geo s x0 (brick_y k i0))) in *. set (b := snd (s_to_geo s x1 (brick_y k i0))) in *. set (m0 := snd (s_to_geo s xm (brick_y k i0))) in *.
  set (c := snd (s_to_geo s x0 (brick_y k i1))) in *. set (d := snd (s_to_geo s x1 (brick_y k i1))) in *. set (m1 := snd (s_to_geo s xm (brick_y k i1))) in *.
  clearbody a b c d m0 m1. clear - G1 G2 G3 G4 G5 G6 G7 G8.
  set (p := Z.max a b) in *. set (q := Z.min c d) in *.
  assert (4 * Z.abs (m0 - p) < q - p /\ 4 * Z.abs (m1 - q) < q - p) as [H1 H2].
  { destruct (Z.max_spec a b) as [[_ E]|[_ E]], (Z.min_spec c d) as [[_ E']|[_ E']]; subst p q; rewrite E, E'; split; tauto. }
  clearbody p q. clear - H1 H2. destruct (Z.gtb_spec m0 p), (Z.ltb_spec m1 q); lia.
Qed.

(** The positions of a chunk's pixels, independent of the bounding box. *)
Theorem C38_pixel_partial c k x y : of_cube c k ->
  (exists l, locate c k x y = Ret l /\ forall p, l = Some p -> pixel_of k p x y) /\
  (forall p, pixel_of k p x y -> (x = corner_x c (k_tx k) -> k_tx k <= 0) -> (y = corner_y c (k_ty k) -> k_ty k <= 0) ->
     locate c k x y = Ret (Some p)) /\
  (forall k' p p', of_cube c k' -> k_ncol k' = k_ncol k -> k_nrow k' = k_nrow k ->
     locate c k x y = Ret (Some p) -> locate c k' x y = Ret (Some p') ->
     k_tx k' = k_tx k /\ k_ty k' = k_ty k /\ k_x k' = k_x k /\ k_y k' = k_y k /\ p' = p).
Proof.
  intros O. split; [|split].
  - destruct (locate_spec c k x y O) as (l & E & H). exists l. split; auto. intros p P. apply H, P.
  - intros p P A B. apply locate_complete; auto.
  - intros k' p p' O' N N' E E'. apply (locate_unique c k' k x y p' p); auto.
Qed.

(** A position on the vertical border between two tiles right of the origin, or the
    horizontal one below it, belongs to no chunk of any tile. *)
Theorem C38_border_refuted c n x y : 0 < n ->
  (forall k, of_cube c k -> locate c k (corner_x c n) y = Ret None) /\
  (forall k, of_cube c k -> locate c k x (corner_y c n) = Ret None).
Proof. intros N. split; intros k O; [apply locate_border_x|apply locate_border_y]; auto. Qed.

(** A run, for any bounding boxes and warpers. *)
Theorem C38_run_partial s units st : Forall (unit_ok (s_cube s)) units -> counted st ->
  exists st' os, run s units st = Ret st' /\ counted st' /\
    length (t_rows st') = length (t_rows st) /\ length os = length (t_rows st) /\
    Permutation (t_out st') (t_out st ++ written os) /\
    forall n r r' o, nth_error (t_rows st) n = Some r -> nth_error (t_rows st') n = Some r' -> nth_error os n = Some o ->
      sampled s units r r' o /\ (r_active r' = true -> forall u, In u units -> ~ reachable s u r).
Proof.
  intros F C. destruct (run_spec s units F st C) as (st' & os & E & C' & P & L & D & L'). exists st', os.
  split; [exact E|]. split; [exact C'|]. split; [lia|]. split; [exact L|]. split; [exact P|]. intros n r r' o R R' O.
  assert (done s units r r' o) as DN.
  { clear - D L L' R R' O. revert D L L' R R' O. generalize (t_rows st) (t_rows st'). intros l l'. revert l l' os.
    induction n as [|n IH]; intros [|a l] [|b l'] [|q os] D L L' R R' O; cbn [length nth_error] in *; try discriminate; cbn [combine] in D; inversion D; subst; cbn [fst snd] in *.
    - congruence.
    - eapply IH; eauto. }
  split; [apply done_sampled; auto|]. intros A [[k mask] fs] I RE.
  assert (of_cube (s_cube s) k) as OC by (apply (proj1 (Forall_forall _ _) F) in I; apply I).
  destruct DN as [(-> & _ & N)|(u & p & _ & _ & -> & _)]; [|discriminate A].
  destruct RE as (B & p & x & y & PO & PX & U & N1 & N2). apply (N (k, mask, fs) p I). split; [exact A|]. split; [exact B|].
  exists x, y. split; [exact PO|]. split; [|exact U]. apply locate_complete; auto; intros X; contradiction.
Qed.

(** ** Examples: a cube of two by two tiles of 4 x 4 pixels of 10 m, chunks of 4 x 2. *)
Definition ex_cube := mkCube 0 100 40 40 10.
Definition ex_k := mkChunk 0 0 0 1 4 2 0 100 10.
Definition ex_u : chunk * option (list Z) * list feature :=
  (ex_k, Some [1;1;1;1;1;0;1;1], [mkFeat [10;11;12;13;14;15;16;17] [true;true;true;true;true;true;false;true]]).
(** A projected run that finds nothing although the sample lies in pixel 2. *)
Definition ex_s := mkSetup ex_cube true true (fun x y => Some (x, y)) (fun x y => (x, y)).
Definition ex_st := mkState [mkRow true 25 75 [7]] 1 [].
Example C38_ex_projected : run ex_s [ex_u] ex_st = Ret ex_st /\ pixel_of ex_k 2 25 75.
Proof. split; [reflexivity|]. exists 0, 2. cbn. lia. Qed.
Example C38_ex_of_cube : unit_ok ex_cube ex_u.
Proof. split; [repeat split; cbn; lia|]. split; [intros m [= <-]; reflexivity|]. constructor; [split; reflexivity|constructor]. Qed.
Example C38_ex_locate : locate ex_cube ex_k 25 75 = Ret (Some 2). Proof. reflexivity. Qed.
Example C38_ex_border : locate ex_cube ex_k 40 75 = Ret None /\
  locate ex_cube (mkChunk 1 0 0 1 4 2 40 100 10) 40 75 = Ret None. Proof. split; reflexivity. Qed.
(** A warper that flips the latitudes makes the bounding boxes non-empty: one sample is
    extracted, one masked, one dropped by the exclusion, one outside. *)
Definition ex_s2 := mkSetup ex_cube false true (fun x y => Some (x, - y)) (fun x y => (x, 60 - y)).
Definition ex_st2 := mkState [mkRow true 25 (-75) [7]; mkRow true 15 (-65) [8]; mkRow true 25 (-65) [9]; mkRow true 200 (-65) [1]] 4 [].
Example C38_ex_run : run ex_s2 [ex_u; ex_u] ex_st2 =
  Ret (mkState [mkRow false 25 (-75) [7]; mkRow true 15 (-65) [8]; mkRow false 25 (-65) [9]; mkRow true 200 (-65) [1]] 2
         [mkRec [12] [7] 25 (-75)]) /\ counted ex_st2 /\ Forall (unit_ok ex_cube) [ex_u; ex_u].
Proof. split; [reflexivity|]. split; [reflexivity|]. repeat constructor; apply C38_ex_of_cube. Qed.
Example C38_ex_warper : gently_bent (fun x y => (x, y)) (edge ex_k 2) (edge ex_k 4).
Proof. intros x1 x2 x3 x4. cbn. lia. Qed.
Example C38_ex_reachable : reachable ex_s2 ex_u (mkRow true 25 (-75) [7]).
Proof. split; [reflexivity|]. exists 2, 25, 75. split; [reflexivity|]. split; [exists 0, 2; cbn; lia|]. split; [exists 1; split; [reflexivity|lia]|]. cbn. lia. Qed.

Print Assumptions C38_projected_refuted.
Print Assumptions C38_geographic_refuted.
Print Assumptions C38_pixel_partial.
Print Assumptions C38_border_refuted.
Print Assumptions C38_run_partial.
