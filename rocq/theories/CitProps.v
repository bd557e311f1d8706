(** Citations (C166).  The statements use only positions of lists; the proofs are short. *)
From Verif Require Import Base CStr CitModel.

Definition bytes : list Z := map Z.of_nat (seq 0 256).
Lemma in_bytes c : 0 <= c < 256 -> In c bytes.
Proof. intros H. unfold bytes. apply in_map_iff. exists (Z.to_nat c). split; [lia | apply in_seq; lia]. Qed.
(** A turn keeps bytes and forgets nothing: its inverse is read from a table of all bytes. *)
Lemma turn_byte c b : 0 <= c < 256 -> 0 <= crc_turn c b < 256.
Proof.
  intros H. assert (E : forallb (fun c => forallb (fun b => (0 <=? crc_turn c b) && (crc_turn c b <? 256)) [true; false]) bytes = true) by (vm_compute; reflexivity).
  rewrite forallb_forall in E. specialize (E c (in_bytes c H)). rewrite forallb_forall in E. specialize (E b). assert (In b [true; false]) as I by (destruct b; cbn; auto). specialize (E I). lia.
Qed.
Lemma turn_inj_table : forallb (fun b => forallb (fun c => forallb (fun d => negb (crc_turn c b =? crc_turn d b) || (c =? d)) bytes) bytes) [true; false] = true.
Proof. vm_compute. reflexivity. Qed.
Lemma turn_inj b c d : 0 <= c < 256 -> 0 <= d < 256 -> crc_turn c b = crc_turn d b -> c = d.
Proof.
  intros Hc Hd E. pose proof turn_inj_table as T. rewrite forallb_forall in T. specialize (T b ltac:(destruct b; cbn; auto)). rewrite forallb_forall in T. specialize (T c (in_bytes c Hc)).
  rewrite forallb_forall in T. specialize (T d (in_bytes d Hd)). rewrite E, Z.eqb_refl in T. cbn in T. lia.
Qed.
Lemma turn_differs c : 0 <= c < 256 -> crc_turn c true <> crc_turn c false.
Proof.
  intros H. assert (E : forallb (fun c => negb (crc_turn c true =? crc_turn c false)) bytes = true) by (vm_compute; reflexivity).
  rewrite forallb_forall in E. specialize (E c (in_bytes c H)). lia.
Qed.
Lemma fold_byte l : forall c, 0 <= c < 256 -> 0 <= fold_left crc_turn l c < 256.
Proof. induction l as [|b l IH]; intros c H; cbn; auto. apply IH. now apply turn_byte. Qed.
Lemma fold_inj l : forall c d, 0 <= c < 256 -> 0 <= d < 256 -> fold_left crc_turn l c = fold_left crc_turn l d -> c = d.
Proof.
  induction l as [|b l IH]; intros c d Hc Hd E; cbn in *; auto. apply (turn_inj b); auto. apply IH; auto; now apply turn_byte.
Qed.
Lemma last_table : forallb (fun c => (0 <=? Z.lxor c 255) && (Z.lxor c 255 <? 256)) bytes = true.
Proof. vm_compute. reflexivity. Qed.
Lemma crc_byte l : 0 <= cite_crc8 l < 256.
Proof. pose proof last_table as T. rewrite forallb_forall in T. specialize (T _ (in_bytes _ (fold_byte l 255 ltac:(lia)))). unfold cite_crc8. lia. Qed.
Lemma lxor_inj a b c : Z.lxor a c = Z.lxor b c -> a = b.
Proof. intros E. apply (f_equal (fun x => Z.lxor x c)) in E. now rewrite !Z.lxor_assoc, !Z.lxor_nilpotent, !Z.lxor_0_r in E. Qed.
Definition same_text (a b : list Z) : bool := if list_eq_dec Z.eq_dec a b then true else false.
Lemma hex_table : forallb (fun c => forallb (fun d => negb (same_text (hex c) (hex d)) || (c =? d)) bytes) bytes = true.
Proof. vm_compute. reflexivity. Qed.
Lemma hex_inj c d : 0 <= c < 256 -> 0 <= d < 256 -> hex c = hex d -> c = d.
Proof.
  intros Hc Hd E. pose proof hex_table as T. rewrite forallb_forall in T. specialize (T c (in_bytes c Hc)). rewrite forallb_forall in T. specialize (T d (in_bytes d Hd)).
  rewrite E in T. unfold same_text in T. destruct (list_eq_dec Z.eq_dec (hex d) (hex d)); [cbn in T; lia | easy].
Qed.
Lemma name_crc a b : file_name a = file_name b -> cite_crc8 a = cite_crc8 b.
Proof.
  unfold file_name. intros E. apply app_inv_head in E. apply app_inv_tail in E. apply hex_inj; auto; apply crc_byte.
Qed.

(** ** C166 *)
(** Two runs that differ in one citation write different files. *)
Theorem C166_one_citation_partial : forall before after, file_name (before ++ true :: after) <> file_name (before ++ false :: after).
Proof.
  intros l1 l2 E. apply name_crc in E. unfold cite_crc8 in E. apply lxor_inj in E. rewrite !fold_left_app in E. cbn [fold_left] in E.
  pose proof (fold_byte l1 255 ltac:(lia)) as B. apply fold_inj in E; try now apply turn_byte. revert E. now apply turn_differs.
Qed.
Print Assumptions C166_one_citation_partial.
(** If there is no file of that name yet, the run writes one with exactly what it cites, in the order of the table, and touches no other. *)
Theorem C166_written_partial : forall {A} (table : list A) cited dir, length cited = length table -> dir (file_name cited) = None ->
  (exists entries, cite_push table cited dir (file_name cited) = Some entries /\ (forall a, In a entries <-> exists i, nth_error table i = Some a /\ nth_error cited i = Some true)) /\
  forall f, f <> file_name cited -> cite_push table cited dir f = dir f.
Proof.
  intros A table cited dir L N. unfold cite_push. rewrite N. split.
  - unfold same_name. destruct (list_eq_dec Z.eq_dec (file_name cited) (file_name cited)); [|easy]. eexists. split; [reflexivity|]. clear N. revert cited L e. induction table as [|t table IH]; intros [|b cited] L e a; try discriminate L.
    + cbn. split; [easy|]. intros ([|i] & H & _); discriminate.
    + specialize (IH cited ltac:(cbn in L; lia) eq_refl a). cbn [combine filter snd]. destruct b; cbn [map fst In]; rewrite IH; split.
      * intros [->|(i & H)]; [exists 0%nat; auto | exists (S i); auto].
      * intros ([|i] & H1 & H2); [left; cbn in H1; congruence | right; exists i; auto].
      * intros (i & H). exists (S i). auto.
      * intros ([|i] & H1 & H2); [discriminate | exists i; auto].
  - intros f Hf. unfold same_name. destruct (list_eq_dec Z.eq_dec f (file_name cited)); [easy | reflexivity].
Qed.
Print Assumptions C166_written_partial.
(** Files that exist are kept as they are. *)
Theorem C166_kept : forall {A} (table : list A) cited dir f l, dir f = Some l -> cite_push table cited dir f = Some l.
Proof.
  intros A table cited dir f l E. unfold cite_push. destruct (dir (file_name cited)) eqn:D; auto. unfold same_name. destruct (list_eq_dec Z.eq_dec f (file_name cited)); [congruence | auto].
Qed.
Print Assumptions C166_kept.
Lemma set_nth {A} (l : list A) : forall i v j, nth_error (list_set l i v) j = if (i =? j)%nat && (j <? length l)%nat then Some v else nth_error l j.
Proof.
  induction l as [|x l IH]; intros [|i] v [|j]; cbn [list_set nth_error length]; try reflexivity; cbn; auto.
  - now rewrite andb_false_r.
  - rewrite IH. reflexivity.
Qed.
(** cite_me marks the given entry and no other one; numbers outside of the table mark nothing. *)
Theorem C166_marks : forall i cited j, nth_error (cite_me i cited) j = if (i =? Z.of_nat j) && (j <? length cited)%nat then Some true else nth_error cited j.
Proof.
  intros i l j. unfold cite_me, zlen. destruct ((i <? 0) || (Z.of_nat (length l) <=? i)) eqn:E.
  - replace ((i =? Z.of_nat j) && (j <? length l)%nat) with false; auto. symmetry. apply andb_false_iff. destruct (i =? Z.of_nat j) eqn:Q; auto. right. apply Nat.ltb_ge. lia.
  - rewrite set_nth. replace (Z.to_nat i =? j)%nat with (i =? Z.of_nat j); auto. apply eq_true_iff_eq. rewrite Z.eqb_eq, Nat.eqb_eq. lia.
Qed.
Print Assumptions C166_marks.
Definition citing (l : list Z) : list bool := fold_right cite_me (repeat false 54) l.
Example C166_case : file_name (citing [0; 21]) = `"CITEME_0x32.txt" /\ file_name (citing [0; 20]) = `"CITEME_0x4d.txt".
Proof. split; vm_compute; reflexivity. Qed.
Example C166_written_case : cite_push [10; 11; 12] [true; false; true] (fun _ => None) (file_name [true; false; true]) = Some [10; 12].
Proof. vm_compute. reflexivity. Qed.
(** A run that uses NDVI and one that uses two red edge indices (NDVIre1, NDVIre2) have the same file: the citations of the second one are never written. *)
Theorem C166_collision_refuted : file_name (citing [0; 21]) = file_name (citing [0; 43; 44]) /\
  forall {A} (table : list A) dir, dir (file_name (citing [0; 21])) = None ->
  let after := cite_push table (citing [0; 21]) dir in forall f, cite_push table (citing [0; 43; 44]) after f = after f.
Proof.
  assert (E : file_name (citing [0; 21]) = file_name (citing [0; 43; 44])) by (vm_compute; reflexivity). split; auto. intros A table dir N after f.
  unfold cite_push at 1. rewrite <- E. assert (S1 : exists x, after (file_name (citing [0; 21])) = Some x).
  { unfold after, cite_push. rewrite N. unfold same_name. destruct (list_eq_dec Z.eq_dec (file_name (citing [0; 21])) (file_name (citing [0; 21]))); [eauto | easy]. }
  destruct S1 as (x & ->). reflexivity.
Qed.
Print Assumptions C166_collision_refuted.
