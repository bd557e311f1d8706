(** Proofs about datacube definition files. *)
From Verif Require Import Base BaseFacts CStr CStrFacts Loops LoopsFacts StringModel StringProofs Float DecModel DecSpec DecProofs CubeDefModel CubeDefSpec.
#[local] Open Scope Z_scope.

Lemma clean_word w : one_word w -> Forall (fun c => memz c (` " =") = false) w.
Proof.
  intros (_ & A & B & _). apply Forall_forall. intros x Hx. apply memz_false. intros [<-|[<-|[]]]; contradiction.
Qed.

Lemma strtok_eq_sign V v rest : one_word v -> V = v ++ rest -> (rest = [] \/ exists c r, rest = c :: r /\ (c = 32 \/ c = 61)) ->
  exists r', strtok (` " =") (61 :: 32 :: V) = Some (v, r').
Proof.
  intros W -> R. unfold strtok. change (skip_while (` " =") (61 :: 32 :: v ++ rest)) with (skip_while (` " =") (v ++ rest)).
  exists (tl rest). apply strtok_clean; [apply W|apply clean_word; auto|].
  destruct R as [->|(c & r & -> & Hc)]; auto. right. exists c, r. split; auto. destruct Hc as [-> | ->]; reflexivity.
Qed.

Lemma strtok_tag tag V : one_word tag -> strtok (` " =") (tag ++ ` " = " ++ V) = Some (tag, 61 :: 32 :: V).
Proof.
  intros W. change (tag ++ ` " = " ++ V) with (tag ++ 32 :: 61 :: 32 :: V).
  rewrite strtok_clean; [reflexivity|apply W|apply clean_word; auto|]. right. exists 32, (61 :: 32 :: V). auto.
Qed.

(** A written line: tag, value text and its first word. *)
Definition line_of (r : list Z * list Z * list Z) : list Z := let '(tag, V, _) := r in tag ++ ` " = " ++ V.
Definition row_of (r : list Z * list Z * list Z) : list Z * list Z := let '(tag, _, v) := r in (tag, v).
Definition good_line (r : list Z * list Z * list Z) : Prop :=
  let '(tag, V, v) := r in
  one_word tag /\ zlen tag < 1000 /\ one_line V /\ first_word V v /\ zlen V < 60000 /\ zlen v < 1024.

Lemma in_app {A} (x : A) l m : ~ In x l -> ~ In x m -> ~ In x (l ++ m).
Proof. intros A1 B H. apply in_app_or in H as [?|?]; auto. Qed.

Lemma tagvalue_lines : forall rs fuel acc, Forall good_line rs ->
  (length rs <= fuel)%nat ->
  tagvalue_loop fuel (flat_map (fun r => line_of r ++ [10]) rs) acc = Ret (Some (acc ++ map row_of rs)).
Proof.
  induction rs as [|[[tag V] v] rs IH]; intros fuel acc F L.
  - cbn [flat_map map]. rewrite app_nil_r. destruct fuel; reflexivity.
  - destruct fuel as [|fuel]; [cbn in L; lia|]. pose proof (Forall_inv F) as (Wt & Lt & OV & FW & LV & Lv).
    pose proof (Forall_inv_tail F) as Fr.
    cbn [flat_map line_of]. rewrite <- app_assoc. cbn [app].
    assert (N10: Forall (fun c => c <> 10) (tag ++ lit " = " ++ V)).
    { apply Forall_forall. intros x Hx ->. revert Hx. apply in_app; [apply Wt|]. apply in_app; [|apply OV].
      cbn. intros [?|[?|[?|[]]]]; discriminate. }
    assert (LL: zlen (tag ++ lit " = " ++ V) + 1 < 65536).
    { unfold zlen in *. rewrite !app_length. change (length (lit " = ")) with 3%nat. lia. }
    cbn [tagvalue_loop]. rewrite fgets_newline by auto.
    assert (take_until [13; 10] ((tag ++ lit " = " ++ V) ++ [10]) = tag ++ lit " = " ++ V) as ->.
    { apply take_until_app; [|reflexivity]. apply Forall_forall. intros x Hx. apply memz_false. intros [<-|[<-|[]]].
      - revert Hx. apply in_app; [apply Wt|]. apply in_app; [|apply OV]. cbn. intros [?|[?|[?|[]]]]; discriminate.
      - eapply Forall_forall in N10; eauto. }
    rewrite strtok_tag by auto. unfold copy_string at 1. destruct (Z.geb_spec (zlen tag) 1024); [lia|]. cbn [bind].
    destruct FW as (Wv & rest & EV & R). destruct (strtok_eq_sign V v rest Wv EV R) as [r' E]. rewrite E.
    unfold copy_string at 1. destruct (Z.geb_spec (zlen v) 1024); [lia|]. cbn [bind].
    rewrite IH by (auto; cbn in L; lia). cbn [map row_of]. rewrite <- app_assoc. reflexivity.
Qed.

Lemma num_line x : one_word (print_f x) /\ zlen (print_f x) < 500.
Proof.
  destruct (print_f_chars x) as (A & B & C & D). split; [|exact D].
  repeat split; auto; intros Q; eapply Forall_forall in A; try exact Q; lia.
Qed.

Lemma first_word_self w : one_word w -> first_word w w.
Proof. intros W. split; auto. exists []. rewrite app_nil_r. auto. Qed.

Definition rows7 (c : cdef) (v : list Z) : list (list Z * list Z * list Z) :=
  [(` "PROJECTION", cd_proj c, v);
   (` "ORIGIN_GEO_X", print_f (cd_geo_x c), print_f (cd_geo_x c));
   (` "ORIGIN_GEO_Y", print_f (cd_geo_y c), print_f (cd_geo_y c));
   (` "ORIGIN_MAP_X", print_f (cd_map_x c), print_f (cd_map_x c));
   (` "ORIGIN_MAP_Y", print_f (cd_map_y c), print_f (cd_map_y c));
   (` "TILE_SIZE_X", print_f (cd_size_x c), print_f (cd_size_x c));
   (` "TILE_SIZE_Y", print_f (cd_size_y c), print_f (cd_size_y c))].

Lemma def_text_lines c v : def_text c = flat_map (fun r => line_of r ++ [10]) (rows7 c v).
Proof.
  unfold def_text, rows7. cbn [flat_map line_of]. rewrite app_nil_r. repeat rewrite <- app_assoc. reflexivity.
Qed.

Ltac word_lit := split; [split; intros Q; repeat (destruct Q as [Q|Q]; [discriminate Q|]); destruct Q|];
  split; [intros Q; repeat (destruct Q as [Q|Q]; [discriminate Q|]); destruct Q|];
  split; [intros Q; repeat (destruct Q as [Q|Q]; [discriminate Q|]); destruct Q|discriminate].

Lemma num_row tag x : one_word tag -> zlen tag < 1000 -> good_line (tag, print_f x, print_f x).
Proof.
  intros W L. destruct (num_line x) as [Wx Lx]. split; [auto|]. split; [auto|]. split; [apply Wx|].
  split; [apply first_word_self; auto|]. lia.
Qed.

Lemma rows7_good c v : one_line (cd_proj c) -> zlen (cd_proj c) < 1024 -> first_word (cd_proj c) v -> Forall good_line (rows7 c v).
Proof.
  intros O L W. unfold rows7.
  repeat (apply Forall_cons; [try (apply num_row; [word_lit|reflexivity])|]); [|apply Forall_nil].
  split; [word_lit|]. split; [reflexivity|]. split; [auto|]. split; [auto|]. split; [lia|].
  destruct W as (_ & rest & E & _). rewrite E in L. unfold zlen in *. rewrite app_length in L. lia.
Qed.

Ltac eval_streq := repeat match goal with |- context [streq ?a ?b] => let v := eval vm_compute in (streq a b) in change (streq a b) with v end; cbv iota.

Lemma parse7 atof c v : zlen v < 1024 ->
  parse_rows atof (map row_of (rows7 c v)) init_datacube 0 =
  Ret (Some (mkCdef v (atof (print_f (cd_geo_x c))) (atof (print_f (cd_geo_y c))) (atof (print_f (cd_map_x c)))
                      (atof (print_f (cd_map_y c))) (atof (print_f (cd_size_x c))) (atof (print_f (cd_size_y c))))).
Proof.
  intros L. unfold rows7. cbn [map row_of parse_rows]. unfold with_row. eval_streq.
  unfold copy_string. destruct (Z.geb_spec (zlen v) 1024); [lia|]. cbn [bind]. reflexivity.
Qed.

Lemma read_written atof c v : one_line (cd_proj c) -> zlen (cd_proj c) < 1024 -> first_word (cd_proj c) v ->
  read_datacube_def atof (Some (def_text c)) =
  Ret (Some (mkCdef v (atof (print_f (cd_geo_x c))) (atof (print_f (cd_geo_y c))) (atof (print_f (cd_map_x c)))
                      (atof (print_f (cd_map_y c))) (atof (print_f (cd_size_x c))) (atof (print_f (cd_size_y c))))).
Proof.
  intros O L W. unfold read_datacube_def, read_tagvalue. rewrite (def_text_lines c v).
  assert (Lv: zlen v < 1024) by (destruct W as (_ & rest & E & _); rewrite E in L; unfold zlen in *; rewrite app_length in L; lia).
  rewrite tagvalue_lines.
  - cbn [bind app]. cbn [map rows7]. cbn [bind]. exact (parse7 atof c v Lv).
  - apply rows7_good; auto.
  - unfold rows7. cbn [flat_map line_of]. repeat rewrite app_length. cbn [length]. lia.
Qed.
