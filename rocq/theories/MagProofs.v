(** Proofs about magic parameters. *)
From Verif Require Import Base CStr MagModel MagSpec.
From Coq Require Import Arith.

Lemma key_eqb_spec a b : key_eqb a b = true <-> a = b.
Proof. unfold key_eqb. destruct (list_eq_dec Z.eq_dec a b); split; congruence. Qed.
(** The value of a key after the replacements: that of its first place. *)
Fixpoint value_of (keys : list text) (v : list text) (k : text) : option text :=
  match keys with [] => None | q :: t => if key_eqb k q then Some (hd [] v) else value_of t (tl v) k end.
Lemma written_replace keys : forall v body, written (replace keys v body) = filled (value_of keys v) body.
Proof.
  induction keys as [|q keys IH]; intros v body; cbn [replace].
  - unfold written, filled. rewrite flat_map_concat_map. reflexivity.
  - rewrite IH. unfold filled, put. rewrite map_map. f_equal. apply map_ext. intros [t|k]; auto. cbn [value_of]. destruct (key_eqb k q); reflexivity.
Qed.
Lemma filled_ext a b body : (forall k, a k = b k) -> filled a body = filled b body.
Proof. intros H. unfold filled. f_equal. apply map_ext. intros [t|k]; auto. now rewrite H. Qed.
Lemma value_other keys : forall v k, ~ In k keys -> value_of keys v k = None.
Proof.
  induction keys as [|q keys IH]; intros v k N; cbn; auto. destruct (key_eqb k q) eqn:E; [apply key_eqb_spec in E; subst; destruct N; now left|]. apply IH. intros I. apply N. now right.
Qed.
Lemma braces_many l : (2 <= length l)%nat -> braces l = l.
Proof. destruct l as [|a [|b l]]; cbn; [lia | lia | reflexivity]. Qed.
Lemma expand_spec vs : Forall (fun l => (2 <= length l)%nat) vs -> forall c, In c (expand vs) <-> Forall2 (fun l x => In x l) vs c.
Proof.
  induction 1 as [|l vs L F IH]; intros c; cbn [expand].
  - split; [intros [<-|[]]; constructor | intros H; inversion H; now left].
  - rewrite braces_many by auto. rewrite in_flat_map. split.
    + intros (x & Ix & Ic). apply in_map_iff in Ic as (c' & <- & Ic). constructor; auto. now apply IH.
    + intros H. inversion H; subst. exists y. split; auto. apply in_map. now apply IH.
Qed.
Lemma expand_length vs : Forall (fun l => (2 <= length l)%nat) vs -> length (expand vs) = product (map (@length text) vs).
Proof.
  induction 1 as [|l vs L F IH]; [reflexivity|]. cbn [expand map]. change (product (length l :: map (@length text) vs)) with (length l * product (map (@length text) vs))%nat. rewrite braces_many by auto. rewrite <- IH. clear. induction l as [|x l IHl]; cbn; auto. rewrite app_length, map_length, IHl. lia.
Qed.
(** Choices by position and choices by key. *)
Lemma chosen_values (vs : vectors) : NoDup (map fst vs) -> forall c, Forall2 (fun l x => In x l) (map snd vs) c -> chosen vs (value_of (map fst vs) c).
Proof.
  intros N c F. split; [|intros; now apply value_other]. revert N c F. induction vs as [|(q, l) vs IH]; intros N c F k l' I; [easy|]. cbn in *. inversion N; inversion F; subst. cbn.
  destruct I as [E|I].
  - injection E as -> ->. exists y. split; auto. replace (key_eqb k k) with true; auto. symmetry. now apply key_eqb_spec.
  - destruct (key_eqb k q) eqn:E; [apply key_eqb_spec in E; subst; destruct H1; apply in_map_iff; exists (q, l'); auto|]. now apply IH.
Qed.
Lemma values_chosen (vs : vectors) value : chosen vs value -> NoDup (map fst vs) -> exists c, Forall2 (fun l x => In x l) (map snd vs) c /\ forall k, value_of (map fst vs) c k = value k.
Proof.
  intros (A & B) N. assert (H : exists c, Forall2 (fun l x => In x l) (map snd vs) c /\ forall k, In k (map fst vs) -> value_of (map fst vs) c k = value k).
  { clear B. induction vs as [|(q, l) vs IH]; [exists []; split; [constructor | easy]|]. inversion N; subst. destruct (A q l (or_introl eq_refl)) as (v & Iv & Ev).
    destruct IH as (c & F & V); auto; [intros k l' I; apply A; now right|]. exists (v :: c). split; [constructor; auto|]. intros k I. cbn. destruct (key_eqb k q) eqn:E.
    - apply key_eqb_spec in E. subst k. now rewrite Ev.
    - apply V. destruct I as [I|I]; auto. cbn in I. subst. assert (key_eqb k k = true) by now apply key_eqb_spec. congruence. }
  destruct H as (c & F & V). exists c. split; auto. intros k. destruct (in_dec (list_eq_dec Z.eq_dec) k (map fst vs)) as [I|I]; auto. rewrite B by auto. now apply value_other.
Qed.

(** ** Pairs *)
Lemma append_all_nth v : forall cs i, length cs = length v -> nth_error (append_all cs v) i = match nth_error cs i, nth_error v i with Some c, Some x => Some (c ++ [x]) | _, _ => None end.
Proof. induction v as [|x v IH]; intros [|c cs] [|i] L; try discriminate; cbn in *; auto. Qed.
Lemma append_all_length v : forall cs, length cs = length v -> length (append_all cs v) = length v.
Proof. induction v as [|x v IH]; intros [|c cs] L; try discriminate; cbn in *; auto. Qed.
Lemma append_nil v : append_all [] v = map (fun x => [x]) v.
Proof. induction v as [|x v IH]; cbn; [reflexivity | now rewrite IH]. Qed.
Definition row (i : nat) (vs : list (list text)) (c : list text) : Prop := Forall2 (fun l x => nth_error l i = Some x) vs c.
Lemma pair_go vs : forall n done cs, Forall (fun l => length l = n) vs -> length cs = n -> (forall i c, nth_error cs i = Some c -> row i done c) ->
  length (fold_left append_all vs cs) = n /\ forall i c, nth_error (fold_left append_all vs cs) i = Some c -> row i (done ++ vs) c.
Proof.
  induction vs as [|v vs IH]; intros n done cs F L R; cbn [fold_left].
  - rewrite app_nil_r. auto.
  - inversion F; subst. replace (done ++ v :: vs) with ((done ++ [v]) ++ vs) by now rewrite <- app_assoc. apply IH; auto; [now rewrite append_all_length|].
    intros i c E. rewrite append_all_nth in E by auto. destruct (nth_error cs i) as [c'|] eqn:Ec; [|discriminate]. destruct (nth_error v i) as [x|] eqn:Ev; [|discriminate]. injection E as <-.
    apply Forall2_app; [now apply R | constructor; auto].
Qed.
Lemma pair_up_spec v vs n : Forall (fun l => length l = n) (v :: vs) -> length (pair_up (v :: vs)) = n /\ forall i c, nth_error (pair_up (v :: vs)) i = Some c -> row i (v :: vs) c.
Proof.
  intros F. inversion F; subst. unfold pair_up. cbn [fold_left]. rewrite append_nil. apply (pair_go vs (length v) [v]); auto; [now rewrite map_length|].
  intros i c E. rewrite nth_error_map in E. destruct (nth_error v i) eqn:Ev; [|discriminate]. injection E as <-. constructor; auto.
Qed.
Lemma row_ith (vs : vectors) i : NoDup (map fst vs) -> forall c, row i (map snd vs) c -> ith i vs (value_of (map fst vs) c).
Proof.
  intros N c F. split; [|intros; now apply value_other]. revert N c F. induction vs as [|(q, l) vs IH]; intros N c F k l' I; [easy|]. cbn in *. inversion N; inversion F; subst. cbn.
  destruct I as [E|I].
  - injection E as -> ->. exists y. split; auto. replace (key_eqb k k) with true; auto. symmetry. now apply key_eqb_spec.
  - destruct (key_eqb k q) eqn:E; [apply key_eqb_spec in E; subst; destruct H1; apply in_map_iff; exists (q, l'); auto|]. now apply IH.
Qed.
Lemma lengths_same n vs : (0 < n)%nat -> Forall (fun l => (0 < length l)%nat) vs -> (lengths_ok n vs = true <-> Forall (fun l => length l = n) vs).
Proof.
  intros P F. revert n P. induction F as [|v vs L F IH]; intros n P; cbn [lengths_ok]; [split; auto|]. replace (0 <? n)%nat with true by (symmetry; apply Nat.ltb_lt; lia). cbn [andb].
  rewrite negb_involutive, andb_true_iff, Nat.eqb_eq, IH by auto. split.
  - intros (-> & H). constructor; auto.
  - intros H. inversion H; subst. auto.
Qed.
