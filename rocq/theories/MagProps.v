(** Magic parameters (C167). *)
From Verif Require Import Base CStr MagModel MagSpec MagProofs.
From Coq Require Import Arith.

(** All combinations: a file for every choice of values, and as many files as there are choices.  Missing: vectors with less than two values. *)
Theorem C167_all_partial : forall vs body, vs <> [] -> NoDup (map fst vs) -> Forall (fun l => (2 <= length l)%nat) (map snd vs) -> exists files,
  magic false vs body = Ret files /\ length files = product (map (@length text) (map snd vs)) /\
  forall f, In f files <-> exists value, chosen vs value /\ f = filled value body.
Proof.
  intros vs body Ne N F. unfold magic. replace (length vs <? 1)%nat with false by (symmetry; apply Nat.ltb_ge; destruct vs; [easy | cbn; lia]).
  eexists. split; [reflexivity|]. split; [rewrite map_length; now apply expand_length|]. intros f. rewrite in_map_iff. split.
  - intros (c & <- & I). apply expand_spec in I; auto. exists (value_of (map fst vs) c). split; [now apply chosen_values | apply written_replace].
  - intros (value & C & ->). destruct (values_chosen vs value C N) as (c & Fc & V). exists c. split; [|now apply expand_spec]. rewrite written_replace. now apply filled_ext.
Qed.
Print Assumptions C167_all_partial.
(** Pairs: the i-th file has the i-th value of each vector; vectors of different lengths are refused.  Missing: vectors without values. *)
Theorem C167_paired_partial : forall k v vs body, NoDup (map fst ((k, v) :: vs)) -> Forall (fun l => (0 < length l)%nat) (v :: map snd vs) ->
  (Forall (fun l => length l = length v) (map snd vs) -> exists files, magic true ((k, v) :: vs) body = Ret files /\ length files = length v /\
     forall i f, nth_error files i = Some f -> exists value, ith i ((k, v) :: vs) value /\ f = filled value body) /\
  (~ Forall (fun l => length l = length v) (map snd vs) -> magic true ((k, v) :: vs) body = Exit).
Proof.
  intros k v vs body N F. inversion F; subst. unfold magic. cbn [length Nat.ltb Nat.leb]. cbn [map snd lengths_ok Nat.ltb Nat.leb andb negb]. split; intros H.
  - rewrite (proj2 (lengths_same (length v) (map snd vs) H1 H2) H). destruct (pair_up_spec v (map snd vs) (length v)) as (L & R); [constructor; auto|].
    eexists. split; [reflexivity|]. split; [now rewrite map_length|]. intros i f E. rewrite nth_error_map in E. destruct (nth_error (pair_up (v :: map snd vs)) i) as [c|] eqn:Ec; [|discriminate]. injection E as <-.
    exists (value_of (map fst ((k, v) :: vs)) c). split; [apply row_ith; auto; now apply R | exact (written_replace (k :: map fst vs) c body)].
  - destruct (lengths_ok (length v) (map snd vs)) eqn:E; auto. destruct H. now apply lengths_same.
Qed.
Print Assumptions C167_paired_partial.
(** Without vectors there are no files. *)
Theorem C167_none : forall paired body, magic paired [] body = Exit.
Proof. reflexivity. Qed.
Print Assumptions C167_none.
Definition template : list piece := [Lit (`"A="); Hole (`"x"); Lit (`" B="); Hole (`"y")].
Example C167_case : magic false [(`"x", [`"1"; `"2"]); (`"y", [`"3"; `"4"])] template = Ret [`"A=1 B=3"; `"A=1 B=4"; `"A=2 B=3"; `"A=2 B=4"]
  /\ magic true [(`"x", [`"1"; `"2"]); (`"y", [`"3"; `"4"])] template = Ret [`"A=1 B=3"; `"A=2 B=4"].
Proof. split; vm_compute; reflexivity. Qed.
(** All combinations with a vector of one value: the braces are part of the parameter. *)
Theorem C167_single_refuted : magic false [(`"x", [`"1"; `"2"]); (`"y", [`"3"])] template = Ret [`"A=1 B={3}"; `"A=2 B={3}"].
Proof. vm_compute. reflexivity. Qed.
(** Pairs with a vector without values: the values of the next vector are put into its place. *)
Theorem C167_shift_refuted : magic true [(`"x", []); (`"y", [`"3"; `"4"])] template = Ret [`"A=3 B="; `"A=4 B="].
Proof. vm_compute. reflexivity. Qed.
