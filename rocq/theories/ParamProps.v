(** C23 and C24: parameter files. *)
From Coq Require Import Reals.
From Flocq Require Import Core IEEE754.BinarySingleNaN.
From Verif Require Import Base BaseFacts CStr Loops DateModel Float ParamModel ParamSpec ParamProofs.

(** C24: one line acts on every registered parameter as line_effect says: the
    first definition of a tag sets the parameter to exactly its words, nothing
    else changes.  Missing: dates shorter than YYYY-MM-DD (refuted below). *)
Theorem C24_line_partial : forall atof32 atof64 ps line,
  zlen line < 65536 -> cstring line -> NoDup (map p_name ps) -> full_dates ps line ->
  parse_parameter atof32 atof64 ps line = omap (line_effect atof32 atof64 (words line)) ps.
Proof. exact (fun a b => parse_parameter_spec a b (fun _ => true)). Qed.

(** A whole sequence of lines: the first valid line wins. *)
Theorem C24_first_definition_partial : forall atof32 atof64 lines ps ps', NoDup (map p_name ps) ->
  Forall (line_fine (map p_name ps) (map p_type ps)) lines ->
  parse_lines atof32 atof64 ps lines = Ret ps' ->
  length ps' = length ps /\
  forall i p, nth_error ps i = Some p -> exists p', nth_error ps' i = Some p' /\
    (p_set p = true -> p' = p) /\ (p_set p = false -> final_par atof32 atof64 lines p p').
Proof. exact (fun a b => parse_lines_nth a b (fun _ => true)). Qed.

(** No memory error, whatever the number of words: the only failures are integers
    outside int and character values of 1024 bytes and more. *)
Theorem C24_total_partial : forall atof32 atof64 lines ps, NoDup (map p_name ps) ->
  Forall (line_fine (map p_name ps) (map p_type ps)) lines ->
  (forall p ws, In p ps -> p_set p = false -> definition_of (p_name p) lines = Some ws ->
     exists xs, omap (denote atof32 atof64 (p_type p)) (used_words p ws) = Ret xs) ->
  exists ps', parse_lines atof32 atof64 ps lines = Ret ps'.
Proof. exact (fun a b => parse_lines_total a b (fun _ => true)). Qed.

(** Reading the file gives these lines if each has at most 65534 characters. *)
Theorem C24_file_lines : forall atof32 atof64 lines fuel ps,
  Forall (fun l => Forall (fun c => c <> 10) l /\ zlen l + 1 < 65536) lines ->
  (length lines < fuel)%nat ->
  parse_file atof32 atof64 fuel ps (concat (map (fun l => l ++ [10]) lines)) =
  parse_lines atof32 atof64 ps (map (fun l => l ++ [10]) lines).
Proof. exact (fun a b => parse_file_lines a b (fun _ => true)). Qed.

(** A date given as a year only takes month and day from the comment. *)
Definition date_par : par := mkPar (` "D") (PDate init_date init_date) None false [].
Theorem C24_short_date_refuted : exists l1 l2, words l1 = words l2 /\ forall atof32 atof64,
  (exists p1 p2, parse_parameter atof32 atof64 [date_par] l1 = Ret [p1] /\
   parse_parameter atof32 atof64 [date_par] l2 = Ret [p2] /\
   p_val p1 = [VDate (set_date init_date 2010 12 31)] /\
   p_val p2 = [VDate (set_date init_date 2010 1 2)]).
Proof.
  exists (` "D = 2010#12-31"), (` "D = 2010#01-02"). split; [vm_compute; reflexivity|]. intros a b.
  eexists _, _. split; [vm_compute; reflexivity|]. split; [vm_compute; reflexivity|].
  split; vm_compute; reflexivity.
Qed.

Example C24_example : forall atof32 atof64,
  let ps := [mkPar (` "YEARS") (PInt 1900 2100) (Some 0) false [];
             mkPar (` "NAME") (PChar BaseName) None false [];
             mkPar (` "DAY") (PDate (set_date init_date 1900 1 1) (set_date init_date 2100 1 1)) None false []] in
  let lines := [` "# a comment"; ` "YEARS ="; ` "YEARS = 2001 2003  2002 # three"; ` "YEARS = 1";
                ` "DAY=2004-02-28"; ` "NAME = a.txt b.txt"] in
  NoDup (map p_name ps) /\ Forall (line_fine (map p_name ps) (map p_type ps)) lines /\
  exists ps', parse_lines atof32 atof64 ps lines = Ret ps' /\
    map p_val ps' = [[VInt 2001; VInt 2003; VInt 2002]; [VChar (` "a.txt")]; [VDate (set_date init_date 2004 2 28)]] /\
    check_parameter (fun _ => false) ps' = SUCCESS.
Proof.
  intros a b ps lines. split; [|split].
  - repeat constructor; cbn; intuition discriminate.
  - apply Forall_forall. intros l L. unfold line_fine.
    repeat (destruct L as [<-|L]; [split; [vm_compute; reflexivity|]; split; [unfold cstring; cbn [lit String.list_ascii_of_string map]; repeat (apply Forall_cons; [vm_compute; split; discriminate|]); apply Forall_nil|];
      intros n ty w I W D E; destruct I as [I|[I|[I|[]]]]; injection I as <- <-;
      try (destruct D as (? & ? & ?); discriminate); vm_compute in E; try discriminate E;
      vm_compute in W; destruct W as [<-|[]]; cbn; lia|]).
    destruct L.
  - eexists. split; [vm_compute; reflexivity|]. split; vm_compute; reflexivity.
Qed.

(** C23: parsing and checking succeed exactly for the files that define every
    parameter with the right number of words, all of which satisfy the
    registration.  Missing: floating-point values that are not a number. *)
Theorem C23_accept_iff_partial : forall atof32 atof64 fileexist lines ps ps', NoDup (map p_name ps) ->
  Forall (line_fine (map p_name ps) (map p_type ps)) lines ->
  (forall p, In p ps -> p_set p = false /\ type_ok (p_type p) /\
    forall ws, definition_of (p_name p) lines = Some ws ->
      Forall (not_nan atof32 atof64 (p_type p)) (used_words p ws)) ->
  parse_lines atof32 atof64 ps lines = Ret ps' ->
  (check_parameter fileexist ps' = SUCCESS <->
   forall p, In p ps -> par_ok atof32 atof64 fileexist lines p).
Proof. exact check_success. Qed.

(** "nan" passes every range check (atof("nan") is a NaN by the C standard). *)
Theorem C23_nan_refuted : forall atof32 atof64 fileexist lo hi,
  atof64 (` "nan") = B754_nan ->
  let p := mkPar (` "X") (PDouble lo hi) None false [] in
  exists ps', parse_lines atof32 atof64 [p] [` "X = nan"] = Ret ps' /\
    check_parameter fileexist ps' = SUCCESS /\ ~ par_ok atof32 atof64 fileexist [` "X = nan"] p.
Proof.
  intros atof32 atof64 fe lo hi N p. eexists. split; [|split].
  - vm_compute; reflexivity.
  - unfold check_parameter. cbn [existsb]. unfold bad_par. cbn [p_set set_val p_vec p_val p_type existsb negb bad_value p].
    change [110; 97; 110] with (` "nan"). rewrite N. unfold flt. destruct lo, hi; reflexivity.
  - intros (ws & D & _ & F). vm_compute in D. inversion D; subst ws. inversion F as [|? ? W _]; subst.
    cbn [word_ok p_type p] in W. change [110; 97; 110] with (` "nan") in W. rewrite N in W.
    destruct W as [W _]. discriminate.
Qed.

(** Text that is no number is accepted as 0, a day that does not exist as day 0
    of the year. *)
Theorem C23_garbage_refuted : forall atof32 atof64 fileexist,
  (exists ps', parse_lines atof32 atof64 [mkPar (` "N") (PInt (-5) 5) None false []] [` "N = abc"] = Ret ps' /\
     check_parameter fileexist ps' = SUCCESS /\ map p_val ps' = [[VInt 0]]) /\
  (exists ps', parse_lines atof32 atof64
      [mkPar (` "D") (PDate (set_date init_date 1900 1 1) (set_date init_date 2100 1 1)) None false []]
      [` "D = 2010-99-99"] = Ret ps' /\
     check_parameter fileexist ps' = SUCCESS /\ map p_val ps' = [[VDate (set_date init_date 2010 99 99)]]).
Proof.
  intros a b f. split; eexists; (split; [vm_compute; reflexivity|split; vm_compute; reflexivity]).
Qed.

(** An enumeration with the constant INT_MAX accepts every word. *)
Theorem C23_int_max_refuted : forall atof32 atof64 fileexist,
  exists ps', parse_lines atof32 atof64 [mkPar (` "E") (PEnum [(` "A", 2147483647)]) None false []] [` "E = B"] = Ret ps' /\
     check_parameter fileexist ps' = SUCCESS.
Proof. intros a b f. eexists. split; vm_compute; reflexivity. Qed.

Definition half : f64 := @B754_finite 53 1024 false 4503599627370496 (-53) eq_refl.
Definition one : f64 := @B754_finite 53 1024 false 4503599627370496 (-52) eq_refl.
Definition seven : f64 := @B754_finite 53 1024 false 7881299347898368 (-50) eq_refl.
Example C23_example : forall atof32 fileexist,
  let atof64 := fun w => if list_eq_dec Z.eq_dec w (` "0.5") then half else seven in
  let ps := [mkPar (` "E") (PEnum [(` "RED", 0); (` "BLUE", 1)]) (Some 2) false [];
             mkPar (` "X") (PDouble (B754_zero false) one) None false []] in
  (forall p, In p ps -> p_set p = false /\ type_ok (p_type p)) /\
  (forall w, not_nan atof32 atof64 (PDouble (B754_zero false) one) w) /\
  (exists ps', parse_lines atof32 atof64 ps [` "E = BLUE RED"; ` "X = 0.5"] = Ret ps' /\ check_parameter fileexist ps' = SUCCESS) /\
  (exists ps', parse_lines atof32 atof64 ps [` "E = BLUE"; ` "X = 0.5"] = Ret ps' /\ check_parameter fileexist ps' = FAILURE) /\
  (exists ps', parse_lines atof32 atof64 ps [` "E = BLUE GREEN"; ` "X = 0.5"] = Ret ps' /\ check_parameter fileexist ps' = FAILURE) /\
  (exists ps', parse_lines atof32 atof64 ps [` "E = BLUE RED"; ` "X = 7"] = Ret ps' /\ check_parameter fileexist ps' = FAILURE) /\
  (exists ps', parse_lines atof32 atof64 ps [` "E = BLUE RED"] = Ret ps' /\ check_parameter fileexist ps' = FAILURE).
Proof.
  intros a f at64 ps. split; [|split].
  - intros p [<-|[<-|[]]]; split; try reflexivity; cbn; [intuition discriminate|split; reflexivity].
  - intros w. unfold not_nan, at64. destruct (list_eq_dec Z.eq_dec w (` "0.5")); vm_compute; reflexivity.
  - split; [|split; [|split; [|split]]]; eexists; (split; [vm_compute; reflexivity|vm_compute; reflexivity]).
Qed.

Print Assumptions C24_line_partial.
Print Assumptions C24_first_definition_partial.
Print Assumptions C24_total_partial.
Print Assumptions C24_file_lines.
Print Assumptions C24_short_date_refuted.
Print Assumptions C23_accept_iff_partial.
Print Assumptions C23_nan_refuted.
Print Assumptions C23_garbage_refuted.
Print Assumptions C23_int_max_refuted.

(** C69: a parameter file as text.  [lines] are the lines without their newlines. *)
Lemma split_newline l : forall w, split w (l ++ [10]) = split w l.
Proof.
  induction l as [|c l IH]; intros w; cbn [split app]; [reflexivity|].
  rewrite !IH. reflexivity.
Qed.
Lemma definition_newlines name lines : definition_of name (map (fun l => l ++ [10]) lines) = definition_of name lines.
Proof.
  induction lines as [|l r IH]; cbn [map definition_of]; [reflexivity|]. unfold words at 1. rewrite split_newline.
  fold (words l). rewrite IH. reflexivity.
Qed.
Lemma fine_newline names types l : zlen l + 1 < 65536 -> line_fine names types l -> line_fine names types (l ++ [10]).
Proof.
  intros L (A & B & C). split; [unfold zlen in *; rewrite app_length; cbn [length]; lia|]. split.
  - unfold cstring in *. apply Forall_app. split; [exact B|]. repeat constructor; lia.
  - intros n ty w. unfold words at 1 2. rewrite split_newline. apply C.
Qed.

Theorem C69_file_accepted_iff : forall atof32 atof64 fileexist lines fuel ps ps', NoDup (map p_name ps) ->
  Forall (fun l => Forall (fun c => c <> 10) l /\ zlen l + 1 < 65536 /\ line_fine (map p_name ps) (map p_type ps) l) lines ->
  (length lines < fuel)%nat ->
  (forall p, In p ps -> p_set p = false /\ type_ok (p_type p) /\
    forall ws, definition_of (p_name p) lines = Some ws ->
      Forall (not_nan atof32 atof64 (p_type p)) (used_words p ws)) ->
  parse_file atof32 atof64 fuel ps (concat (map (fun l => l ++ [10]) lines)) = Ret ps' ->
  (check_parameter fileexist ps' = SUCCESS <-> forall p, In p ps -> par_ok atof32 atof64 fileexist lines p) /\
  length ps' = length ps /\
  forall i p, nth_error ps i = Some p -> exists p', nth_error ps' i = Some p' /\ final_par atof32 atof64 lines p p'.
Proof.
  intros a32 a64 fe lines fuel ps ps' N F K T P.
  rewrite C24_file_lines in P; [|eapply Forall_impl; [|exact F]; cbn; tauto|exact K].
  assert (Forall (line_fine (map p_name ps) (map p_type ps)) (map (fun l => l ++ [10]) lines)) as F'.
  { apply Forall_map. eapply Forall_impl; [|exact F]. cbn. intros l (_ & A & B). apply fine_newline; assumption. }
  assert (forall p, par_ok a32 a64 fe (map (fun l => l ++ [10]) lines) p <-> par_ok a32 a64 fe lines p) as PO.
  { intros p. unfold par_ok. rewrite definition_newlines. reflexivity. }
  split; [|split].
  - rewrite (C23_accept_iff_partial a32 a64 fe _ ps ps' N F'); [|intros p I; rewrite definition_newlines; apply T, I|exact P].
    split; intros H p I; apply PO, H, I.
  - apply (C24_first_definition_partial a32 a64 _ ps ps' N F' P).
  - intros i p E. destruct (C24_first_definition_partial a32 a64 _ ps ps' N F' P) as (_ & H).
    destruct (H i p E) as (p' & G & _ & U). exists p'. split; [exact G|].
    specialize (U (proj1 (T p (nth_error_In _ _ E)))). unfold final_par in *. rewrite definition_newlines in U. exact U.
Qed.

Example C69_example : forall atof32 atof64 fileexist,
  let ps := [mkPar (` "YEARS") (PInt 1900 2100) (Some 0) false []; mkPar (` "NAME") (PChar BaseName) None false []] in
  let text := ` "YEARS = 2001 2003 # two" ++ [10] ++ ` "NAME = a.txt" ++ [10] in
  exists ps', parse_file atof32 atof64 9 ps text = Ret ps' /\ check_parameter fileexist ps' = SUCCESS /\
    text = concat (map (fun l => l ++ [10]) [` "YEARS = 2001 2003 # two"; ` "NAME = a.txt"]).
Proof. intros a b f ps text. eexists. split; [vm_compute; reflexivity|]. split; vm_compute; reflexivity. Qed.
Print Assumptions C69_file_accepted_iff.
