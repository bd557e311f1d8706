(** Size of a datacube (C169). *)
From Coq Require Import QArith Qround Lqa.
From Verif Require Import Base CStr DcsModel.
Open Scope Z_scope.

(** All bytes, and for how many sensors a file is counted. *)
Definition bytes_of (files : listing) : Z := fold_right Z.add 0 (map snd files).
Definition times (sensors : list (list Z)) (name : list Z) : Z := Z.of_nat (length (filter (fun s => has s name) sensors)).
Lemma sensor_go s files : forall a, fold_left (fun a f => if has s (fst f) then a + snd f else a) files a = a + fold_right Z.add 0 (map (fun f => if has s (fst f) then snd f else 0) files).
Proof. induction files as [|f files IH]; intros a; cbn [fold_left map fold_right]; [lia|]. rewrite IH. destruct (has s (fst f)); lia. Qed.
Lemma sensor_sum s files : sensor_size s files = fold_right Z.add 0 (map (fun f => if has s (fst f) then snd f else 0) files).
Proof. unfold sensor_size. rewrite sensor_go. lia. Qed.
Lemma sensor_pos s files : Forall (fun f => 0 <= snd f) files -> 0 <= sensor_size s files.
Proof. intros F. rewrite sensor_sum. induction F as [|f files H F IH]; cbn [map fold_right]; [lia|]. destruct (has s (fst f)); lia. Qed.
Lemma all_go files : Forall (fun f => 0 <= snd f) files -> forall sensors a,
  fold_left (fun a s => let z := sensor_size s files in if 0 <? z then a + z else a) sensors a = a + fold_right Z.add 0 (map (fun s => sensor_size s files) sensors).
Proof.
  intros F. induction sensors as [|s sensors IH]; intros a; cbn [fold_left map fold_right]; [lia|]. rewrite IH. cbv zeta. pose proof (sensor_pos s files F). destruct (0 <? sensor_size s files) eqn:E; lia.
Qed.
(** ** C169 *)
(** The total counts every file once for each sensor whose name is in its line. *)
Theorem C169_total : forall sensors files, Forall (fun f => 0 <= snd f) files -> all_size sensors files = fold_right Z.add 0 (map (fun f => snd f * times sensors (fst f)) files).
Proof.
  intros sensors files F. unfold all_size. rewrite all_go by auto. cbn [Z.add]. clear F. induction sensors as [|s sensors IH]; cbn [map fold_right].
  - unfold times. cbn. induction files as [|f files IH]; cbn [map fold_right]; lia.
  - rewrite IH, sensor_sum. clear IH. unfold times. cbn [filter]. induction files as [|f files IH]; cbn [map fold_right]; [lia|]. destruct (has s (fst f)); cbn [length]; rewrite ?Nat2Z.inj_succ; lia.
Qed.
Print Assumptions C169_total.
(** If each line has the name of exactly one sensor, these are all bytes. *)
Theorem C169_all_bytes_partial : forall sensors files, Forall (fun f => 0 <= snd f /\ times sensors (fst f) = 1) files -> all_size sensors files = bytes_of files.
Proof.
  intros sensors files F. rewrite C169_total by (eapply Forall_impl; [|exact F]; cbn; tauto). unfold bytes_of. induction F as [|f files (H & E) F IH]; cbn [map fold_right]; auto. rewrite IH, E. lia.
Qed.
Print Assumptions C169_all_bytes_partial.
(** The number that is shown times its unit is the size; it is small enough, or the unit is the largest one. *)
Theorem C169_unit : forall size, let r := pretty_size size in (fst r * inject_Z (1024 ^ snd r) == size)%Q /\ 0 <= snd r <= 5 /\ (snd r < 5 -> Qfloor (fst r) <= 1024).
Proof.
  intros size. unfold pretty_size.
  assert (H : forall n, (n <= 5)%nat -> let r := Nat.iter n smaller (size, 0) in (fst r * inject_Z (1024 ^ snd r) == size)%Q /\ 0 <= snd r <= Z.of_nat n /\ (snd r < Z.of_nat n -> Qfloor (fst r) <= 1024)).
  { induction n as [|n IH]; intros L; cbv zeta.
    - cbn [Nat.iter fst snd nat_rect]. split; [change (1024 ^ 0) with 1; unfold inject_Z; ring|]. lia.
    - destruct (IH ltac:(lia)) as (E & B & S). cbn [Nat.iter nat_rect]. change (nat_rect (fun _ => (Q * Z)%type) (size, 0) (fun _ => smaller) n) with (Nat.iter n smaller (size, 0)) in *. set (r := Nat.iter n smaller (size, 0)) in *.
      unfold smaller. destruct (1024 <? Qfloor (fst r)) eqn:Q1; cbn [fst snd].
      + split; [|split; [lia|]].
        * rewrite Z.pow_add_r by lia. change (1024 ^ 1) with 1024. rewrite inject_Z_mult, <- E. change (inject_Z 1024) with (1024 # 1)%Q. field.
        * intros H. assert (snd r < Z.of_nat n) by lia. specialize (S H0). lia.
      + split; auto. split; [lia|]. intros _. lia. }
  exact (H 5%nat ltac:(lia)).
Qed.
Print Assumptions C169_unit.
Definition ls (t : list Z) : list Z := `"20200101_LEVEL2_" ++ t ++ `"_BOA.tif".
Example C169_case : times SENSORS (ls (`"SEN2A")) = 1 /\ all_size SENSORS [(ls (`"SEN2A"), 700); (ls (`"LND08"), 50)] = 750 /\ pretty_size 3000 = ((3000 / 1024)%Q, 1).
Proof. repeat split; vm_compute; reflexivity. Qed.
(** Time series of all Landsat sensors (LNDLG) are not counted; a file with the names of two sensors is counted twice. *)
Theorem C169_uncounted_refuted : all_size SENSORS [(`"2018-2018_001-365_HL_TSA_LNDLG_NDV_STM.tif", 700)] = 0.
Proof. vm_compute. reflexivity. Qed.
Theorem C169_twice_refuted : all_size SENSORS [(`"20200101_LEVEL2_MOD01_MODIS.tif", 700)] = 1400.
Proof. vm_compute. reflexivity. Qed.
