From Verif Require Import Base BaseFacts Float FloatFacts Loops LoopsFacts ProgressModel ProgressSpec.

(** ** Enumeration *)
Lemma chunk_layout_ok tol tx ty cx cy ch : chunk_layout tol tx ty cx cy = Ret ch ->
  0 <= tx -> 0 <= ty -> 0 <= cx -> 0 <= cy ->
  1 <= c_cols ch /\ 1 <= c_rows ch /\ c_cells ch = c_cols ch * c_rows ch /\
  c_cols ch * cx <= tx <= c_cols ch * cx + tol /\ c_rows ch * cy <= ty <= c_rows ch * cy + tol.
Proof.
  unfold chunk_layout; intros H T1 T2 C1 C2.
  destruct ((cx =? 0) || (cy =? 0)) eqn:E0; [discriminate|].
  rewrite !Z.quot_div_nonneg, !Z.rem_mod_nonneg in H by lia.
  destruct (tx / cx <? 1) eqn:E1; [discriminate|].
  destruct (ty / cy <? 1) eqn:E2; [discriminate|].
  destruct (tx mod cx >? tol) eqn:E3; [discriminate|].
  destruct (ty mod cy >? tol) eqn:E4; [discriminate|].
  inversion H; subst; cbn [c_cols c_rows c_cells]; clear H.
  pose proof (Z.div_mod tx cx ltac:(lia)). pose proof (Z.div_mod ty cy ltac:(lia)).
  pose proof (Z.mod_pos_bound tx cx ltac:(lia)). pose proof (Z.mod_pos_bound ty cy ltac:(lia)).
  repeat split; lia || nia.
Qed.

Lemma locate_ok tiles ch u : layout_ok ch -> n_units_of tiles ch <= 2 ^ 24 ->
  0 <= u < n_units_of tiles ch ->
  exists tx ty, get_at tiles (u / c_cells ch) = Some (tx, ty) /\
    locate tiles ch (n_units_of tiles ch) u =
    Ret (mkUnit (u / c_cells ch) (u mod c_cells ch)
                ((u mod c_cells ch) mod c_cols ch) ((u mod c_cells ch) / c_cols ch) tx ty).
Proof.
  intros (L1 & L2 & L3) N U. unfold n_units_of in *. pose proof (zlen_nonneg tiles) as ZN.
  assert (0 < c_cells ch) as CP by nia.
  assert (0 <= u / c_cells ch < zlen tiles) as TB.
  { split; [apply Z.div_pos; lia|]. apply Z.div_lt_upper_bound; lia. }
  assert (c_cells ch <= 2 ^ 24) as CB by nia.
  destruct (get_at_some tiles (u / c_cells ch) TB) as ([tx ty] & G).
  exists tx, ty; split; auto. unfold locate.
  replace ((u <? 0) || (u >=? zlen tiles * c_cells ch)) with false by lia.
  unfold int_of_floor. rewrite f32_div_floor by lia. cbn [of_option bind].
  assert (zlen tiles <= 2 ^ 24) by nia. change (2 ^ 24) with 16777216 in *.
  rewrite chk_int_ok by (unfold in_int; lia). cbn [bind].
  rewrite G. cbn [of_option bind fst snd].
  assert (u - u / c_cells ch * c_cells ch = u mod c_cells ch) as ->
    by (pose proof (Z.div_mod u (c_cells ch) ltac:(lia)); lia).
  pose proof (Z.mod_pos_bound u (c_cells ch) CP) as MB.
  rewrite Z.quot_div_nonneg by lia.
  assert (forall m, m - m / c_cols ch * c_cols ch = m mod c_cols ch) as ->
    by (intros m; pose proof (Z.div_mod m (c_cols ch) ltac:(lia)); lia).
  reflexivity.
Qed.

(** Every (tile, chunk column, chunk row) comes from exactly one unit. *)
Lemma locate_bijection tiles ch : layout_ok ch -> n_units_of tiles ch <= 2 ^ 24 ->
  forall k x y, 0 <= k < zlen tiles -> 0 <= x < c_cols ch -> 0 <= y < c_rows ch ->
  exists u t, 0 <= u < n_units_of tiles ch /\ get_at tiles k = Some t /\
    (exists pos, locate tiles ch (n_units_of tiles ch) u = Ret pos /\
       u_tile pos = k /\ u_cx pos = x /\ u_cy pos = y /\ u_tx pos = fst t /\ u_ty pos = snd t) /\
    forall u' pos', 0 <= u' < n_units_of tiles ch ->
      locate tiles ch (n_units_of tiles ch) u' = Ret pos' ->
      u_tile pos' = k -> u_cx pos' = x -> u_cy pos' = y -> u' = u.
Proof.
  intros L N k x y K X Y. pose proof L as (L1 & L2 & L3).
  set (u := k * c_cells ch + y * c_cols ch + x).
  assert (0 <= y * c_cols ch + x < c_cells ch) as B by nia.
  assert (0 <= u < n_units_of tiles ch) as U by (unfold u, n_units_of; nia).
  assert (u / c_cells ch = k) as D.
  { unfold u. replace (k * c_cells ch + y * c_cols ch + x) with ((y * c_cols ch + x) + k * c_cells ch) by ring.
    rewrite Z.div_add, Z.div_small by lia. lia. }
  assert (u mod c_cells ch = y * c_cols ch + x) as M.
  { unfold u. replace (k * c_cells ch + y * c_cols ch + x) with ((y * c_cols ch + x) + k * c_cells ch) by ring.
    rewrite Z.mod_add, Z.mod_small by lia. lia. }
  destruct (locate_ok tiles ch u L N U) as (tx & ty & G & E).
  rewrite D, M in *. exists u, (tx, ty). split; auto. split; auto. split.
  - eexists; split; [exact E|]. cbn [u_tile u_cx u_cy u_tx u_ty fst snd].
    repeat split; auto.
    + replace (y * c_cols ch + x) with (x + y * c_cols ch) by ring. rewrite Z.mod_add, Z.mod_small; lia.
    + replace (y * c_cols ch + x) with (x + y * c_cols ch) by ring. rewrite Z.div_add, Z.div_small; lia.
  - intros u' pos' U' E' Q1 Q2 Q3.
    destruct (locate_ok tiles ch u' L N U') as (tx' & ty' & G' & E''). rewrite E'' in E'. inversion E'; subst pos'.
    cbn [u_tile u_cx u_cy] in *.
    pose proof (Z.div_mod u' (c_cells ch) ltac:(nia)) as DM.
    pose proof (Z.div_mod (u' mod c_cells ch) (c_cols ch) ltac:(lia)) as DM2.
    rewrite Q2, Q3 in DM2. rewrite Q1, DM2 in DM. unfold u. lia.
Qed.

(** Positions are always valid. *)
Lemma locate_in_range tiles ch u pos : layout_ok ch -> n_units_of tiles ch <= 2 ^ 24 ->
  0 <= u < n_units_of tiles ch -> locate tiles ch (n_units_of tiles ch) u = Ret pos ->
  0 <= u_tile pos < zlen tiles /\ 0 <= u_cx pos < c_cols ch /\ 0 <= u_cy pos < c_rows ch /\
  get_at tiles (u_tile pos) = Some (u_tx pos, u_ty pos).
Proof.
  intros L N U E. destruct (locate_ok tiles ch u L N U) as (tx & ty & G & E'). rewrite E' in E; inversion E; subst.
  cbn [u_tile u_cx u_cy u_tx u_ty]. destruct L as (L1 & L2 & L3).
  assert (0 < c_cells ch) by nia.
  pose proof (get_at_inv _ _ _ G). pose proof (Z.mod_pos_bound u (c_cells ch) ltac:(lia)) as MB.
  pose proof (Z.mod_pos_bound (u mod c_cells ch) (c_cols ch) ltac:(lia)).
  repeat split; auto; try lia.
  - apply Z.div_pos; lia.
  - apply Z.div_lt_upper_bound; lia.
Qed.

(** ** Pipeline *)
Lemma of_unit_app pu a b : of_unit pu (a ++ b) = of_unit pu a ++ of_unit pu b.
Proof. unfold of_unit. now rewrite filter_app, map_app. Qed.

Lemma of_unit_at pu q l : of_unit pu (at_unit q l) = if pu =? q then l else [].
Proof.
  unfold of_unit, at_unit. induction l as [|s l IH]; cbn [map filter]; [now destruct (pu =? q)|].
  cbn [fst]. rewrite (Z.eqb_sym q pu). destruct (pu =? q); cbn [map]; rewrite IH; auto.
Qed.

Lemma interleave_of_unit pu l1 l2 l : interleave l1 l2 l ->
  of_unit pu l1 = [] \/ of_unit pu l2 = [] -> of_unit pu l = of_unit pu l1 ++ of_unit pu l2.
Proof.
  induction 1 as [|a l1 l2 l H IH|a l1 l2 l H IH]; intros D; auto.
  - change (a :: l) with ([a] ++ l). change (a :: l1) with ([a] ++ l1) in *.
    rewrite !of_unit_app in *. rewrite IH; [now rewrite app_assoc|].
    destruct D as [D|D]; auto. apply app_eq_nil in D. tauto.
  - change (a :: l) with ([a] ++ l). change (a :: l2) with ([a] ++ l2) in *.
    rewrite !of_unit_app in *. destruct D as [D|D].
    + rewrite IH by auto. rewrite D. auto.
    + apply app_eq_nil in D. destruct D as [D1 D2]. rewrite IH by auto. rewrite D1, D2. cbn [app]. now rewrite ?app_nil_r.
Qed.

Lemma interleave3_of_unit pu l1 l2 l3 l : interleave3 l1 l2 l3 l ->
  (of_unit pu l1 = [] \/ of_unit pu l2 = []) ->
  (of_unit pu l1 = [] \/ of_unit pu l3 = []) -> (of_unit pu l2 = [] \/ of_unit pu l3 = []) ->
  of_unit pu l = of_unit pu l1 ++ of_unit pu l2 ++ of_unit pu l3.
Proof.
  intros (l12 & A & B) H1 H2 H3.
  pose proof (interleave_of_unit pu _ _ _ A H1) as E.
  rewrite (interleave_of_unit pu _ _ _ B).
  - rewrite E. now rewrite app_assoc.
  - destruct H3 as [H3|H3]; auto. destruct H2 as [H2|H2]; auto. left. rewrite E, H2, H3. auto.
Qed.

Lemma interleave_In {A} (l1 l2 l : list A) : interleave l1 l2 l -> forall x, In x l <-> In x l1 \/ In x l2.
Proof. induction 1 as [|a l1 l2 l H IH|a l1 l2 l H IH]; intros x; cbn; [tauto|rewrite IH; tauto|rewrite IH; tauto]. Qed.

(** A pass treats each unit as described by the guards, in streaming mode too. *)
Definition pass_steps (n : Z) (u : units) (pu : Z) : list step :=
  (if (pu =? u_next u) && (u_next u <? n) then read_steps else []) ++
  (if (pu =? u_now u) && ((u_now u >=? 0) && (u_now u <? n)) then comp_steps else []) ++
  (if (pu =? u_last u) && (u_last u >=? 0) then out_steps else []).

Definition pass_ok (stream : bool) n u (t : list (Z * step)) : Prop :=
  if stream then interleave3 (read_thread n u) (comp_thread n u) (out_thread n u) t
  else t = read_thread n u ++ comp_thread n u ++ out_thread n u.

Lemma thread_units n u pu :
  of_unit pu (read_thread n u) = (if (pu =? u_next u) && (u_next u <? n) then read_steps else []) /\
  of_unit pu (comp_thread n u) = (if (pu =? u_now u) && ((u_now u >=? 0) && (u_now u <? n)) then comp_steps else []) /\
  of_unit pu (out_thread n u) = (if (pu =? u_last u) && (u_last u >=? 0) then out_steps else []).
Proof.
  unfold read_thread, comp_thread, out_thread.
  destruct (u_next u <? n), ((u_now u >=? 0) && (u_now u <? n)), (u_last u >=? 0);
    rewrite ?of_unit_at, ?andb_true_r, ?andb_false_r; auto.
Qed.

Lemma pass_of_unit stream n u t pu : staggered u -> pass_ok stream n u t ->
  of_unit pu t = pass_steps n u pu.
Proof.
  intros (S1 & S2) P. destruct (thread_units n u pu) as (E1 & E2 & E3). unfold pass_steps.
  rewrite <- E1, <- E2, <- E3.
  destruct stream; cbn [pass_ok] in P.
  - apply interleave3_of_unit; auto; rewrite ?E1, ?E2, ?E3;
      destruct (Z.eqb_spec pu (u_next u)), (Z.eqb_spec pu (u_now u)), (Z.eqb_spec pu (u_last u)); cbn [andb]; auto; lia.
  - subst t. now rewrite !of_unit_app.
Qed.

Lemma passes_units stream n : 0 <= n -> forall u t k, passes stream n u t k -> staggered u -> -1 <= u_next u <= n + 1 ->
  Z.of_nat k = n + 1 - u_next u /\
  forall pu, of_unit pu t =
    (if (u_next u <? pu) && (pu <? n) && (0 <=? pu) then read_steps else []) ++
    (if (u_now u <? pu) && (pu <? n) && (0 <=? pu) then comp_steps else []) ++
    (if (u_last u <? pu) && (pu <? n) && (0 <=? pu) then out_steps else []).
Proof.
  intros N. induction 1 as [u H|u t rest k H P _ IH]; intros S B; pose proof S as [S1 S2].
  - cbn [u_now forward] in H. split; [lia|]. intros pu.
    replace ((u_next u <? pu) && (pu <? n) && (0 <=? pu)) with false by lia.
    replace ((u_now u <? pu) && (pu <? n) && (0 <=? pu)) with false by lia.
    replace ((u_last u <? pu) && (pu <? n) && (0 <=? pu)) with false by lia. reflexivity.
  - cbn [u_now forward] in H.
    assert (staggered (forward u)) as S' by (split; cbn [u_now u_next u_last forward]; lia).
    destruct IH as [IK IU]; auto; [cbn [u_next forward]; lia|].
    cbn [u_next u_now u_last forward] in *. split; [lia|]. intros pu.
    rewrite of_unit_app, IU, (pass_of_unit stream n (forward u) t pu S') by (destruct stream; exact P).
    unfold pass_steps. cbn [u_next u_now u_last forward].
    destruct (Z.eqb_spec pu (u_next u + 1)) as [E1|E1]; [|destruct (Z.eqb_spec pu (u_now u + 1)) as [E2|E2];
      [|destruct (Z.eqb_spec pu (u_last u + 1)) as [E3|E3]]].
    + replace (pu =? u_now u + 1) with false by lia. replace (pu =? u_last u + 1) with false by lia.
      cbn [andb app]. rewrite !app_nil_r.
      replace (u_next u + 1 <? pu) with false by lia. replace (u_now u + 1 <? pu) with true by lia.
      replace (u_last u + 1 <? pu) with true by lia. replace (u_next u <? pu) with true by lia.
      replace (u_now u <? pu) with true by lia. replace (u_last u <? pu) with true by lia.
      replace (0 <=? pu) with true by lia. rewrite E1. cbn [andb app].
      destruct (u_next u + 1 <? n); reflexivity.
    + replace (pu =? u_next u + 1) with false by lia. replace (pu =? u_last u + 1) with false by lia.
      cbn [andb app]. rewrite !app_nil_r.
      replace (u_next u + 1 <? pu) with false by lia. replace (u_now u + 1 <? pu) with false by lia.
      replace (u_last u + 1 <? pu) with true by lia. replace (u_next u <? pu) with false by lia.
      replace (u_now u <? pu) with true by lia. replace (u_last u <? pu) with true by lia.
      rewrite E2. cbn [andb app].
      destruct (u_now u + 1 <? n) eqn:Q1, (0 <=? u_now u + 1) eqn:Q2; cbn [andb app];
        replace (u_now u + 1 >=? 0) with (0 <=? u_now u + 1) by lia; rewrite Q2; reflexivity.
    + replace (pu =? u_next u + 1) with false by lia. replace (pu =? u_now u + 1) with false by lia.
      cbn [andb app].
      replace (u_next u + 1 <? pu) with false by lia. replace (u_now u + 1 <? pu) with false by lia.
      replace (u_last u + 1 <? pu) with false by lia. replace (u_next u <? pu) with false by lia.
      replace (u_now u <? pu) with false by lia. replace (u_last u <? pu) with true by lia.
      replace (pu <? n) with true by lia. rewrite E3. cbn [andb app].
      replace (u_last u + 1 >=? 0) with (0 <=? u_last u + 1) by lia. now rewrite app_nil_r.
    + cbn [andb app].
      replace (u_next u + 1 <? pu) with (u_next u <? pu) by lia.
      replace (u_now u + 1 <? pu) with (u_now u <? pu) by lia.
      replace (u_last u + 1 <? pu) with (u_last u <? pu) by lia. reflexivity.
Qed.

Lemma run_units stream n t k : 0 <= n -> passes stream n init_units t k ->
  Z.of_nat k = n + 2 /\
  forall pu, of_unit pu t = if (0 <=? pu) && (pu <? n) then read_steps ++ comp_steps ++ out_steps else [].
Proof.
  intros N P. destruct (passes_units stream n N init_units t k P) as [K U].
  { split; reflexivity. }
  { cbn; lia. }
  cbn [u_next init_units] in K. split; [lia|]. intros pu. rewrite U.
  cbn [u_next u_now u_last init_units].
  destruct (0 <=? pu) eqn:A.
  - replace (-1 <? pu) with true by lia. replace (-2 <? pu) with true by lia. replace (-3 <? pu) with true by lia.
    cbn [andb]. rewrite !andb_true_r. destruct (pu <? n); reflexivity.
  - rewrite !andb_false_r. reflexivity.
Qed.

(** The loop ends, whatever the schedule; a run exists in both modes. *)
Lemma interleave_app {A} (l1 l2 : list A) : interleave l1 l2 (l1 ++ l2).
Proof.
  induction l1 as [|a l1 IH]; cbn.
  - induction l2; constructor; auto.
  - constructor; auto.
Qed.

Lemma run_exists stream n : 0 <= n -> exists t k, passes stream n init_units t k.
Proof.
  intros N.
  assert (forall m u, Z.of_nat m = n + 1 - u_next u -> staggered u -> exists t k, passes stream n u t k) as G.
  { induction m as [|m IH]; intros u E St; pose proof St as [S1 S2].
    - exists [], 0%nat. apply pass_end. cbn [u_now forward]. lia.
    - destruct (IH (forward u)) as (t & k & P).
      + cbn [u_next forward]; lia.
      + split; cbn [u_now u_next u_last forward]; lia.
      + exists ((read_thread n (forward u) ++ comp_thread n (forward u) ++ out_thread n (forward u)) ++ t), (S k).
        apply pass_more; auto.
        * cbn [u_now forward]; lia.
        * destruct stream; auto. eexists; split; [apply interleave_app|]. rewrite app_assoc. apply interleave_app. }
  apply (G (Z.to_nat (n + 2))); [cbn [u_next init_units]; lia|split; reflexivity].
Qed.

(** Threads of one pass touch different cells. *)
Lemma reachable_staggered i : staggered (Nat.iter i forward init_units).
Proof.
  induction i as [|i [S1 S2]]; [split; reflexivity|].
  change (Nat.iter (S i) forward init_units) with (forward (Nat.iter i forward init_units)).
  generalize dependent (Nat.iter i forward init_units). intros v S1 S2.
  split; unfold forward; cbn [u_now u_next u_last]; lia.
Qed.

Lemma in_read_thread n u e : In e (read_thread n u) -> fst e = u_next u.
Proof.
  unfold read_thread, at_unit. destruct (_ <? _); [|intros []].
  rewrite in_map_iff. intros (x & <- & _); auto.
Qed.
Lemma in_comp_thread n u e : In e (comp_thread n u) -> fst e = u_now u.
Proof.
  unfold comp_thread, at_unit. destruct (_ && _); [|intros []].
  rewrite in_map_iff. intros (x & <- & _); auto.
Qed.
Lemma in_out_thread n u e : In e (out_thread n u) -> fst e = u_last u.
Proof.
  unfold out_thread, at_unit. destruct (_ >=? _); [|intros []].
  rewrite in_map_iff. intros (x & <- & _); auto.
Qed.

Lemma pass_disjoint n i a b : let u := Nat.iter i forward init_units in
  (In a (read_thread n u) -> In b (comp_thread n u) -> fst a <> fst b) /\
  (In a (read_thread n u) -> In b (out_thread n u) -> fst a <> fst b) /\
  (In a (comp_thread n u) -> In b (out_thread n u) -> fst a <> fst b).
Proof.
  intros u. destruct (reachable_staggered i) as [S1 S2]; fold u in S1, S2.
  repeat split; intros H1 H2;
    rewrite ?(in_read_thread _ _ _ H1), ?(in_comp_thread _ _ _ H1), ?(in_comp_thread _ _ _ H2), ?(in_out_thread _ _ _ H2); lia.
Qed.

Lemma of_unit_In pu s t : In (pu, s) t -> of_unit pu t <> [].
Proof.
  intros H E. unfold of_unit in E. apply map_eq_nil in E.
  assert (In (pu, s) (filter (fun e => fst e =? pu) t)) as F by (apply filter_In; split; auto; cbn; lia).
  rewrite E in F. destruct F.
Qed.

Lemma run_indices stream n t k pu s : 0 <= n -> passes stream n init_units t k -> In (pu, s) t -> 0 <= pu < n.
Proof.
  intros N P I. destruct (run_units stream n t k N P) as [_ U].
  pose proof (of_unit_In _ _ _ I) as NE. rewrite U in NE.
  destruct ((0 <=? pu) && (pu <? n)) eqn:E; [lia|congruence].
Qed.

(** ** Effect on memory *)
Section Effect.
Context {In Out : Type} (rd : Z -> option In) (cp : Z -> option In -> option Out).

Lemma exec_cells : forall t mem, (forall pu s, List.In (pu, s) t -> 0 <= pu < zlen mem) ->
  exists mem', exec rd cp t mem = Ret mem' /\ zlen mem' = zlen mem /\
    forall pu c, get_at mem pu = Some c ->
      get_at mem' pu = Some (fold_left (fun c s => do_step rd cp pu s c) (of_unit pu t) c).
Proof.
  induction t as [|[q s] t IH]; intros mem B; cbn [exec].
  - exists mem; repeat split; auto.
  - pose proof (B q s (or_introl eq_refl)) as Q.
    destruct (get_at_some mem q Q) as (c & G). rewrite G; cbn [of_option bind].
    destruct (set_at mem q (do_step rd cp q s c)) as [mem1|] eqn:E.
    2: { exfalso. unfold set_at in E. unfold zlen in Q.
         replace ((q <? 0) || (Z.of_nat (length mem) <=? q)) with false in E by lia. discriminate. }
    cbn [of_option bind]. pose proof (set_at_length _ _ _ _ E) as L.
    assert (zlen mem1 = zlen mem) as ZL by exact L.
    destruct (IH mem1) as (mem' & EX & ZL' & R).
    { intros pu s' I. rewrite ZL. apply (B pu s'). cbn; auto. }
    exists mem'; split; auto. split; [lia|]. intros pu c0 G0.
    unfold of_unit; cbn [filter fst].
    destruct (Z.eqb_spec q pu) as [->|NE].
    + cbn [map snd fold_left]. rewrite G in G0; inversion G0; subst c0.
      apply R. exact (get_set_same _ _ _ _ E).
    + apply R. rewrite (get_set_other _ _ _ _ _ E NE). auto.
Qed.

Lemma run_effect stream n t k : 0 <= n -> passes stream n init_units t k ->
  exists mem', exec rd cp t (repeat empty_cell (Z.to_nat n)) = Ret mem' /\ zlen mem' = n /\
    forall pu, 0 <= pu < n -> get_at mem' pu =
      Some (mkCell None None (match cp pu (rd pu) with Some o => [o] | None => [] end)).
Proof.
  intros N P. destruct (exec_cells t (repeat empty_cell (Z.to_nat n))) as (mem' & E & L & R).
  { intros pu s I. pose proof (run_indices stream n t k pu s N P I). unfold zlen. rewrite repeat_length. lia. }
  exists mem'; split; auto. split; [unfold zlen in *; rewrite repeat_length in L; lia|].
  intros pu B. specialize (R pu empty_cell).
  rewrite R.
  - destruct (run_units stream n t k N P) as [_ U]. rewrite U.
    replace ((0 <=? pu) && (pu <? n)) with true by lia.
    unfold read_steps, comp_steps, out_steps; cbn. destruct (cp pu (rd pu)); reflexivity.
  - unfold get_at. replace (pu <? 0) with false by lia.
    apply nth_error_repeat. lia.
Qed.
End Effect.

(** ** Order across units within a stage *)
Lemma of_stage_app st a b : of_stage st (a ++ b) = of_stage st a ++ of_stage st b.
Proof. apply filter_app. Qed.

Lemma interleave_stage st l1 l2 l : interleave l1 l2 l ->
  of_stage st l1 = [] \/ of_stage st l2 = [] -> of_stage st l = of_stage st l1 ++ of_stage st l2.
Proof.
  induction 1 as [|a l1 l2 l H IH|a l1 l2 l H IH]; intros D; auto.
  - change (a :: l) with ([a] ++ l). change (a :: l1) with ([a] ++ l1) in *.
    rewrite !of_stage_app in *. rewrite IH; [now rewrite app_assoc|].
    destruct D as [D|D]; auto. apply app_eq_nil in D. tauto.
  - change (a :: l) with ([a] ++ l). change (a :: l2) with ([a] ++ l2) in *.
    rewrite !of_stage_app in *. destruct D as [D|D].
    + rewrite IH by auto. rewrite D. auto.
    + apply app_eq_nil in D. destruct D as [D1 D2]. rewrite IH by auto. rewrite D1, D2. cbn [app]. now rewrite ?app_nil_r.
Qed.

Lemma stage_at st pu l : (forall s, In s l -> st s = true) -> of_stage st (at_unit pu l) = at_unit pu l.
Proof.
  intros H. unfold of_stage, at_unit. induction l as [|s l IH]; cbn; auto.
  rewrite (H s) by (cbn; auto). f_equal. apply IH. intros; apply H; cbn; auto.
Qed.
Lemma stage_at_none st pu l : (forall s, In s l -> st s = false) -> of_stage st (at_unit pu l) = [].
Proof.
  intros H. unfold of_stage, at_unit. induction l as [|s l IH]; cbn; auto.
  rewrite (H s) by (cbn; auto). apply IH. intros; apply H; cbn; auto.
Qed.

Ltac stage_solve :=
  let s := fresh in let H := fresh in
  intros s H; repeat (destruct H as [<-|H]; [reflexivity|]); destruct H.

Lemma pass_out_stage stream n u t : pass_ok stream n u t -> of_stage is_out t = out_thread n u.
Proof.
  assert (of_stage is_out (read_thread n u) = []) as R
    by (unfold read_thread; destruct (u_next u <? n); auto).
  assert (of_stage is_out (comp_thread n u) = []) as C
    by (unfold comp_thread; destruct (_ && _); auto).
  assert (of_stage is_out (out_thread n u) = out_thread n u) as O
    by (unfold out_thread; destruct (_ >=? _); auto).
  destruct stream; cbn [pass_ok].
  - intros (l12 & A & B). pose proof (interleave_stage is_out _ _ _ A (or_introl R)) as E1.
    rewrite R, C in E1. rewrite (interleave_stage is_out _ _ _ B (or_introl E1)), E1, O. reflexivity.
  - intros ->. rewrite !of_stage_app, R, C, O. reflexivity.
Qed.

Lemma passes_out stream n : 0 <= n -> forall u t k, passes stream n u t k -> staggered u -> -1 <= u_next u <= n + 1 ->
  of_stage is_out t = flat_map (fun pu => at_unit pu out_steps) (zrange (Z.max 0 (u_last u + 1)) (n - 1)).
Proof.
  intros N. induction 1 as [u H|u t rest k H P _ IH]; intros S B; pose proof S as [S1 S2].
  - cbn [u_now forward] in H. rewrite zrange_nil by lia. reflexivity.
  - cbn [u_now forward] in H.
    assert (staggered (forward u)) as S' by (split; cbn [u_now u_next u_last forward]; lia).
    rewrite of_stage_app, IH by (auto; cbn [u_next forward]; lia).
    rewrite (pass_out_stage stream n (forward u)) by (destruct stream; exact P).
    cbn [u_last forward]. unfold out_thread. cbn [u_last forward].
    destruct (Z.geb_spec (u_last u + 1) 0) as [G|G].
    + replace (Z.max 0 (u_last u + 1)) with (u_last u + 1) by lia.
      replace (Z.max 0 (u_last u + 1 + 1)) with (u_last u + 1 + 1) by lia.
      rewrite (zrange_cons (u_last u + 1)) by lia. reflexivity.
    + replace (Z.max 0 (u_last u + 1 + 1)) with (Z.max 0 (u_last u + 1)) by lia. reflexivity.
Qed.

Lemma run_out_order stream n t k : 0 <= n -> passes stream n init_units t k ->
  of_stage is_out t = flat_map (fun pu => at_unit pu out_steps) (zrange 0 (n - 1)).
Proof.
  intros N P. rewrite (passes_out stream n N _ _ _ P); [reflexivity|split; reflexivity|cbn; lia].
Qed.

(** ** Bytes *)
Lemma stream_total_acc l : forall a, fold_left (fun acc o => acc + match o with Some b => b | None => 0 end) l a
  = a + sum_bytes (map (fun o => match o with Some b => b | None => 0 end) l).
Proof. induction l as [|o l IH]; intros a; cbn [fold_left map sum_bytes fold_right]; [lia|]. rewrite IH. unfold sum_bytes. lia. Qed.

Lemma stream_total_sum l : stream_total l = sum_bytes (map (fun o => match o with Some b => b | None => 0 end) l).
Proof. unfold stream_total; rewrite stream_total_acc; lia. Qed.

Lemma sum_bytes_nonneg l : Forall (fun b => 0 <= b) l -> 0 <= sum_bytes l.
Proof. unfold sum_bytes. induction 1; cbn [fold_right]; lia. Qed.

Lemma sum_bytes_zero l : Forall (fun b => 0 <= b) l -> (sum_bytes l = 0 <-> Forall (fun b => b = 0) l).
Proof.
  unfold sum_bytes. induction 1 as [|b l H F IH]; cbn [fold_right]; [split; auto|].
  pose proof (sum_bytes_nonneg l F) as P; unfold sum_bytes in P. split.
  - intros E. constructor; [lia|]. apply IH; lia.
  - intros E; inversion E; subst. apply IH in H3. lia.
Qed.

Lemma stream_empty_iff ibs obs smp fail : Forall byte_count ibs -> Forall byte_count obs ->
  snd (handle_no_io (total true ibs) (total true obs) smp fail) = true <->
  Forall no_bytes ibs \/ (smp = false /\ Forall no_bytes obs).
Proof.
  assert (forall l, Forall byte_count l -> (stream_total l = 0 <-> Forall no_bytes l)) as Z0.
  { intros l F. rewrite stream_total_sum, sum_bytes_zero.
    - rewrite Forall_map. split; apply Forall_impl; intros [b|]; cbn; auto.
    - rewrite Forall_map. revert F; apply Forall_impl; intros [b|]; cbn; auto; lia. }
  intros HI HO. unfold total, handle_no_io; cbn [snd].
  rewrite orb_true_iff, andb_true_iff, negb_true_iff, !Z.eqb_eq, !Z0 by auto. tauto.
Qed.
