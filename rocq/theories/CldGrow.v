(** Proofs about the cloud module: region growing and change of resolution. *)
From Coq Require Import Reals.
From Verif Require Import Base BaseFacts Loops LoopsFacts ImgSpec ImgFacts ChunkProofs BapCor QueueModel QueueSpec QueueProofs RecoModel CldModel CldSpec CldProofs.
#[local] Open Scope Z_scope.

(** ** Lists of pixels *)
Lemma nodup_map_on {A B} (f : A -> B) l : (forall a b, In a l -> In b l -> f a = f b -> a = b) -> NoDup l -> NoDup (map f l).
Proof.
  intros H N. induction N as [|a l NI N IH]; cbn [map]; constructor.
  - intros I. apply in_map_iff in I. destruct I as (b & E & Ib). apply NI. rewrite (H a b); [exact Ib|now left|now right|auto].
  - apply IH. intros x y Ix Iy. apply H; now right.
Qed.
Lemma inside_count nx ny (l : list (Z * Z)) : 0 < nx -> 0 < ny -> NoDup l -> (forall x y, In (x, y) l -> inside nx ny y x) -> zlen l <= nx * ny.
Proof.
  intros NX NY N H. assert (M : NoDup (map (fun p => nx * snd p + fst p) l)).
  { apply nodup_map_on; auto. intros (x, y) (x', y') I1 I2. cbn [fst snd]. intros E. destruct (index_inj nx ny y x y' x' (H _ _ I1) (H _ _ I2) E) as (-> & ->). reflexivity. }
  assert (I : incl (map (fun p => nx * snd p + fst p) l) (zupto (nx * ny))).
  { intros p Ip. apply in_map_iff in Ip. destruct Ip as ((x, y) & <- & Ixy). apply zupto_In. cbn [fst snd]. apply index_range, H, Ixy. }
  pose proof (NoDup_incl_length M I) as L. rewrite map_length, zupto_length in L. unfold zlen. nia.
Qed.
Lemma product_nodup {A B} (m : list B) (l : list A) : NoDup l -> NoDup m -> NoDup (flat_map (fun i => map (fun j => (i, j)) m) l).
Proof.
  intros N M. induction N as [|a l NI N IH]; cbn [flat_map]; [constructor|].
  assert (P : NoDup (map (fun j => (a, j)) m)) by (apply nodup_map_on; auto; intros; congruence).
  assert (D : forall z, In z (map (fun j => (a, j)) m) -> ~ In z (flat_map (fun i => map (fun j => (i, j)) m) l)).
  { intros z I1 I2. apply in_map_iff in I1. destruct I1 as (j & <- & _). apply in_flat_map in I2. destruct I2 as (i & Ii & I2).
    apply in_map_iff in I2. destruct I2 as (j' & E & _). injection E as -> _. auto. }
  clear N M NI. induction P as [|z P' NZ P IHP]; cbn [app]; [exact IH|]. constructor.
  - intros I. apply in_app_iff in I. destruct I as [I|I]; [auto|]. exact (D z (or_introl eq_refl) I).
  - apply IHP. intros u Iu. apply D. now right.
Qed.
Lemma zupto_nodup' n : NoDup (zupto n). Proof. rewrite zupto_zrange. apply zrange_NoDup. Qed.
Lemma cells_In nx ny i j : In (i, j) (cells nx ny) <-> inside nx ny i j.
Proof.
  unfold cells, inside. rewrite in_flat_map. split.
  - intros (a & Ia & I). apply in_map_iff in I. destruct I as (b & E & Ib). injection E as -> ->. rewrite zupto_In in *. lia.
  - intros (A & B). exists i. rewrite zupto_In. split; [exact A|]. apply in_map_iff. exists j. rewrite zupto_In. auto.
Qed.
Lemma cells_nodup nx ny : NoDup (cells nx ny).
Proof. apply product_nodup; apply zupto_nodup'. Qed.
Lemma eight_adjacent y x y' x' : adjacent y x y' x' <-> exists d, In d eight /\ y' = y + fst d /\ x' = x + snd d.
Proof.
  unfold adjacent. split.
  - intros (A & B & N). exists (y' - y, x' - x). cbn [fst snd]. split; [|lia].
    assert (C : y' - y = -1 \/ y' - y = 0 \/ y' - y = 1) by lia. assert (D : x' - x = -1 \/ x' - x = 0 \/ x' - x = 1) by lia.
    destruct C as [-> |[C| ->]], D as [D|[D|D]]; rewrite ?C, D; cbn [eight In]; try tauto.
    exfalso. apply N. f_equal; lia.
  - intros (d & I & -> & ->). cbn [eight In] in I.
    repeat (destruct I as [<-|I]; [cbn [fst snd]; split; [lia|split; [lia|intros E; injection E as E1 E2; lia]]|]). destruct I.
Qed.

(** ** Region growing *)
Section Grow.
Context (clouds0 cand : list bool) (nx ny : Z) (I0 : image clouds0 nx ny) (Lc : zlen cand = nx * ny) (SX : nx <= 32768) (SY : ny <= 32768).
Let N := nx * ny.

Lemma fillable_ok c i j : zlen c = N -> exists b, fillable c cand nx ny i j = Ret b /\
  (b = true <-> inside nx ny i j /\ pix c nx i j = Some false /\ pix cand nx i j = Some true).
Proof using Lc.
  intros L. unfold fillable. destruct (in_grid nx ny i j) eqn:G.
  - assert (I : inside nx ny i j) by (unfold in_grid in G; unfold inside; lia).
    rewrite !get_pix. destruct (pix_some c nx ny i j L I) as (b1 & E1). destruct (pix_some cand nx ny i j Lc I) as (b2 & E2). rewrite E1, E2. cbn [of_option bind].
    eexists. split; [reflexivity|]. split.
    + intros B. apply andb_prop in B. destruct B as (B1 & B2). destruct b1; [discriminate|]. subst b2. auto.
    + intros (_ & B1 & B2). injection B1 as ->. injection B2 as ->. reflexivity.
  - exists false. split; [reflexivity|]. split; [discriminate|]. intros (I & _). unfold in_grid in G. unfold inside in I. lia.
Qed.

Definition fill_next (c : list bool) (i j : Z) : Prop :=
  exists y x, adjacent i j y x /\ inside nx ny y x /\ pix c nx y x = Some false /\ pix cand nx y x = Some true.
Lemma any_ok c i j : zlen c = N -> exists b, any_fillable c cand nx ny i j eight = Ret b /\ (b = true <-> fill_next c i j).
Proof using Lc.
  intros L. assert (G : forall nb, exists b, any_fillable c cand nx ny i j nb = Ret b /\
    (b = true <-> exists d, In d nb /\ inside nx ny (i + fst d) (j + snd d) /\ pix c nx (i + fst d) (j + snd d) = Some false /\ pix cand nx (i + fst d) (j + snd d) = Some true)).
  { induction nb as [|d nb IH]; cbn [any_fillable].
    - exists false. split; [reflexivity|]. split; [discriminate|]. intros (d & [] & _).
    - destruct (fillable_ok c (i + fst d) (j + snd d) L) as (b & E & B). rewrite E. cbn [bind]. destruct b.
      + exists true. split; [reflexivity|]. split; [|auto]. intros _. exists d. split; [now left|]. now apply B.
      + destruct IH as (b' & E' & B'). exists b'. split; [exact E'|]. rewrite B'. split.
        * intros (d' & I & R). exists d'. split; [now right|exact R].
        * intros (d' & [<-|I] & R); [apply B in R; discriminate|]. exists d'. auto. }
  destruct (G eight) as (b & E & B). exists b. split; [exact E|]. rewrite B. unfold fill_next. split.
  - intros (d & I & R). exists (i + fst d), (j + snd d). split; [apply eight_adjacent; eauto|exact R].
  - intros (y & x & A & R). apply eight_adjacent in A. destruct A as (d & I & -> & ->). exists d. auto.
Qed.

Definition listed (c : list bool) (l : list (Z * Z)) : Prop := NoDup l /\ forall x y, In (x, y) l -> is_true c nx ny y x.
Lemma listed_inside c l : listed c l -> zlen l <= N.
Proof using I0. intros (A & B). destruct I0 as (NX & NY & _). apply inside_count; auto. intros x y I. exact (proj1 (B x y I)). Qed.
Lemma snoc_nodup {A} (l : list A) a : NoDup l -> ~ In a l -> NoDup (l ++ [a]).
Proof.
  intros H NI. induction H as [|b l NB H IH]; cbn [app]; [constructor; [auto|constructor]|]. constructor.
  - intros I. apply in_app_iff in I. destruct I as [I|[->|[]]]; [auto|]. apply NI. now left.
  - apply IH. intros I. apply NI. now right.
Qed.
(** A further pixel that is not yet TRUE. *)
Lemma listed_more c l y x : listed c l -> inside nx ny y x -> pix c nx y x = Some false -> zlen l + 1 <= N.
Proof using I0.
  intros (A & B) I F. destruct I0 as (NX & NY & _). replace (zlen l + 1) with (zlen (l ++ [(x, y)])) by (unfold zlen; rewrite app_length; cbn [length]; lia).
  apply inside_count; auto.
  - apply snoc_nodup; auto. intros K. apply B in K. destruct K as (_ & K). congruence.
  - intros x' y' K. apply in_app_iff in K. destruct K as [K|[K|[]]]; [exact (proj1 (B _ _ K))|]. injection K as <- <-. exact I.
Qed.
Lemma short_id y x : inside nx ny y x -> short_pair (x, y) = (x, y).
Proof using SX SY. intros (A & B). unfold short_pair. cbn [fst snd]. rewrite !to_short_id by (unfold in_short; lia). reflexivity. Qed.
Lemma put_ok q l y x : qrep q l -> size q = N -> zlen l < N - 1 -> inside nx ny y x ->
  exists q', enqueue q x y = Ret (SUCCESS, q') /\ qrep q' (l ++ [(x, y)]) /\ size q' = N.
Proof using SX SY.
  intros R S C I. destruct (enqueue_rep q l x y R) as (q' & E & S' & R'). rewrite S in *. destruct (Z.ltb_spec (zlen l) (N - 1)); [|lia].
  rewrite (short_id y x I) in R'. exists q'. auto.
Qed.

(** Phase 1. *)
Definition seeded (done : list (Z * Z)) (st : rc * queue) : Prop :=
  fst st = SUCCESS /\ exists l, qrep (snd st) l /\ size (snd st) = N /\ NoDup l /\
    forall x y, In (x, y) l <-> In (y, x) done /\ is_true clouds0 nx ny y x /\ fill_next clouds0 y x.
Lemma seeds_ok : exists st, (q <- create_queue N ;; ofold (seed_cell clouds0 cand nx ny) (cells nx ny) (SUCCESS, q)) = Ret st /\ seeded (cells nx ny) st.
Proof using All.
  destruct I0 as (NX & NY & L0 & _). assert (N1 : 1 <= N) by (unfold N; nia).
  destruct (create_rep N N1) as (q & Eq & Sq & Rq). rewrite Eq. cbn [bind].
  apply (ofold_inv (seed_cell clouds0 cand nx ny) seeded (cells nx ny) [] (SUCCESS, q)).
  - split; [reflexivity|]. exists []. cbn [snd]. split; [exact Rq|]. split; [exact Sq|]. split; [constructor|]. intros x y. cbn [In]. tauto.
  - intros pre (i, j) post (r, qu) EL (R & l & Ql & Sl & Nl & Hl). cbn [app fst snd] in *. subst r. unfold seed_cell. cbn [fst snd].
    assert (In (i, j) (cells nx ny)) as IC by (rewrite EL; apply in_app_iff; right; now left). apply cells_In in IC.
    assert (NP : ~ In (i, j) pre). { pose proof (cells_nodup nx ny) as ND. rewrite EL in ND. apply NoDup_remove_2 in ND. intros K. apply ND. apply in_app_iff. now left. }
    rewrite get_pix. destruct (pix_some clouds0 nx ny i j L0 IC) as (b & Eb). rewrite Eb. cbn [of_option bind].
    assert (Skip : ~ (is_true clouds0 nx ny i j /\ fill_next clouds0 i j) -> seeded (pre ++ [(i, j)]) (SUCCESS, qu)).
    { intros NS. split; [reflexivity|]. exists l. cbn [snd]. split; [exact Ql|]. split; [exact Sl|]. split; [exact Nl|]. intros x y. rewrite Hl, in_app_iff. split; [tauto|].
      intros ([K|[K|[]]] & T & F); [auto|]. injection K as -> ->. exfalso. auto. }
    destruct b.
    + destruct (any_ok clouds0 i j L0) as (f & Ef & Hf). rewrite Ef. cbn [bind]. destruct f.
      * apply proj1 in Hf. specialize (Hf eq_refl). assert (T : is_true clouds0 nx ny i j) by (split; auto).
        assert (NL : ~ In (j, i) l) by (rewrite Hl; tauto). assert (LI : listed clouds0 (l ++ [(j, i)])).
        { split; [apply snoc_nodup; auto|]. intros x y K. apply in_app_iff in K. destruct K as [K|[K|[]]]; [apply Hl in K; tauto|]. injection K as <- <-. exact T. }
        destruct Hf as (y' & x' & A & I' & F' & C'). pose proof (listed_more clouds0 _ y' x' LI I' F') as M. unfold zlen in M. rewrite app_length in M. cbn [length] in M.
        destruct (put_ok qu l i j Ql Sl ltac:(unfold zlen; lia) IC) as (q' & E' & R' & S'). exists (SUCCESS, q'). split; [exact E'|]. split; [reflexivity|].
        exists (l ++ [(j, i)]). cbn [snd]. split; [exact R'|]. split; [exact S'|]. split; [exact (proj1 LI)|]. intros x y. rewrite !in_app_iff, Hl. cbn [In]. split.
        -- intros [(K & T' & F)|[K|[]]]; [tauto|]. injection K as <- <-. split; [right; now left|]. split; [exact T|]. exists y', x'. auto.
        -- intros ([K|[K|[]]] & T' & F); [tauto|]. injection K as <- <-. right. now left.
      * exists (SUCCESS, qu). split; [reflexivity|]. apply Skip. intros (_ & F). apply Hf in F. discriminate.
    + exists (SUCCESS, qu). split; [reflexivity|]. apply Skip. intros ((_ & T) & _). congruence.
Qed.

(** Phase 2. *)
Definition closed (c : list bool) (y x : Z) : Prop := forall y' x', adjacent y x y' x' -> is_true cand nx ny y' x' -> is_true c nx ny y' x'.
Definition sound (c : list bool) : Prop :=
  zlen c = N /\ (forall y x, is_true clouds0 nx ny y x -> is_true c nx ny y x) /\ (forall y x, is_true c nx ny y x -> linked clouds0 cand nx ny y x).
Definition growing (st : gstate) (D l : list (Z * Z)) : Prop :=
  g_rc st = SUCCESS /\ qrep (g_queue st) l /\ size (g_queue st) = N /\ sound (g_clouds st) /\ listed (g_clouds st) (D ++ l) /\
  forall y x, is_true (g_clouds st) nx ny y x -> ~ In (x, y) l -> closed (g_clouds st) y x.

Lemma eight_ok i j D : forall nb st l, In (j, i) D ->
  g_rc st = SUCCESS -> qrep (g_queue st) l -> size (g_queue st) = N -> sound (g_clouds st) -> listed (g_clouds st) (D ++ l) ->
  (forall y x, is_true (g_clouds st) nx ny y x -> ~ In (x, y) l -> (y, x) <> (i, j) -> closed (g_clouds st) y x) ->
  (forall d, In d nb -> In d eight) ->
  (forall d, In d eight -> In d nb \/ (is_true cand nx ny (i + fst d) (j + snd d) -> is_true (g_clouds st) nx ny (i + fst d) (j + snd d))) ->
  exists st' l', ofold (grow_cell cand nx ny i j) nb st = Ret st' /\ growing st' D l'.
Proof using All.
  induction nb as [|d nb IH]; intros st l ID ER EQ ES (SL & S0 & S1) LI CL NB DN.
  - exists st, l. split; [reflexivity|]. split; [exact ER|]. split; [exact EQ|]. split; [exact ES|]. split; [exact (conj SL (conj S0 S1))|]. split; [exact LI|].
    intros y x T NI. destruct (Z.eq_dec y i) as [-> |NE]; [|apply CL; auto; congruence]. destruct (Z.eq_dec x j) as [-> |NE]; [|apply CL; auto; congruence].
    intros y' x' A C. apply eight_adjacent in A. destruct A as (d & Id & -> & ->). destruct (DN d Id) as [[]|K]. auto.
  - cbn [ofold]. unfold grow_cell at 1. rewrite ER.
    destruct (fillable_ok (g_clouds st) (i + fst d) (j + snd d) SL) as (b & Eb & Hb). rewrite Eb. cbn [bind].
    assert (AD : adjacent i j (i + fst d) (j + snd d)) by (apply eight_adjacent; exists d; split; [apply NB; now left|auto]).
    assert (TI : is_true (g_clouds st) nx ny i j). { destruct LI as (_ & LI). apply LI. apply in_app_iff. now left. }
    destruct b.
    + apply proj1 in Hb. destruct (Hb eq_refl) as (IN & F & C). clear Hb.
      replace ((i + fst d) * nx + j + snd d) with ((i + fst d) * nx + (j + snd d)) by ring.
      destruct (set_pix (g_clouds st) nx ny (i + fst d) (j + snd d) true SL IN) as (c & Ec & Lc' & Pc & Po). rewrite Ec. cbn [of_option bind].
      pose proof (listed_more _ _ _ _ LI IN F) as M.
      assert (DL : 1 <= zlen D) by (unfold zlen; destruct D; [destruct ID|cbn [length]; lia]). unfold zlen in M, DL. rewrite app_length in M.
      destruct (put_ok (g_queue st) l (i + fst d) (j + snd d) EQ ES ltac:(unfold zlen; lia) IN) as (q' & Eq' & Rq' & Sq'). rewrite Eq'. cbn [bind fst snd].
      assert (MONO : forall y x, is_true (g_clouds st) nx ny y x -> is_true c nx ny y x).
      { intros y x (Iy & Ty). split; [exact Iy|]. destruct (Z.eq_dec y (i + fst d)) as [-> |NE]; [destruct (Z.eq_dec x (j + snd d)) as [-> |NE]; [exact Pc|]|]; (rewrite Po; [exact Ty|exact Iy|congruence]). }
      assert (NEW : forall y x, is_true c nx ny y x -> is_true (g_clouds st) nx ny y x \/ (y, x) = (i + fst d, j + snd d)).
      { intros y x (Iy & Ty). destruct (Z.eq_dec y (i + fst d)) as [-> |NE]; [destruct (Z.eq_dec x (j + snd d)) as [-> |NE]; [auto|]|]; left; (split; [exact Iy|]; rewrite <- Ty; symmetry; apply Po; [exact Iy|congruence]). }
      apply (IH _ (l ++ [(j + snd d, i + fst d)])); cbn [g_rc g_clouds g_queue].
      * exact ID.
      * reflexivity.
      * exact Rq'.
      * exact Sq'.
      * split; [exact Lc'|]. split; [auto|]. intros y x T. destruct (NEW y x T) as [T'|E]; [auto|]. injection E as -> ->.
        apply (linked_step _ _ _ _ i j); [auto|exact AD|split; auto].
      * destruct LI as (ND & TR). split.
        -- rewrite app_assoc. apply snoc_nodup; auto. intros K. apply TR in K. destruct K as (_ & K). congruence.
        -- intros x y K. rewrite app_assoc in K. apply in_app_iff in K. destruct K as [K|[K|[]]]; [auto|]. injection K as <- <-. split; auto.
      * intros y x T NI NE. destruct (NEW y x T) as [T'|E].
        -- intros y' x' A C'. apply MONO. apply (CL y x T'); auto. intros K. apply NI. apply in_app_iff. now left.
        -- injection E as -> ->. exfalso. apply NI. apply in_app_iff. right. now left.
      * intros d' I'. apply NB. now right.
      * intros d' I'. destruct (DN d' I') as [[<-|K]|K]; [right; intros _; split; auto|auto|right; auto].
    + apply (IH st l); auto; [exact (conj SL (conj S0 S1))|intros d' I'; apply NB; now right|].
      intros d' I'. destruct (DN d' I') as [[<-|K]|K]; auto. right. intros (Iy & Ty). destruct (pix_some (g_clouds st) nx ny _ _ SL Iy) as (b & E). split; [exact Iy|].
      destruct b; [exact E|]. exfalso. assert (X : false = true) by (apply Hb; auto). discriminate.
Qed.

Lemma loop_ok : forall fuel st D l, growing st D l -> N < zlen D + Z.of_nat fuel ->
  exists st' D', grow_loop fuel cand nx ny st = Ret st' /\ growing st' D' [].
Proof using All.
  induction fuel as [|fuel IH]; intros st D l G F.
  - exfalso. destruct G as (_ & _ & _ & _ & LI & _). pose proof (listed_inside _ _ LI) as B. unfold zlen in *. rewrite app_length in B. lia.
  - cbn [grow_loop]. pose proof G as (ER & EQ & ES & SO & LI & CL). rewrite ER.
    destruct (dequeue_rep (g_queue st) l EQ) as (q' & -> & Sq' & Rq'). cbn [bind]. destruct l as [|(j, i) l]; cbn [tl] in *.
    + exists (mkG SUCCESS (g_clouds st) q'), D. split; [reflexivity|]. split; [reflexivity|]. split; [exact Rq'|]. split; [cbn [g_queue]; congruence|]. auto.
    + destruct (eight_ok i j (D ++ [(j, i)]) eight (mkG SUCCESS (g_clouds st) q') l) as (st' & l' & E' & G'); cbn [g_rc g_clouds g_queue]; auto.
      * apply in_app_iff. right. now left.
      * congruence.
      * now rewrite <- app_assoc.
      * intros y x T NI NE. apply CL; auto. intros [K|K]; [|auto]. injection K as -> ->. auto.
      * rewrite E'. cbn [bind]. apply (IH st' (D ++ [(j, i)]) l' G'). unfold zlen in *. rewrite app_length. cbn [length]. lia.
Qed.

Lemma grow_linked : exists out, grow_clouds clouds0 cand nx ny = Ret (SUCCESS, out) /\ zlen out = nx * ny /\
  forall y x, is_true out nx ny y x <-> linked clouds0 cand nx ny y x.
Proof using All.
  pose proof I0 as (NX & NY & L0 & _). destruct seeds_ok as (st & E & R & l & Ql & Sl & Nl & Hl). fold N in E.
  unfold grow_clouds. fold N. destruct (create_queue N) as [q| |]; cbn [bind] in *; [|discriminate|discriminate]. rewrite E. cbn [bind].
  assert (G : growing (mkG (fst st) clouds0 (snd st)) [] l).
  { split; [exact R|]. split; [exact Ql|]. split; [exact Sl|]. cbn [g_clouds]. split; [|split].
    - split; [exact L0|]. split; [auto|]. intros y x T. now apply linked_seed.
    - split; [exact Nl|]. intros x y K. apply Hl in K. tauto.
    - intros y x T NI y' x' A (I' & C'). split; [exact I'|]. destruct (pix_some clouds0 nx ny y' x' L0 I') as (b & Eb). destruct b; [exact Eb|].
      exfalso. apply NI. apply Hl. split; [apply cells_In; exact (proj1 T)|]. split; [exact T|]. exists y', x'. auto. }
  destruct (loop_ok (Z.to_nat (N + 1)) _ [] l G) as (st' & D' & E' & (ER & _ & _ & (SL & S0 & S1) & _ & CL)); [unfold zlen; cbn [length]; assert (1 <= N) by (unfold N; nia); lia|].
  rewrite E'. cbn [bind]. rewrite ER. exists (g_clouds st'). split; [reflexivity|]. split; [exact SL|]. intros y x. split; [apply S1|].
  intros K. induction K as [y x T|y x y' x' K IHK A C]; [auto|]. apply (CL y x IHK); auto.
Qed.
End Grow.

(** ** Back to the original resolution *)
Lemma quarter_In i j a b : In (a, b) (map (fun d => (2 * i + fst d, 2 * j + snd d)) [(0, 0); (0, 1); (1, 0); (1, 1)]) <-> a / 2 = i /\ b / 2 = j.
Proof.
  cbn [map fst snd In]. split.
  - intros [K|[K|[K|[K|[]]]]]; apply pair_equal_spec in K; destruct K as (<- & <-); split; Z.div_mod_to_equations; lia.
  - intros (<- & <-). assert (A : a mod 2 = 0 \/ a mod 2 = 1) by lia. assert (B : b mod 2 = 0 \/ b mod 2 = 1) by lia.
    destruct A, B; [left|right; left|right; right; left|right; right; right; left]; f_equal; lia.
Qed.

Lemma refine_ok clouds nx ny fx fy : 0 < nx -> 0 < ny -> zlen clouds = nx * ny -> 2 * nx <= fx -> 2 * ny <= fy ->
  exists out, refine clouds nx ny fx fy = Ret out /\ zlen out = fx * fy /\
  forall y x, inside fx fy y x -> (pix out fx y x = Some true <-> is_true clouds nx ny (y / 2) (x / 2)) .
Proof.
  intros NX NY L FX FY. unfold refine.
  destruct (ofold_inv (fun o ij => c <- of_option (get_at clouds (fst ij * nx + snd ij)) ;;
           if c then ofold (fun o d => of_option (set_at o ((2 * fst ij + fst d) * fx + (2 * snd ij + snd d)) true)) [(0, 0); (0, 1); (1, 0); (1, 1)] o
           else Ret o)
     (fun done o => zlen o = fx * fy /\ forall y x, inside fx fy y x -> (pix o fx y x = Some true <-> In (y / 2, x / 2) done /\ is_true clouds nx ny (y / 2) (x / 2)))
     (cells nx ny) [] (repeat false (Z.to_nat (fx * fy)))) as (out & E & LO & H).
  - assert (0 <= fx * fy) by nia. split; [now apply zlen_repeat|]. intros y x I. unfold pix. rewrite get_repeat by (now apply index_range). cbn [In]. split; [discriminate|tauto].
  - intros pre (i, j) post o EL (LO & HO). cbn [app fst snd] in *.
    assert (IC : inside nx ny i j) by (apply cells_In; rewrite EL; apply in_app_iff; right; now left).
    rewrite get_pix. destruct (pix_some clouds nx ny i j L IC) as (b & Eb). rewrite Eb. cbn [of_option bind]. destruct b.
    + destruct (ofold_inv (fun o d => of_option (set_at o ((2 * i + fst d) * fx + (2 * j + snd d)) true))
        (fun done o' => zlen o' = fx * fy /\ forall y x, inside fx fy y x -> (pix o' fx y x = Some true <-> pix o fx y x = Some true \/ In (y, x) (map (fun d => (2 * i + fst d, 2 * j + snd d)) done)))
        [(0, 0); (0, 1); (1, 0); (1, 1)] [] o) as (o' & E' & LO' & HO').
      * split; [exact LO|]. intros y x I. cbn [map In]. tauto.
      * intros pre' d post' o1 EL' (L1 & H1). cbn [app] in *.
        assert (Id : In d [(0, 0); (0, 1); (1, 0); (1, 1)]) by (rewrite EL'; apply in_app_iff; right; now left).
        assert (II : inside fx fy (2 * i + fst d) (2 * j + snd d)) by (unfold inside in *; cbn [In] in Id; destruct Id as [<-|[<-|[<-|[<-|[]]]]]; cbn [fst snd]; lia).
        destruct (set_pix o1 fx fy (2 * i + fst d) (2 * j + snd d) true L1 II) as (o2 & E2 & L2 & P2 & Q2). exists o2. rewrite E2. split; [reflexivity|]. split; [exact L2|].
        intros y x I. rewrite map_app, in_app_iff. cbn [map In].
        destruct (Z.eq_dec y (2 * i + fst d)) as [-> |NE]; [destruct (Z.eq_dec x (2 * j + snd d)) as [-> |NE]|].
        -- rewrite P2. split; auto.
        -- rewrite Q2, H1 by (auto; congruence). split; [tauto|]. intros [K|[K|[K|[]]]]; auto. congruence.
        -- rewrite Q2, H1 by (auto; congruence). split; [tauto|]. intros [K|[K|[K|[]]]]; auto. congruence.
      * exists o'. split; [exact E'|]. split; [exact LO'|]. intros y x I. rewrite HO', HO by auto. cbn [app]. rewrite quarter_In, in_app_iff. cbn [In].
        split; [intros [(K1 & K2)|(K1 & K2)]|intros ([K1|[K1|[]]] & K2)].
        -- auto.
        -- rewrite K1, K2. split; [auto|split; auto].
        -- auto.
        -- injection K1 as K1 K3. auto.
    + exists o. split; [reflexivity|]. split; [exact LO|]. intros y x I. rewrite HO, in_app_iff by auto. cbn [In]. split; [tauto|]. intros ([K1|[K1|[]]] & K2); [auto|].
      injection K1 as K1 K3. rewrite <- K1, <- K3 in K2. destruct K2 as (_ & K2). congruence.
  - exists out. split; [exact E|]. split; [exact LO|]. intros y x I. rewrite H by auto. cbn [app]. rewrite cells_In. split; [tauto|]. intros K. split; [exact (proj1 K)|exact K].
Qed.

(** ** To the coarse resolution *)
Lemma every_second_In n k : In k (every_second n) <-> 0 <= k < n /\ k mod 2 = 0.
Proof.
  unfold every_second. rewrite in_map_iff. split.
  - intros (m & <- & I). apply zupto_In in I. lia.
  - intros (A & B). exists (k / 2). split; [lia|]. apply zupto_In. lia.
Qed.
Lemma every_second_nodup n : NoDup (every_second n).
Proof. apply nodup_map_on; [intros; lia|]. apply zupto_nodup'. Qed.
Lemma fine_In nx ny i j : In (i, j) (fine_cells nx ny) <-> inside nx ny i j /\ i mod 2 = 0 /\ j mod 2 = 0.
Proof.
  unfold fine_cells, inside. rewrite in_flat_map. split.
  - intros (a & Ia & I). apply in_map_iff in I. destruct I as (b & E & Ib). injection E as -> ->. rewrite every_second_In in *. lia.
  - intros (A & B). exists i. rewrite every_second_In. split; [lia|]. apply in_map_iff. exists j. rewrite every_second_In. split; [auto|lia].
Qed.
Lemma reduce_even {A} (zero : A) f nx ny : 0 < nx -> 0 < ny -> nx mod 2 = 0 -> ny mod 2 = 0 ->
  exists out, reduce zero f nx ny = Ret out /\ zlen out = (nx / 2) * (ny / 2) /\
  forall y x, inside (nx / 2) (ny / 2) y x -> pix out (nx / 2) y x = Some (f (2 * y) (2 * x)).
Proof.
  intros NX NY EX EY. unfold reduce, write_coarse. set (w := nx / 2) in *. set (h := ny / 2) in *. assert (W : nx = 2 * w) by lia. assert (H : ny = 2 * h) by lia.
  destruct (ofold_inv (fun o (c : Z * Z * A) => of_option (set_at o (coarse_index nx (fst (fst c)) (snd (fst c))) (snd c)))
     (fun done o => zlen o = w * h /\ forall c, In c done -> pix o w (fst (fst c) / 2) (snd (fst c) / 2) = Some (snd c))
     (map (fun c => (c, f (fst c) (snd c))) (fine_cells nx ny)) [] (repeat zero (Z.to_nat (w * h)))) as (out & E & LO & HO).
  - split; [apply zlen_repeat; nia|]. intros c [].
  - intros pre ((i, j), v) post o EL (LO & HO). cbn [app fst snd] in *.
    assert (IN : forall c, In c (pre ++ (i, j, v) :: post) -> In (fst c) (fine_cells nx ny) /\ snd c = f (fst (fst c)) (snd (fst c))).
    { intros c I. rewrite <- EL in I. apply in_map_iff in I. destruct I as (p & <- & Ip). auto. }
    destruct (IN (i, j, v)) as (I1 & _); [apply in_app_iff; right; now left|]. cbn [fst snd] in I1. apply fine_In in I1. destruct I1 as ((Ii & Ij) & I2 & I3).
    assert (II : inside w h (i / 2) (j / 2)) by (unfold inside; lia).
    destruct (set_pix o w h (i / 2) (j / 2) v LO II) as (o' & E' & L' & P' & Q'). exists o'.
    unfold coarse_index. fold w. rewrite E'. split; [reflexivity|]. split; [exact L'|]. intros c I. apply in_app_iff in I. destruct I as [I|[<-|[]]]; [|exact P'].
    destruct c as ((a, b), u). cbn [fst snd]. destruct (IN (a, b, u)) as (J1 & J2); [apply in_app_iff; now left|]. cbn [fst snd] in J1, J2. apply fine_In in J1. destruct J1 as ((Ja & Jb) & J3 & J4).
    destruct (Z.eq_dec a i) as [-> |NE]; [destruct (Z.eq_dec b j) as [-> |NE]|].
    + rewrite P'. f_equal. destruct (IN (i, j, v)) as (_ & J5); [apply in_app_iff; right; now left|]. cbn [fst snd] in J5. congruence.
    + rewrite Q'; [exact (HO (i, b, u) I)|unfold inside; lia|]. intros K. injection K as K. lia.
    + rewrite Q'; [exact (HO (a, b, u) I)|unfold inside; lia|]. intros K. injection K as K1 K2. lia.
  - exists out. split; [exact E|]. split; [exact LO|]. intros y x (Iy & Ix). cbn [app] in HO.
    assert (IC : In ((2 * y, 2 * x), f (2 * y) (2 * x)) (map (fun c => (c, f (fst c) (snd c))) (fine_cells nx ny))).
    { apply in_map_iff. exists (2 * y, 2 * x). split; [reflexivity|]. apply fine_In. unfold inside. lia. }
    specialize (HO _ IC). cbn [fst snd] in HO. replace (2 * y / 2) with y in HO by lia. replace (2 * x / 2) with x in HO by lia. exact HO.
Qed.
