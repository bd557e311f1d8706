From Coq Require Import Lia.
From Verif Require Import Base BaseFacts ImgSpec.
#[local] Open Scope Z_scope.

Lemma index_range nx ny y x : inside nx ny y x -> 0 <= nx * y + x < nx * ny.
Proof. unfold inside. nia. Qed.

Lemma index_inj nx ny y x y' x' : inside nx ny y x -> inside nx ny y' x' -> nx * y + x = nx * y' + x' -> y = y' /\ x = x'.
Proof. unfold inside. intros A B H. assert (y = y') by nia. subst. lia. Qed.

Lemma index_split nx ny p : 0 < nx -> 0 <= p < nx * ny -> inside nx ny (p / nx) (p mod nx) /\ nx * (p / nx) + p mod nx = p.
Proof.
  intros H Hp. pose proof (Z.mod_pos_bound p nx H). pose proof (Z.div_mod p nx ltac:(lia)). unfold inside. nia.
Qed.

Lemma pix_some {A} (img : list A) nx ny y x : zlen img = nx * ny -> inside nx ny y x -> exists v, pix img nx y x = Some v.
Proof. intros L H. apply get_at_some. rewrite L. now apply index_range. Qed.

Lemma pix_set {A} (img img' : list A) nx ny y x v y' x' : inside nx ny y x -> inside nx ny y' x' ->
  set_at img (nx * y + x) v = Some img' ->
  pix img' nx y' x' = if Z.eq_dec y y' then if Z.eq_dec x x' then Some v else pix img nx y' x' else pix img nx y' x'.
Proof.
  intros H H' E. unfold pix. destruct (Z.eq_dec (nx * y + x) (nx * y' + x')) as [Q|Q].
  - destruct (index_inj _ _ _ _ _ _ H H' Q) as (-> & ->). destruct (Z.eq_dec y' y'); [|tauto]. destruct (Z.eq_dec x' x'); [|tauto].
    now apply (get_set_same img).
  - rewrite (get_set_other img img' _ _ v E Q). destruct (Z.eq_dec y y') as [->|]; auto. destruct (Z.eq_dec x x') as [->|]; auto. tauto.
Qed.

(** Access by row and column. *)
Lemma set_pix {A} (img : list A) nx ny y x v : zlen img = nx * ny -> inside nx ny y x ->
  exists img', set_at img (y * nx + x) v = Some img' /\ zlen img' = nx * ny /\
    pix img' nx y x = Some v /\
    forall y' x', inside nx ny y' x' -> (y', x') <> (y, x) -> pix img' nx y' x' = pix img nx y' x'.
Proof.
  intros L I. replace (y * nx + x) with (nx * y + x) by ring.
  assert (E : set_at img (nx * y + x) v = Some (list_set img (Z.to_nat (nx * y + x)) v)) by (apply set_at_some; rewrite L; now apply index_range).
  eexists; split; [exact E|]. split; [rewrite (set_at_length _ _ _ _ E); exact L|]. split.
  - rewrite (pix_set _ _ nx ny _ _ _ _ _ I I E). destruct (Z.eq_dec y y); [|tauto]. destruct (Z.eq_dec x x); tauto.
  - intros y' x' I' N. rewrite (pix_set _ _ nx ny _ _ _ _ _ I I' E). destruct (Z.eq_dec y y') as [->|]; [|reflexivity].
    destruct (Z.eq_dec x x') as [->|]; [tauto|reflexivity].
Qed.

Lemma get_pix {A} (img : list A) nx y x : get_at img (y * nx + x) = pix img nx y x.
Proof. unfold pix. f_equal. ring. Qed.
