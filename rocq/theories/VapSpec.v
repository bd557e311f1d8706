(** What is asked of the water vapour map. *)
From Coq Require Import Reals.
From Verif Require Import Base RoundModel StatsSpec VapModel.
#[local] Open Scope Z_scope.

Definition at_pixel {A} (l : list A) (nx : Z) (q : Z * Z) (v : A) : Prop := get_at l (fst q * nx + snd q) = Some v.
(** The image has whole blocks of 6 x 6 pixels, and a value for every pixel. *)
Definition whole_blocks (g : img) : Prop := 0 <= i_nx g /\ 0 <= i_ny g /\ i_nx g mod 6 = 0 /\ i_ny g mod 6 = 0 /\
  let n := i_nx g * i_ny g in zlen (i_off g) = n /\ zlen (i_shadow g) = n /\ zlen (i_water g) = n /\ zlen (i_ref g) = n /\ zlen (i_meas g) = n /\ zlen (i_dem g) = n.
Definition in_image (g : img) (q : Z * Z) : Prop := 0 <= fst q < i_ny g /\ 0 <= snd q < i_nx g.
(** The block of a pixel, by its first pixel. *)
Definition block_of (q : Z * Z) : Z * Z := (6 * (fst q / 6), 6 * (snd q / 6)).
Definition is_block (g : img) (b : Z * Z) : Prop := in_image g b /\ fst b mod 6 = 0 /\ snd b mod 6 = 0.
(** Pixels that are used: valid, no shadow, no water, bright. *)
Definition used (g : img) (b q : Z * Z) (t e : Z) : Prop := in_image g q /\ block_of q = b /\
  at_pixel (i_off g) (i_nx g) q false /\ at_pixel (i_shadow g) (i_nx g) q false /\ at_pixel (i_water g) (i_nx g) q false /\
  at_pixel (i_ref g) (i_nx g) q t /\ 1500 <= t /\ at_pixel (i_dem g) (i_nx g) q e.
(** All used pixels of a block with reflectance and elevation class, each once. *)
Definition used_list (g : img) (b : Z * Z) (l : list (Z * Z * (Z * Z))) : Prop := NoDup (map fst l) /\ forall q t e, In (q, (t, e)) l <-> used g b q t e.
Definition zsum (l : list Z) : Z := fold_right Z.add 0 l.
(** The elevation class nearest to the mean of the used pixels. *)
Definition nearest (l : list (Z * Z * (Z * Z))) (z : Z) : Prop := 2 * zlen l * z <= 2 * zsum (map (fun x => snd (snd x)) l) + zlen l < 2 * zlen l * (z + 1).
(** Estimate of a block for one start of the minimiser: none without used pixels or view angle or outside of 0..7. *)
Definition estimate_is (opt : R -> R -> Z -> Z -> Z * Z -> R) (seen : Z * Z -> bool) (g : img) (start : R) (b : Z * Z) (r : option R) : Prop :=
  exists l, used_list g b l /\
    match r with
    | None => l = [] \/ seen b = false \/ exists m z, at_pixel (i_meas g) (i_nx g) b m /\ nearest l z /\ let e := rnd32 (opt start (mean (map (fun x => IZR (fst (snd x)) / 10000)%R l)) m z b) in (7 < e \/ e <= 0)%R
    | Some e => l <> [] /\ seen b = true /\ (0 < e <= 7)%R /\ exists m z, at_pixel (i_meas g) (i_nx g) b m /\
        e = rnd32 (opt start (mean (map (fun x => IZR (fst (snd x)) / 10000)%R l)) m z b) /\ nearest l z
    end.
(** Water vapour in thousandths. *)
Definition milli (e : R) (v : Z) : Prop := exists x, x = rnd32 (e * 1000) /\ (IZR v <= x < IZR (v + 1))%R.
(** The estimates of a scene, given for each block. *)
Definition estimates (rec : list (Z * Z * option R)) : list R := flat_map (fun x => match snd x with Some e => [e] | None => [] end) rec.
(** The blocks as distributed to threads: each block of the image once. *)
Definition shares (g : img) (ts : list (list (Z * Z))) : Prop := NoDup (concat ts) /\ forall b, In b (concat ts) <-> is_block g b.
