(** Specification of Level 2 output. *)
From Coq Require Import Reals.
From Verif Require Import Base QaiModel QaiSpec CubeModel CubeSpec L2tModel.
#[local] Open Scope Z_scope.

(** A product whose bands are images of its size. *)
Definition well_formed (p : product) : Prop := 0 < pr_nx p /\ 0 < pr_ny p /\ 0 < pr_res p /\ Forall (fun b => zlen (fst b) = pr_nx p * pr_ny p) (pr_bands p).
(** The pixel grid of a product at (ulx, uly) is that of the tiles, and a tile holds whole pixels. *)
Definition aligned (c : cube) (ulx uly : Z) (p : product) : Prop :=
  on_grid (ox c) (pr_res p) ulx /\ on_grid (oy c) (pr_res p) uly /\ (pr_res p | size_x c) /\ (pr_res p | size_y c).
Definition whole_pixels (c : cube) : Prop := cube_ok c /\ (res c | size_x c) /\ (res c | size_y c).
(** Pixel (i,j) of an image of nx columns with upper left (ulx, uly) has its upper left corner at (x,y). *)
Definition pixel_at (ulx uly r i j x y : Z) : Prop := x = ulx + j * r /\ y = uly - i * r.
Definition in_image (nx ny i j : Z) : Prop := 0 <= i < ny /\ 0 <= j < nx.
(** A band [tb] of a tile of nx' columns at (left, top) shows the band of the product at (ulx, uly):
    the same values at the same place, nodata elsewhere. *)
Definition shows (ulx uly left top : Z) (p : product) (band : list Z) (nodata nx' ny' : Z) (tb : list Z) : Prop :=
  zlen tb = nx' * ny' /\
  forall i j, in_image nx' ny' i j -> exists v, get_at tb (i * nx' + j) = Some v /\
    (forall i' j' x y, in_image (pr_nx p) (pr_ny p) i' j' -> pixel_at left top (pr_res p) i j x y -> pixel_at ulx uly (pr_res p) i' j' x y -> get_at band (i' * pr_nx p + j') = Some v) /\
    ((forall i' j' x y, in_image (pr_nx p) (pr_ny p) i' j' -> pixel_at left top (pr_res p) i j x y -> ~ pixel_at ulx uly (pr_res p) i' j' x y) -> v = nodata).

(** Numbers of valid and of cloudy pixels of a quality band. *)
Definition count_words (P : Z -> Prop) (l : list Z) (n : Z) : Prop := exists f, (forall w, f w = true <-> P w) /\ n = zlen (filter f l).
Definition valid (w : Z) : Prop := flag_value Off w = 0.
Definition cloudy (w : Z) : Prop := flag_value Off w = 0 /\ (0 < flag_value Cloud w \/ flag_value Shadow w = 1).

(** The colours of the quicklook. *)
Inductive shown (w : Z) : colour -> (Z * Z * Z) -> Prop :=
| sh_off rgb : applies S_OFF w -> shown w (mkColour 0 0 0) rgb
| sh_cirrus rgb : ~ applies S_OFF w -> applies S_CLD_CIR w -> shown w (mkColour 255 0 0) rgb
| sh_cloud rgb : ~ applies S_OFF w -> applies S_CLD_OPQ w \/ applies S_CLD_UNC w -> shown w (mkColour 255 0 255) rgb
| sh_shadow rgb : ~ applies S_OFF w -> flag_value Cloud w = 0 -> applies S_SHD w -> shown w (mkColour 0 255 255) rgb
| sh_snow rgb : ~ applies S_OFF w -> flag_value Cloud w = 0 -> ~ applies S_SHD w -> applies S_SNW w -> shown w (mkColour 255 255 0) rgb
| sh_sat rgb : ~ applies S_OFF w -> flag_value Cloud w = 0 -> ~ applies S_SHD w -> ~ applies S_SNW w -> applies S_SAT w -> shown w (mkColour 255 127 39) rgb
| sh_sub rgb : ~ applies S_OFF w -> flag_value Cloud w = 0 -> ~ applies S_SHD w -> ~ applies S_SNW w -> ~ applies S_SAT w -> applies S_SUB w -> shown w (mkColour 34 177 76) rgb
| sh_rgb r g b r' g' b' : ~ applies S_OFF w -> flag_value Cloud w = 0 -> ~ applies S_SHD w -> ~ applies S_SNW w -> ~ applies S_SAT w -> ~ applies S_SUB w ->
    (forall v v', In (v, v') [(r, r'); (g, g'); (b, b')] -> Z.abs (v' - Z.max 0 (Z.min 2500 v) * 255 / 2500) <= 1 /\ 0 <= v' <= 255) -> shown w (mkColour r' g' b') (r, g, b).
(** The word that the bands of an inflated pixel stand for. *)
Definition compose (bands : list (flag * Z)) : Z := fold_right (fun fv s => snd fv * 2 ^ fst (layout (fst fv)) + s) 0 bands.
(** The flags in the documented order of their bits. *)
Definition documented_flags : list flag := [Off; Cloud; Shadow; Snow; Water; Aerosol; Subzero; Saturation; Lowsun; Illumination; Slope; Vaporfill].
