(** Model of src/modules/higher-level/texture-hl.c:180-290.  The morphological
    operations of OpenCV follow their documentation: minimum and maximum over the
    structuring element, pixels outside of the image are left out; opening with n
    iterations is n erosions followed by n dilations; differences saturate. *)
From Verif Require Import Base Loops.

(** An image is the list of its nx*ny pixels, row by row; [K] are the offsets of the structuring element. *)
Definition sat_short (x : Z) : Z := Z.max (-32768) (Z.min 32767 x).
Definition around (K : list (Z * Z)) (nx ny p : Z) : list Z :=
  map (fun d => (p / nx + fst d) * nx + (p mod nx + snd d))
    (filter (fun d => (0 <=? p / nx + fst d) && (p / nx + fst d <? ny) && (0 <=? p mod nx + snd d) && (p mod nx + snd d <? nx)) K).
Definition pix (img : list Z) (p : Z) : Z := match get_at img p with Some v => v | None => 0 end.
Definition morph (op : Z -> Z -> Z) (K : list (Z * Z)) (nx ny : Z) (img : list Z) : list Z :=
  map (fun p => fold_left (fun m q => op m (pix img q)) (around K nx ny p) (pix img p)) (zupto (nx * ny)).
Definition erode := morph Z.min.
Definition dilate := morph Z.max.
Definition times {A} (n : Z) (f : A -> A) (x : A) : A := Nat.iter (Z.to_nat n) f x.
Definition diff (a b : list Z) : list Z := map (fun xy => sat_short (fst xy - snd xy)) (combine a b).

(** The products: 236-242. *)
Inductive product := ERO | DIL | OPN | CLS | GRD | THT | BHT.
Definition operation (m : product) (K : list (Z * Z)) (iter nx ny : Z) (img : list Z) : list Z :=
  let e := times iter (erode K nx ny) in
  let d := times iter (dilate K nx ny) in
  match m with
  | ERO => e img
  | DIL => d img
  | OPN => d (e img)
  | CLS => e (d img)
  | GRD => diff (d img) (e img)
  | THT => diff img (d (e img))
  | BHT => diff (e (d img)) img
  end.
(** 244-270: [msk] is the quality mask of the feature; it is false where the feature is nodata
    and outside of the processing mask (quality-hl.c:81-140); the mask itself is not looked at. *)
Definition texture (m : product) (K : list (Z * Z)) (iter nx ny : Z) (exclude : bool) (nodata : Z) (msk : list bool) (img : list Z) : list Z :=
  map (fun mv => if negb (fst mv) && exclude then nodata else snd mv) (combine msk (operation m K iter nx ny img)).
(** getStructuringElement(MORPH_ELLIPSE): rows of half-width cvRound(r*sqrt(1-dy^2/r^2)); the
    half-width is the integer closest to the root. *)
Definition half_width (r dy : Z) : Z :=
  let q := r * r - dy * dy in
  let s := Z.sqrt q in
  if s * s + s <? q then s + 1 else s.
Definition ellipse (r : Z) : list (Z * Z) :=
  flat_map (fun dy => map (fun dx => (dy, dx)) (zrange (- half_width r dy) (half_width r dy))) (zrange (- r) r).
(** param-hl.c:1096-1098: the overlap read around a chunk, in pixels. *)
Definition overlap (r iter : Z) : Z := r * iter.
