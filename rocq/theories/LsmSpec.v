(** Specification of the landscape metrics of a pixel.  [fg]: foreground after the
    removal of small patches, [lab]: patch numbers, [dat]: data; all row by row. *)
From Coq Require Import Reals.
From Verif Require Import Base Loops ImgSpec StatsSpec LsmModel.
#[local] Open Scope Z_scope.

Definition val (l : list Z) (q : Z) : Z := match get_at l q with Some v => v | None => 0 end.
Definition on (l : list bool) (q : Z) : bool := match get_at l q with Some b => b | None => false end.

(** Legal inputs. *)
Record legal (pa : params) (ft : feature) : Prop := mkLegal {
  lg_nx : 0 < f_nx ft; lg_ny : 0 < f_ny ft; lg_int : f_nx ft * f_ny ft <= 2147483647; lg_radius : 0 <= l_radius pa;
  lg_dat : zlen (f_dat ft) = f_nx ft * f_ny ft; lg_short : Forall in_short (f_dat ft);
  lg_msk : zlen (f_msk ft) = f_nx ft * f_ny ft;
  lg_mask : forall m, f_mask ft = Some m -> zlen m = f_nx ft * f_ny ft }.

(** Pixel [q] lies within the processing mask and is not excluded as nodata. *)
Definition selected (pa : params) (ft : feature) (q : Z) : Prop :=
  (forall m, f_mask ft = Some m -> on m q = true) /\ (l_exclude pa = true -> on (f_msk ft) q = true).
(** The foreground class. *)
Definition in_class (pa : params) (v : Z) : Prop :=
  match l_query pa with
  | QEQ => v = l_threshold pa | QGT => v > l_threshold pa | QGE => v >= l_threshold pa
  | QLT => v < l_threshold pa | QLE => v <= l_threshold pa
  end.

(** The kernel around pixel [p]: a square, or the disc in it. *)
Definition dist (a b : Z) : Z := Z.abs (a - b).
Definition in_square (r nx p q : Z) : bool := (dist (q / nx) (p / nx) <=? r) && (dist (q mod nx) (p mod nx) <=? r).
Definition in_kernel (r : Z) (circle : bool) (nx p q : Z) : bool :=
  in_square r nx p q &&
  (negb circle || (dist (q / nx) (p / nx) * dist (q / nx) (p / nx) + dist (q mod nx) (p mod nx) * dist (q mod nx) (p mod nx) <=? r * r)).
(** Its foreground pixels. *)
Definition members (r : Z) (circle : bool) (nx : Z) (fg : list bool) (p : Z) : list Z :=
  filter (fun q => in_kernel r circle nx p q && on fg q) (zupto (zlen fg)).
(** Sides of pixel [q] towards background pixels of the image within the square. *)
Definition sides (r nx ny : Z) (fg : list bool) (p q : Z) : Z :=
  zlen (filter (fun d : Z * Z => let y := q / nx + fst d in let x := q mod nx + snd d in
      (0 <=? y) && (y <? ny) && (0 <=? x) && (x <? nx) && in_square r nx p (y * nx + x) && negb (on fg (y * nx + x)))
    [(1, 0); (-1, 0); (0, 1); (0, -1)]).

Definition same (lab : list Z) (ms : list Z) (c : Z) : list Z := filter (fun q => val lab q =? c) ms.
Definition patch_area (lab ms : list Z) (c : Z) : R := size (same lab ms c).
Definition patch_perimeter (r nx ny : Z) (fg : list bool) (lab ms : list Z) (p c : Z) : R := sum (fun q => IZR (sides r nx ny fg p q)) (same lab ms c).
Definition values (nodata : Z) (dat ms : list Z) : list Z := filter (fun v => negb (v =? nodata)) (map (val dat) ms).
Definition positives (dat ms : list Z) : list Z := filter (fun v => v >? 0) (map (val dat) ms).

(** The integer part (towards 0). *)
Definition whole (x : R) (v : Z) : Prop := ((0 <= x -> IZR v <= x < IZR v + 1) /\ (x < 0 -> IZR v - 1 < x <= IZR v))%R.

(** [ls]: the patches present, each once. *)
Definition patches (lab ms ls : list Z) : Prop := NoDup ls /\ forall c, In c ls <-> exists q, In q ms /\ val lab q = c.
Definition large (lab ms : list Z) (c : Z) : bool := negb (zlen (same lab ms c) =? 1).

(** Mean fractal dimension of the patches with more than one pixel, weighted by area. *)
Definition fractal (a p : R) : R := (2 * ln (p / 4) / ln a)%R.
Definition mean_fractal (r nx ny : Z) (fg : list bool) (lab ms : list Z) (p : Z) (ls : list Z) : R :=
  let big := filter (large lab ms) ls in
  (sum (fun c => patch_area lab ms c * fractal (patch_area lab ms c) (patch_perimeter r nx ny fg lab ms p c)) big / sum (patch_area lab ms) big)%R.

(** What value [v] of metric [m] at pixel [p] means. *)
Definition describes (pa : params) (ft : feature) (fg : list bool) (lab : list Z) (p : Z) (m : lsm_metric) (v : Z) : Prop :=
  let r := l_radius pa in
  let nx := f_nx ft in
  let ms := members r (l_circle pa) nx fg p in
  let k := IZR (ksize r) in
  let vs := values (f_nodata ft) (f_dat ft) ms in
  match m with
  | UCI => v = val lab p
  | ARE => v = Z.min (zlen vs) 32767
  | LMAX => 0 <= v /\ (forall x, In x vs -> x <= v) /\ (v = 0 \/ In v vs)
  | LAVG => (vs = [] -> v = 0) /\ (vs <> [] -> whole (mean (map IZR vs)) v)
  | LSTD => (vs = [] -> v = 0) /\ (vs <> [] -> whole (sqrt (dev 2 (map IZR vs) / (size vs - 1))) v)
  | GEO => whole (exp (mean (map (fun x => ln (IZR x)) (positives (f_dat ft) ms)))) v
  | MPA => (ms = [] -> v = 0) /\ (ms <> [] -> whole (10000 * mean (map (fun q => patch_area lab ms (val lab q) / k)%R ms)) v)
  | EDD => whole (10000 * (sum (fun q => IZR (sides r nx (f_ny ft) fg p q)) ms / k)) v
  | NBR => exists ls, patches lab ms ls /\ v = zlen ls
  | EMS => whole (10000 * (size ms / k * (size ms / k))) v
  | FDI => (ms = [] -> v = 0) /\ (ms <> [] -> exists ls, patches lab ms ls /\ whole (10000 * mean_fractal r nx (f_ny ft) fg lab ms p ls) v)
  end.

(** When the metric exists and fits into 16 bits. *)
Definition has_metric (pa : params) (ft : feature) (fg : list bool) (lab : list Z) (p : Z) (m : lsm_metric) : Prop :=
  let r := l_radius pa in
  let nx := f_nx ft in
  let ms := members r (l_circle pa) nx fg p in
  let vs := values (f_nodata ft) (f_dat ft) ms in
  match m with
  | UCI => val lab p <= 32767
  | NBR => ksize r <= 32767
  | GEO => positives (f_dat ft) ms <> []
  | LSTD => length vs <> 1%nat /\ (sqrt (dev 2 (map IZR vs) / (size vs - 1)) < 32768)%R
  | FDI => ms = [] \/ (exists q, In q ms /\ large lab ms (val lab q) = true) /\
             forall q, In q ms -> large lab ms (val lab q) = true -> (4 <= patch_perimeter r nx (f_ny ft) fg lab ms p (val lab q))%R
  | _ => True
  end.

(** The result of the segmentation: foreground pixels are selected pixels of the
    class and carry the number of their patch, all others 0. *)
Record segmented (pa : params) (ft : feature) (fg : list bool) (lab : list Z) (nobj : Z) : Prop := mkSeg {
  sg_n : 0 < nobj; sg_fg : zlen fg = f_nx ft * f_ny ft; sg_lab : zlen lab = f_nx ft * f_ny ft;
  sg_class : forall q, on fg q = true -> selected pa ft q /\ in_class pa (val (f_dat ft) q);
  sg_patch : forall q, on fg q = true -> 1 <= val lab q <= nobj;
  sg_rest : forall q, on fg q = false -> val lab q = 0 }.
(** Metrics are computed for this pixel. *)
Definition wanted (pa : params) (ft : feature) (fg : list bool) (p : Z) : Prop := selected pa ft p /\ (on fg p = true \/ l_allpx pa = true).
(** Values that some metrics can have. *)
Definition in_range (m : lsm_metric) (v : Z) : Prop :=
  match m with
  | MPA | EMS => 0 <= v <= 10000
  | EDD => 0 <= v <= 20000
  | LMAX | ARE | NBR => 0 <= v <= 32767
  | _ => True
  end.
(** Effective mesh size: the sum of the squared shares of the patches. *)
Definition mesh (r : Z) (lab ms ls : list Z) : R := sum (fun c => (patch_area lab ms c / IZR (ksize r)) ^ 2)%R ls.
