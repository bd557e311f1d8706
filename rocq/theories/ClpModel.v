(** Cloud probability of Landsat images.  Model of land_probability,
    water_probability and cloud_probability, src/modules/lower-level/cloud-ll.c:411-713,
    and of quantile, src/modules/cross-level/stats-cl.c:669-677.  The masks of
    potential_cloud are input.  GSL's sort and quantile follow its documentation, with
    exact arithmetic; floats of the code itself are rounded.  The final majorfill_
    is in MajorModel.v. *)
From Coq Require Import Reals.
From Flocq Require Import Core.
From Verif Require Import Base RoundModel.
#[local] Open Scope Z_scope.

(** What is known of a pixel: flags of QAI, masks, values. *)
Record px := mkPx { x_off : bool; x_water : bool; x_sat : bool; x_pcp : bool; x_clr : bool; x_lnd : bool; x_brt : bool;
                    x_temp : Z; x_sw1 : Z; x_sw2 : Z; x_var : Z }.
Definition Rlt' (a b : R) : bool := if Rlt_dec a b then true else false.

(** gsl_sort. *)
Fixpoint insert (v : R) (l : list R) : list R := match l with [] => [v] | w :: t => if Rle_dec v w then v :: l else w :: insert v t end.
Definition sort (l : list R) : list R := fold_right insert [] l.
(** gsl_stats_quantile_from_sorted_data: 0 without data. *)
Definition sorted_quantile (s : list R) (f : R) : R :=
  match s with
  | [] => 0%R
  | _ => let n := zlen s in let index := (f * IZR (n - 1))%R in let lhs := Zfloor index in let delta := (index - IZR lhs)%R in
      if lhs =? n - 1 then nth (Z.to_nat lhs) s 0%R else ((1 - delta) * nth (Z.to_nat lhs) s 0 + delta * nth (Z.to_nat (lhs + 1)) s 0)%R
  end.
Definition quantile (l : list R) (f : R) : R := rnd32 (sorted_quantile (sort l) f).
(** float lo = 0.175, hi = 0.825: 430, 530. *)
Definition lo : R := rnd32 (175 / 1000).
Definition hi : R := rnd32 (825 / 1000).

Definition count (f : px -> bool) (img : list px) : Z := zlen (filter f img).
Definition temps (f : px -> bool) (img : list px) : list R := map (fun p => IZR (x_temp p)) (filter f img).
(** land_probability: 427-512.  (100.0*nland/(float)npix) >= 0.1 is compared exactly. *)
Definition base (npix : Z) (img : list px) : list R := if 1000 * count x_lnd img >=? npix then temps x_lnd img else temps x_clr img.
Definition lowtemp (npix : Z) (img : list px) : R := quantile (base npix img) lo.
Definition hightemp (npix : Z) (img : list px) : R := quantile (base npix img) hi.
(** 472-473, 479-487. *)
Definition a_of (h : R) : R := rnd32 (rnd64 (h + 400)).
Definition b_of (l h : R) : R := rnd32 (rnd64 (rnd64 (rnd64 (h + 400) - l) + 400)).
Definition landprob (l h : R) (p : px) : R :=
  if x_off p then 0%R
  else let t := fdiv (fsub (a_of h) (IZR (x_temp p))) (b_of l h) in
       let t := if Rlt' t 0 then 0%R else t in rnd32 (rnd64 (t * rnd64 (IZR (x_var p) / 10000))).
Definition lclr_max (npix : Z) (cldprob : R) (img : list px) : R :=
  fadd (quantile (map (landprob (lowtemp npix img) (hightemp npix img)) (filter x_lnd img)) hi) cldprob.
(** water_probability: 525-607. *)
Definition clear_water (p : px) : bool := x_water p && (x_sw2 p <=? 300).
Definition wtrtemp (img : list px) : R := quantile (temps clear_water img) hi.
Definition waterprob (img : list px) (p : px) : R :=
  if count clear_water img >? 0 then
    if x_off p then 0%R
    else let t := rnd32 (rnd64 (fsub (wtrtemp img) (IZR (x_temp p)) / 400)) in
         let b := rnd32 (rnd64 (IZR (x_sw1 p) / 1100)) in let b := if Rlt' 1 b then 1%R else b in fmul t b
  else 0%R.
Definition wclr_max (cldprob : R) (img : list px) : R :=
  if count clear_water img >? 0 then fadd (quantile (map (waterprob img) (filter clear_water img)) hi) cldprob else 1%R.
(** 681-687. *)
Definition cloud (npix : Z) (cldprob : R) (img : list px) (p : px) : bool :=
  let l := lowtemp npix img in let h := hightemp npix img in
  (x_pcp p && negb (x_water p) && Rlt' (lclr_max npix cldprob img) (landprob l h p) ||
   x_pcp p && x_water p && Rlt' (wclr_max cldprob img) (waterprob img p) ||
   Rlt' (IZR (x_temp p)) (fsub l 3500) || x_sat p) && x_brt p.
(** cloud_probability up to majorfill_: 645-690.  [team]: threads that OpenMP delivers for the region that asks for 2 (it may be fewer);
    with one, the water part is never computed and its uninitialised threshold and null array are used. *)
Definition cloud_mask (nthread team npix : Z) (cldprob : R) (img : list px) : outcome (list bool) :=
  if (nthread =? 1) || (team >=? 2) then Ret (map (cloud npix cldprob img) img) else UB.
