(** Spectral indices: src/modules/higher-level/index-compute-hl.c (all but the
    unmixing 495-851), with the index definitions misc/runtime-data/indices.json. *)
From Coq Require Import Reals.
From Flocq Require Import Core.
From Verif Require Import Base Loops CStr StringModel AggModel RoundModel.
#[local] Open Scope Z_scope.

(** ** One value.  The results are None for nodata. *)
Definition to_value (x : R) : outcome (option Z) := v <- short_of_real (Some x) ;; Ret (Some v).

(** index_differenced: 103-139.  For a sum of zero the quotient is not used. *)
Definition differenced (b1 b2 : Z) : outcome (option Z) :=
  let tmp := IZR (b1 + b2) in
  if b1 + b2 =? 0 then Ret None
  else
    let ind := fdiv (IZR (b1 - b2)) tmp in
    if Rlt_dec ind (-1) then Ret None else if Rlt_dec 1 ind then Ret None
    else to_value (fmul ind 10000).

(** index_cont_remove: 158-195. *)
Definition cont_remove (w_ w1 w2 : R) (b_ b1 b2 : Z) : outcome (option Z) :=
  let tmp := fdiv (fadd (fmul (IZR b1) (fsub w2 w_)) (fmul (IZR b2) (fsub w_ w1))) (fsub w2 w1) in
  to_value (fsub (IZR b_) tmp).

(** index_ratio_minus1: 210-245; 1.0 is a double. *)
Definition ratio_minus1 (b1 b2 : Z) : outcome (option Z) :=
  if b2 =? 0 then Ret None
  else
    let ind := rnd32 (rnd64 (fdiv (IZR b1) (IZR b2) - 1)) in
    if Rlt_dec 32767 (fmul ind 1000) then Ret None else if Rlt_dec (fmul ind 1000) (-32768) then Ret None
    else to_value (fmul ind 1000).

(** index_msrre: 260-301.  The root of a negative number is NaN, which passes the
    tests and is converted. *)
Definition msrre (b1 b2 : Z) : outcome (option Z) :=
  if b2 =? 0 then Ret None
  else
    let q := fdiv (IZR b1) (IZR b2) in
    let upper := rnd32 (rnd64 (q - 1)) in
    let sq := rnd64 (q + 1) in
    if Rlt_dec sq 0 then UB
    else
      let lower := rnd32 (rnd64 (sqrt sq)) in
      if Req_EM_T lower 0 then Ret None
      else
        let ind := fdiv upper lower in
        if Rlt_dec 32767 (fmul ind 10000) then Ret None else if Rlt_dec (fmul ind 10000) (-32768) then Ret None
        else to_value (fmul ind 10000).

(** index_kernelized: 315-351.  exp (libm) is taken to be correctly rounded. *)
Definition kernelized (b1 b2 : Z) : outcome (option Z) :=
  if (b1 <=? 0) || (b2 <=? 0) then Ret None
  else
    let sigma := rnd32 (rnd64 (1 / 2 * IZR (b1 + b2))) in
    let diff := IZR (b1 - b2) in
    let tmp := rnd32 (rnd64 (exp (fdiv (- fmul diff diff) (fmul (fmul 2 sigma) sigma)))) in
    let ind := fdiv (fsub 1 tmp) (fadd 1 tmp) in
    to_value (fmul ind 10000).

(** index_resistance: 374-416. *)
Definition resistance (f1 f2 f3 f4 : R) (rbc : bool) (n r b : Z) : outcome (option Z) :=
  let x := if rbc then 1%R else 0%R in
  let nir := IZR n in let red := IZR r in let blue := IZR b in
  let red := fsub red (fmul x (fsub blue red)) in
  let tmp := fadd (fsub (fadd nir (fmul f2 red)) (fmul f3 blue)) (fmul f4 10000) in
  if Req_EM_T tmp 0 then Ret None
  else to_value (fmul (fdiv (fmul f1 (fsub nir red)) tmp) 10000).

(** index_tasseled: 436-479.  Coefficients are float constants. *)
Inductive component := TCB | TCG | TCW | TCD.
Definition coefficients (c : component) : list R :=
  map (fun k => rnd32 (IZR k / 10000))
    match c with
    | TCB => [2043; 4158; 5524; 5741; 3124; 2303]
    | TCG => [-1603; -2819; -4934; 7940; -2; -1446]
    | _ => [315; 2021; 3102; 1594; -6806; -6109]
    end.
Definition dot6 (c : list R) (v : list Z) : R :=
  match combine c v with
  | [] => 0%R
  | p :: t => fold_left (fun a p => fadd a (fmul (fst p) (IZR (snd p)))) t (fmul (fst p) (IZR (snd p)))
  end.
Definition tasseled (c : component) (v : list Z) : outcome (option Z) :=
  let add ind x k := fadd ind (fmul x (dot6 (coefficients k) v)) in
  to_value match c with
           | TCD => add (add (add 0%R 1%R TCB) (-1)%R TCG) (-1)%R TCW
           | k => add 0%R 1%R k
           end.

(** ** Which computation belongs to which name: tsa_spectral_index, 910-1184.
    Name, number of inputs (check_nbands_for_index), the positions of the inputs in
    the order of the arguments, and the function. *)
Inductive kind :=
  | Differenced | ContRemove (w_ w1 w2 : R) | Ratio1 | Msrre | Kernelized
  | Resistance (f1 f2 f3 f4 : R) (rbc : bool) | Tasseled (c : component).
Definition implementations : list (list Z * (Z * list Z * kind)) :=
  [ (`"NDVI", (2, [0; 1], Differenced));
    (`"EVI", (3, [0; 1; 2], Resistance (25 / 10) 6 (75 / 10) 1 false));
    (`"NBR", (2, [0; 1], Differenced));
    (`"NDTI", (2, [0; 1], Differenced));
    (`"ARVI", (3, [0; 1; 2], Resistance 1 1 0 0 true));
    (`"SAVI", (3, [0; 1; 2], Resistance (15 / 10) 1 0 (5 / 10) false));
    (`"SARVI", (3, [0; 1; 2], Resistance (15 / 10) 1 0 (5 / 10) true));
    (`"TC-BRIGHT", (6, [0; 1; 2; 3; 4; 5], Tasseled TCB));
    (`"TC-GREEN", (6, [0; 1; 2; 3; 4; 5], Tasseled TCG));
    (`"TC-WET", (6, [0; 1; 2; 3; 4; 5], Tasseled TCW));
    (`"TC-DI", (6, [0; 1; 2; 3; 4; 5], Tasseled TCD));
    (`"NDBI", (2, [0; 1], Differenced));
    (`"NDWI", (2, [0; 1], Differenced));
    (`"MNDWI", (2, [0; 1], Differenced));
    (`"NDMI", (2, [0; 1], Differenced));
    (`"NDSI", (2, [0; 1], Differenced));
    (`"kNDVI", (2, [0; 1], Kernelized));
    (`"NDRE1", (2, [0; 1], Differenced));
    (`"NDRE2", (2, [0; 1], Differenced));
    (`"CIre", (2, [0; 1], Ratio1));
    (`"NDVIre1", (2, [0; 1], Differenced));
    (`"NDVIre2", (2, [0; 1], Differenced));
    (`"NDVIre3", (2, [0; 1], Differenced));
    (`"NDVIren", (2, [0; 1], Differenced));
    (`"NDVIre2n", (2, [0; 1], Differenced));
    (`"NDVIre3n", (2, [0; 1], Differenced));
    (`"MSRre", (2, [0; 1], Msrre));
    (`"MSRren", (2, [0; 1], Msrre));
    (`"CCI", (2, [0; 1], Differenced));
    (`"EVI2", (2, [0; 1; 1], Resistance (rnd32 (24 / 10)) 1 0 1 false));
    (`"ContRemSWIR", (3, [0; 1; 2], ContRemove (rnd32 (1610 / 1000)) (rnd32 (864 / 1000)) (rnd32 (2186 / 1000)))) ].

(** misc/runtime-data/indices.json. *)
Definition shipped : list (list Z * list (list Z)) :=
  [ (`"NDVI", [`"NIR"; `"RED"]);
    (`"EVI", [`"NIR"; `"RED"; `"BLUE"]);
    (`"NBR", [`"NIR"; `"SWIR2"]);
    (`"NDTI", [`"SWIR1"; `"SWIR2"]);
    (`"ARVI", [`"NIR"; `"RED"; `"BLUE"]);
    (`"SAVI", [`"NIR"; `"RED"; `"BLUE"]);
    (`"SARVI", [`"NIR"; `"RED"; `"BLUE"]);
    (`"TC-BRIGHT", [`"BLUE"; `"GREEN"; `"RED"; `"NIR"; `"SWIR1"; `"SWIR2"]);
    (`"TC-GREEN", [`"BLUE"; `"GREEN"; `"RED"; `"NIR"; `"SWIR1"; `"SWIR2"]);
    (`"TC-WET", [`"BLUE"; `"GREEN"; `"RED"; `"NIR"; `"SWIR1"; `"SWIR2"]);
    (`"TC-DI", [`"BLUE"; `"GREEN"; `"RED"; `"NIR"; `"SWIR1"; `"SWIR2"]);
    (`"NDBI", [`"SWIR1"; `"NIR"]);
    (`"NDWI", [`"GREEN"; `"NIR"]);
    (`"MNDWI", [`"GREEN"; `"SWIR1"]);
    (`"NDMI", [`"NIR"; `"SWIR1"]);
    (`"NDSI", [`"GREEN"; `"SWIR1"]);
    (`"kNDVI", [`"NIR"; `"RED"]);
    (`"NDRE1", [`"REDEDGE2"; `"REDEDGE1"]);
    (`"NDRE2", [`"REDEDGE3"; `"REDEDGE1"]);
    (`"CIre", [`"REDEDGE3"; `"REDEDGE1"]);
    (`"NDVIre1", [`"BROADNIR"; `"REDEDGE1"]);
    (`"NDVIre2", [`"BROADNIR"; `"REDEDGE2"]);
    (`"NDVIre3", [`"BROADNIR"; `"REDEDGE3"]);
    (`"NDVIre1n", [`"NIR"; `"REDEDGE1"]);
    (`"NDVIre2n", [`"NIR"; `"REDEDGE2"]);
    (`"NDVIre3n", [`"NIR"; `"REDEDGE3"]);
    (`"MSRre", [`"BROADNIR"; `"REDEDGE1"]);
    (`"MSRren", [`"NIR"; `"REDEDGE1"]);
    (`"CCI", [`"GREEN"; `"RED"]);
    (`"EVI2", [`"NIR"; `"RED"]);
    (`"ContRemSWIR", [`"SWIR1"; `"NIR"; `"SWIR2"]) ].

(** The first entry of a name: strcmp in sequence, json_object_get. *)
Fixpoint assoc {A} (l : list (list Z * A)) (name : list Z) : option A :=
  match l with
  | [] => None
  | (n, a) :: t => if streq n name then Some a else assoc t name
  end.

Definition value (k : kind) (v : list Z) : outcome (option Z) :=
  match k, v with
  | Differenced, [a; b] => differenced a b
  | ContRemove w_ w1 w2, [c; a; b] => cont_remove w_ w1 w2 c a b
  | Ratio1, [a; b] => ratio_minus1 a b
  | Msrre, [a; b] => msrre a b
  | Kernelized, [a; b] => kernelized a b
  | Resistance f1 f2 f3 f4 rbc, [n; r; b] => resistance f1 f2 f3 f4 rbc n r b
  | Tasseled c, [_; _; _; _; _; _] => tasseled c v
  | _, _ => UB
  end.

(** band_for_index: 858-869, find_domain: brick_base-cl.c:807-817. *)
Definition band_for (domains : list (list Z)) (name : list Z) : outcome Z :=
  let b := vector_contains_pos domains name in if b <? 0 then Exit else Ret b.

(** An observation: valid (msk) and its bands. *)
Record observation := mkObservation { ob_valid : bool; ob_dat : list Z }.

(** One pixel of an index computed by an equation: the loops of the functions above
    over time.  [domains]: names of the bands; [inputs]: band names of the index,
    [inside]: not masked (mask_ NULL or set). *)
Definition index_observation (k : kind) (bands : list Z) (nodata : Z) (o : observation) : outcome Z :=
  if negb (ob_valid o) then Ret nodata
  else
    v <- omap (fun b => of_option (get_at (ob_dat o) b)) bands ;;
    r <- value k v ;;
    Ret match r with Some x => x | None => nodata end.
Definition index_equation (domains : list (list Z)) (name : list Z) (inputs : list (list Z)) (nodata : Z) (inside : bool)
    (obs : list observation) : outcome (list Z) :=
  match assoc implementations name with
  | None => Exit
  | Some (need, args, k) =>
      if negb (need =? zlen inputs) then Exit
      else
        bands <- omap (fun a => nm <- of_option (get_at inputs a) ;; band_for domains nm) args ;;
        if negb inside then Ret (map (fun _ => nodata) obs)
        else omap (index_observation k bands nodata) obs
  end.

(** index_band: 59-88. *)
Definition index_band (domains : list (list Z)) (name : list Z) (nodata : Z) (inside : bool) (obs : list observation) : outcome (list Z) :=
  b <- band_for domains name ;;
  if negb inside then Ret (map (fun _ => nodata) obs)
  else omap (fun o => if negb (ob_valid o) then Ret nodata else of_option (get_at (ob_dat o) b)) obs.
