(** What a user reads in docs/source/components/higher-level/tsa/indices.rst: the
    formula of every index on reflectances (stored values divided by 10000). *)
From Coq Require Import Reals.
From Verif Require Import Base CStr.
#[local] Open Scope R_scope.

Definition quotient (a b : R) : option R := if Req_EM_T b 0 then None else Some (a / b).
Definition nd (a b : R) : option R := quotient (a - b) (a + b).

Section Formulas.
Variable s : list Z -> R.
Let BLUE := s (`"BLUE"). Let GREEN := s (`"GREEN"). Let RED := s (`"RED").
Let RE1 := s (`"REDEDGE1"). Let RE2 := s (`"REDEDGE2"). Let RE3 := s (`"REDEDGE3").
Let BNIR := s (`"BROADNIR"). Let NIR := s (`"NIR"). Let SWIR1 := s (`"SWIR1"). Let SWIR2 := s (`"SWIR2").
Let RB := RED - (BLUE - RED).
Let TCBRIGHT := 0.2043*BLUE + 0.4158*GREEN + 0.5524*RED + 0.5741*NIR + 0.3124*SWIR1 + 0.2303*SWIR2.
Let TCGREEN := -0.1603*BLUE - 0.2819*GREEN - 0.4934*RED + 0.7940*NIR - 0.0002*SWIR1 - 0.1446*SWIR2.
Let TCWET := 0.0315*BLUE + 0.2021*GREEN + 0.3102*RED + 0.1594*NIR - 0.6806*SWIR1 - 0.6109*SWIR2.
Let K := exp (- (NIR - RED) ^ 2 / (2 * (0.5 * (NIR + RED)) ^ 2)).
Let ratio_root (a b : R) : option R :=
  if Req_EM_T b 0 then None else if Rlt_dec (-1) (a / b) then Some ((a / b - 1) / sqrt (a / b + 1)) else None.

(** Name, formula and the factor the result is stored with.  The last two are not in
    the table of the documentation; EVI2 is that of the literature (2.4 (NIR - RED) /
    (NIR + RED + 1)) and ContRemSWIR the height of SWIR1 above the straight line
    between NIR (0.864 um) and SWIR2 (2.186 um) at 1.610 um. *)
Definition documented : list (list Z * option R * R) :=
  [ (`"NDVI", nd NIR RED, 10000);
    (`"EVI", quotient (2.5 * (NIR - RED)) (NIR + 6 * RED - 7.5 * BLUE + 1), 10000);
    (`"NBR", nd NIR SWIR2, 10000);
    (`"NDTI", nd SWIR1 SWIR2, 10000);
    (`"ARVI", nd NIR RB, 10000);
    (`"SAVI", quotient ((NIR - RED) * (1 + 0.5)) (NIR + RED + 0.5), 10000);
    (`"SARVI", quotient ((NIR - RB) * (1 + 0.5)) (NIR + RB + 0.5), 10000);
    (`"TC-BRIGHT", Some TCBRIGHT, 10000);
    (`"TC-GREEN", Some TCGREEN, 10000);
    (`"TC-WET", Some TCWET, 10000);
    (`"TC-DI", Some (TCBRIGHT - (TCGREEN + TCWET)), 10000);
    (`"NDBI", nd SWIR1 NIR, 10000);
    (`"NDWI", nd GREEN NIR, 10000);
    (`"MNDWI", nd GREEN SWIR1, 10000);
    (`"NDMI", nd NIR SWIR1, 10000);
    (`"NDSI", nd GREEN SWIR1, 10000);
    (`"kNDVI", quotient (1 - K) (1 + K), 10000);
    (`"NDRE1", nd RE2 RE1, 10000);
    (`"NDRE2", nd RE3 RE1, 10000);
    (`"CIre", match quotient RE3 RE1 with Some q => Some (q - 1) | None => None end, 1000);
    (`"NDVIre1", nd BNIR RE1, 10000);
    (`"NDVIre2", nd BNIR RE2, 10000);
    (`"NDVIre3", nd BNIR RE3, 10000);
    (`"NDVIre1n", nd NIR RE1, 10000);
    (`"NDVIre2n", nd NIR RE2, 10000);
    (`"NDVIre3n", nd NIR RE3, 10000);
    (`"MSRre", ratio_root BNIR RE1, 10000);
    (`"MSRren", ratio_root NIR RE1, 10000);
    (`"CCI", nd GREEN RED, 10000);
    (`"EVI2", quotient (2.4 * (NIR - RED)) (NIR + RED + 1), 10000);
    (`"ContRemSWIR", Some (SWIR1 - (NIR + (SWIR2 - NIR) * ((1.610 - 0.864) / (2.186 - 0.864)))), 10000) ].
End Formulas.

(** Stored value of band [nm] of an observation [dat] of bands named [domains], and
    its reflectance. *)
Definition band (domains : list (list Z)) (dat : list Z) (nm : list Z) : option Z :=
  option_map snd (find (fun p => if list_eq_dec Z.eq_dec (fst p) nm then true else false) (combine domains dat)).
Definition spectrum (domains : list (list Z)) (dat : list Z) (nm : list Z) : R :=
  match band domains dat nm with Some v => IZR v / 10000 | None => 0 end.

(** A stored value represents the number [x]: less than one unit away, up to the
    rounding errors. *)
Definition represents (v : Z) (x : R) : Prop := Rabs (IZR v - x) < 1.1.

(** Bands [inputs] of an observation are given with reflectances between 0 and 1
    (positive for kNDVI), and the index, if defined, fits into the storage type. *)
Definition usable (domains : list (list Z)) (name : list Z) (inputs : list (list Z)) (dat : list Z) : Prop :=
  (forall nm, In nm inputs -> exists v, band domains dat nm = Some v /\ (0 <= v <= 10000)%Z /\ (name = `"kNDVI" -> (0 < v)%Z)) /\
  (forall x sc, In (name, Some x, sc) (documented (spectrum domains dat)) -> Rabs (sc * x) <= 32000).

(** [y] is the right value for an observation: nodata where it is invalid or the
    formula is undefined. *)
Definition result_ok (domains : list (list Z)) (name : list Z) (nodata : Z) (valid : bool) (dat : list Z) (y : Z) : Prop :=
  if valid then
    forall f sc, In (name, f, sc) (documented (spectrum domains dat)) ->
    match f with Some x => represents y (sc * x) | None => y = nodata end
  else y = nodata.
