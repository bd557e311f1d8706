(** BRDF correction: src/modules/lower-level/brdf-ll.c (70-254).  Real numbers instead of floats. *)
From Coq Require Import Reals.
From Flocq Require Import Core.
From Verif Require Import Base CStr.
#[local] Open Scope R_scope.

(** FMAX (-1.0, FMIN (1.0, x)): 36-37 *)
Definition clip (x : R) : R := Rmax (-1) (Rmin 1 x).
(** GetPhaang: 195-203.  Cosine and angle; the sine is that of the angle. *)
Definition phase_cos (c1 c2 s1 s2 c3 : R) : R := c1 * c2 + s1 * s2 * c3.
Definition phase_ang (x : R) : R := acos (clip x).
(** GetpAngles: 210-220 *)
Definition prime (brratio tan1 : R) : R := atan (brratio * tan1).
(** GetDistance: 227-234 *)
Definition distance (tan1 tan2 cos3 : R) : R := sqrt (Rmax 0 (tan1 * tan1 + tan2 * tan2 - 2 * tan1 * tan2 * cos3)).
(** GetOverlap: 241-254 *)
Definition overlap (hbratio d cos1 cos2 tan1 tan2 sin3 : R) : R :=
  let temp := 1 / cos1 + 1 / cos2 in
  let cost := clip (hbratio * sqrt (d * d + tan1 * tan1 * tan2 * tan2 * sin3 * sin3) / temp) in
  let t := acos cost in
  Rmax 0 (1 / PI * (t - sin t * cost) * temp).
(** LiKernel: 174-188 *)
Definition li_kernel (hbratio brratio tantv tanti sinphi cosphi : R) : R :=
  let v := prime brratio tantv in let i := prime brratio tanti in
  let d := distance (brratio * tantv) (brratio * tanti) cosphi in
  overlap hbratio d (cos v) (cos i) (brratio * tantv) (brratio * tanti) sinphi - (1 / cos v + 1 / cos i)
  + 5 / 10 * (1 + phase_cos (cos v) (cos i) (sin v) (sin i) cosphi) / cos v / cos i.
(** brdf_forward: 147-167 *)
Definition ross_kernel (ti tv phi : R) : R :=
  let x := phase_cos (cos tv) (cos ti) (sin tv) (sin ti) (cos phi) in let a := phase_ang x in
  ((PI / 2 - a) * x + sin a) / (cos ti + cos tv) - PI / 4.
Definition brdf_forward (ti tv phi iso vol geo : R) : R :=
  iso + vol * ross_kernel ti tv phi + geo * li_kernel 2 1 (sin tv / cos tv) (sin ti / cos ti) (sin phi) (cos phi).
(** The table of brdf_factor: 76-83 (decimal numbers). *)
Definition brdf_table : list (list Z * (R * R * R)) :=
  [ (`"BLUE", (774 / 10000, 372 / 10000, 79 / 10000)); (`"GREEN", (1306 / 10000, 580 / 10000, 178 / 10000)); (`"RED", (1690 / 10000, 574 / 10000, 227 / 10000));
    (`"REDEDGE1", (2085 / 10000, 845 / 10000, 256 / 10000)); (`"REDEDGE2", (2316 / 10000, 1003 / 10000, 273 / 10000)); (`"REDEDGE3", (2599 / 10000, 1197 / 10000, 294 / 10000));
    (`"BROADNIR", (3093 / 10000, 1535 / 10000, 330 / 10000)); (`"NIR", (3093 / 10000, 1535 / 10000, 330 / 10000)); (`"SWIR1", (3430 / 10000, 1154 / 10000, 453 / 10000)); (`"SWIR2", (2658 / 10000, 639 / 10000, 387 / 10000)) ].
(** find_domain: brick_base-cl.c:807-817 (the first band of that name). *)
Fixpoint find_domain (names : list (list Z)) (d : list Z) : option nat :=
  match names with [] => None | n :: r => if list_eq_dec Z.eq_dec n d then Some O else match find_domain r d with Some k => Some (S k) | None => None end end.
Fixpoint put (l : list R) (k : nat) (v : R) : list R := match l, k with [], _ => [] | _ :: r, O => v :: r | a :: r, S k => a :: put r k v end.
(** brdf_factor: 70-133.  [names]: bands of the image; [std]: standard sun zenith. *)
Definition brdf_factor (std szen vzen sazi vazi : R) (names : list (list Z)) : list R :=
  fold_left (fun cor row =>
    match find_domain names (fst row) with
    | None => cor
    | Some b => let '(iso, vol, geo) := snd row in put cor b (brdf_forward std 0 0 iso vol geo / brdf_forward szen vzen (sazi - vazi) iso vol geo)
    end) brdf_table (map (fun _ => 1) names).
