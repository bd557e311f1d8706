(** Size of a datacube: model of bash/force-datacube-size.sh, pretty_size (63-99) and the sums per sensor (149-179).
    A line of ls -l is a text and the size in it (column 5); lines of directories and the total of ls contain no name of a sensor.
    Sizes are exact rationals (awk: double, and six decimals in between). *)
From Coq Require Import QArith Qround.
From Verif Require Import Base CStr.

(** grep for a literal word. *)
Fixpoint starts (w l : list Z) : bool :=
  match w, l with
  | [], _ => true
  | a :: w', c :: t => (a =? c)%Z && starts w' t
  | _, [] => false
  end.
Fixpoint has (w l : list Z) : bool := starts w l || match l with [] => false | _ :: t => has w t end.
Definition listing := list (list Z * Z).
(** 161. *)
Definition SENSORS : list (list Z) :=
  [`"LND04"; `"LND05"; `"LND07"; `"LND08"; `"LND09"; `"SEN2A"; `"SEN2B"; `"SEN2C"; `"SEN2D"; `"sen2a"; `"sen2b"; `"sen2c"; `"sen2d"; `"SEN2L"; `"SEN2H"; `"R-G-B";
   `"S1AIA"; `"S1AID"; `"S1BIA"; `"S1BID"; `"S1CIA"; `"S1CID"; `"S1DIA"; `"S1DID"; `"VVVHP"; `"MOD01"; `"MOD02"; `"MODIS"].
(** 167. *)
Definition sensor_size (s : list Z) (files : listing) : Z := fold_left (fun a f => if has s (fst f) then a + snd f else a)%Z files 0%Z.
(** 163-177: the total; a sensor without bytes is not added. *)
Definition all_size (sensors : list (list Z)) (files : listing) : Z :=
  fold_left (fun a s => let z := sensor_size s files in if (0 <? z)%Z then a + z else a)%Z sensors 0%Z.

(** 63-99: five times the same; [k] is the number of the unit (B, KB, MB, GB, TB, PB).  The test looks at the integer part. *)
Definition smaller (r : Q * Z) : Q * Z := if (1024 <? Qfloor (fst r))%Z then ((fst r / 1024)%Q, (snd r + 1)%Z) else r.
Definition pretty_size (size : Q) : Q * Z := Nat.iter 5 smaller (size, 0%Z).
