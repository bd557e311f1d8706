(** Reading of a chunk: images with their quality information, features and the processing mask; sensors of all modules.
    Source: /repo/src/modules/higher-level/read-ard-hl.c: read_mask (480-557), read_features (569-661), read_ard (771-935);
    tasks-hl.c: read_higher_level (60-118), compute_higher_level (159-176); param-hl.c: parse_param_higher (857-915, 986-996).
    What GDAL reads (read_chunk with the margin of add_chunks) is data: an image, or None if it could not be read. *)
From Verif Require Import Base Loops CStr LsmModel QaiModel SensorModel.

(** ** Images *)
(** The files of one date: bands of the main product, quality, auxiliary products; as 16 bit numbers. *)
Record files := mkFiles { f_main : option (list (list Z)); f_qual : option (list Z); f_aux : list (option (list Z)) }.
(** What is needed (prd.ref, prd.qai, prd.aux), and whether there is a quality product at all (834). *)
Record want := mkWant { w_ref : bool; w_qai : bool; w_quality : bool; w_aux : bool }.
Record entry := mkEntry { e_dat : option (list (list Z)); e_qai : option (list Z); e_aux : option (list (list Z)) }.
(** 848-859: no quality product; the quality starts with 0 *)
Definition nodata_quality (nc : Z) (dat : list (list Z)) : outcome (list Z) :=
  omap (fun p => ofold (fun w band => v <- of_option (get_at band p) ;; if v =? -9999 then set_flag Off w 1 else Ret w) dat 0) (zupto nc).
(** 875-899: auxiliary products; errors are counted and the loop goes on *)
Fixpoint read_aux (l : list (option (list Z))) (err : Z) : list (list Z) * Z :=
  match l with
  | [] => ([], err)
  | None :: r => let '(a, e) := read_aux r (err + 1) in ([] :: a, e)
  | Some b :: r => let '(a, e) := read_aux r err in (b :: a, e)
  end.
(** 807-902: one date; [err] is the counter of the thread *)
Definition blank : entry := mkEntry None None None.
Definition read_one (nc : Z) (w : want) (f : files) (err : Z) : outcome (entry * Z) :=
  let main := if w_ref w && (err =? 0) then (match f_main f with None => None | Some d => Some (Some d) end) else Some None in
  match main with
  | None => Ret (blank, err + 1)
  | Some dat =>
      qai <- (if w_qai w && (err =? 0)
              then if w_quality w then Ret (match f_qual f with None => None | Some q => Some (Some q) end)
                   else match dat with None => UB | Some d => q <- nodata_quality nc d ;; Ret (Some (Some q)) end
              else Ret (Some None)) ;;
      match qai with
      | None => Ret (blank, err + 1)
      | Some q =>
          if w_aux w && (err =? 0)
          then match dat with
            | None => Ret (blank, err + 1)
            | Some _ => let '(a, e) := read_aux (f_aux f) err in Ret (mkEntry dat q (Some a), e)
            end
          else Ret (mkEntry dat q None, err)
      end
  end.
(** 800-905: [who] is the thread of each date; every thread has its own counter, the sum is taken at the end *)
Fixpoint read_all (nc : Z) (w : want) (who : nat -> nat) (t : nat) (l : list files) (errs : nat -> Z) : outcome (list entry * (nat -> Z)) :=
  match l with
  | [] => Ret ([], errs)
  | f :: r =>
      x <- read_one nc w f (errs (who t)) ;;
      let errs' := fun k => if Nat.eqb k (who t) then snd x else errs k in
      y <- read_all nc w who (S t) r errs' ;;
      Ret (fst x :: fst y, snd y)
  end.
Fixpoint total (n : nat) (errs : nat -> Z) : Z := match n with O => 0 | S n => total n errs + errs n end.
(** Result: nt = 0, nt = -1 or the images. *)
Inductive loaded := Nothing | Failed | Images (l : list entry).
Definition read_ard (nc : Z) (w : want) (threads : nat) (who : nat -> nat) (l : list files) : outcome loaded :=
  match l with
  | [] => Ret Nothing
  | _ => r <- read_all nc w who 0 l (fun _ => 0) ;; Ret (if 0 <? total threads (snd r) then Failed else Images (fst r))
  end.

(** ** Features, 589-602 and 611-661.  For each feature: whether the file exists, and its band. *)
Definition feature_quality (nc nodata : Z) (band : list Z) : outcome (list Z) :=
  omap (fun p => v <- of_option (get_at band p) ;; if v =? nodata then set_flag Off 0 1 else Ret 0) (zupto nc).
Definition read_features (nc nodata : Z) (l : list (bool * option (list Z))) : outcome loaded :=
  if negb (forallb fst l) then Ret Nothing
  else
    e <- omap (fun f => match snd f with None => Ret None | Some b => q <- feature_quality nc nodata b ;; Ret (Some (mkEntry (Some [b]) (Some q) None)) end) l ;;
    Ret (if forallb (fun x => match x with None => false | Some _ => true end) e
         then Images (flat_map (fun x => match x with None => [] | Some a => [a] end) e) else Failed).

(** ** Mask.  16 bit numbers are stored in 8 bits (1195); 538-552 *)
Inductive mask_state := NoMask | MaskError | Skip | Mask (m : list Z).
Definition small (v : Z) : Z := v mod 256.
Definition binary (l : list Z) : list Z := map (fun v => if small v =? 1 then 1 else 0) l.
(** [configured]: FILE_MASK/DIR_MASK; [listed]: the tile has the file *)
Definition read_mask (configured listed : bool) (img : option (list Z)) : mask_state :=
  if negb configured then NoMask else if negb listed then Skip
  else match img with
    | None => MaskError
    | Some l => if Nat.eqb (length (filter (fun v => small v =? 1) l)) 0 then Skip else Mask (binary l)
    end.
(** tasks-hl.c:69-81, 94-99, 159-176: what is computed with; None if there is no product *)
Definition input (m : mask_state) (l : loaded) : option (option (list Z) * list entry) :=
  match m with
  | MaskError | Skip => None
  | NoMask => match l with Images (e :: r) => Some (None, e :: r) | _ => None end
  | Mask k => match l with Images (e :: r) => Some (Some k, e :: r) | _ => None end
  end.

(** ** Sensors of a module, param-hl.c *)
Inductive hl_module := LEVEL3 | TSA | CSO | CFIMP | L2IMP | UDF.
(** The parameters of the file: SENSORS, TARGET_SENSOR, PRODUCT_TYPE_MAIN, PRODUCT_TYPE_QUALITY, SENSORS_LOWRES. *)
Record given := mkGiven { g_sensors : list (list Z); g_target : list Z; g_main : list Z; g_quality : list Z; g_lowres : list (list Z) }.
(** sen_t: strings that no parameter is registered for stay NULL (792: memory is zeroed). *)
Record sen := mkSen { s_sensors : list (list Z); s_target : option (list Z); s_main : option (list Z); s_quality : option (list Z) }.
(** register_ard1, 101-104 *)
Definition sen1 (g : given) : sen := mkSen (g_sensors g) (Some (g_target g)) (Some (g_main g)) (Some (g_quality g)).
(** register_l2i, 332: the only parameter that is stored in sen2 *)
Definition sen2 (g : given) : sen := mkSen (g_lowres g) None None None.
(** retrieve_sensor without spectral adjustment (SensorModel.v); a target of NULL is printed with %s in concat_string_2 (sensor-hl.c:39):
    undefined (glibc prints "(null)", for which there is no definition, so it fails). *)
Definition retrieve (defs : definitions) (s : sen) : outcome (option (list (list Z) * list (list Z))) :=
  match s_target s with
  | Some t => retrieve_sensor defs (s_sensors s) t false
  | None =>
      r <- load_all defs (s_sensors s) 0 (repeat [] (length (s_sensors s))) 0 ;;
      if 0 <? snd r then Ret None
      else b <- band_intersection (fst r) ;; match b with None => Ret None | Some _ => UB end
  end.
(** 857-903: only L2IMP has images as second input; 988-996.  true: the sensors are known. *)
Definition second_images (m : hl_module) : bool := match m with L2IMP => true | _ => false end.
Definition compile_sensors (defs : definitions) (m : hl_module) (g : given) : outcome bool :=
  a <- retrieve defs (sen1 g) ;;
  match a with
  | None => Ret false
  | Some _ => if second_images m then b <- retrieve defs (sen2 g) ;; Ret (match b with None => false | Some _ => true end) else Ret true
  end.
