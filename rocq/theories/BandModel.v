(** Model of the band selection in src/modules/higher-level/index-parse-hl.c:105-333.
    Band names are C strings (without the NUL) held in buffers of NPOW_10 bytes.
    The JSON file of index definitions is a function from index names to the list
    of band names of the definition ([None]: no such item, not an array, or an
    element that is not a string: get_index_bandnames 62-103).  Loading that file
    and the recorded index types are not modelled. *)
From Verif Require Import Base Loops CStr StringModel AllocModel.

(** NPOW_10: const-cl.h. *)
Definition NPOW_10 : Z := 1024.

(** sen_t (the fields used here): n, n_bands, band_names, band_number[sensor][band],
    spec_adjust. *)
Record sen := MkSen {
  sn_n : Z;
  sn_bands : Z;
  sn_names : list (list Z);
  sn_number : list (list Z);
  sn_adjust : bool }.

Section Defs.
Variable defs : list Z -> option (list (list Z)).

(** get_required_bands: index-parse-hl.c:105-156; [None] stands for error > 0. *)
Definition get_required_bands (s : sen) (index : list Z) : outcome (option (list (list Z))) :=
  if vector_contains (firstn (Z.to_nat (sn_bands s)) (sn_names s)) index then
    n <- copy_string NPOW_10 index ;; Ret (Some [n])
  else if streq index (` "SMA") then
    ns <- omap (fun b => nm <- of_option (get_at (sn_names s) b) ;; copy_string NPOW_10 nm)
               (zupto (sn_bands s)) ;;
    Ret (Some ns)
  else match defs index with
       | None => Ret None
       | Some l => l' <- omap (copy_string NPOW_10) l ;; Ret (Some l')
       end.

(** check_available_bands: index-parse-hl.c:158-188.  Inner loop: the first band
    with that name is flagged, then break. *)
Fixpoint flag_first (names : list (list Z)) (use : list bool) (bands : list Z) (req : list Z)
  : outcome (bool * list bool) :=
  match bands with
  | [] => Ret (false, use)
  | b :: rest =>
    nm <- of_option (get_at names b) ;;
    if streq nm req then use' <- of_option (set_at use b true) ;; Ret (true, use')
    else flag_first names use rest req
  end.
Definition check_available_bands (s : sen) (required : list (list Z)) (use : list bool)
  : outcome (Z * list bool) :=
  ofold (fun '(err, use) req =>
           r <- flag_first (sn_names s) use (zupto (sn_bands s)) req ;;
           let '(found, use') := r in
           Ret (if found : bool then err else err + 1, use'))
        required (0, use).

(** Shift left: index-parse-hl.c:214-222.  for (i=b; i<n_used-1; i++) a[i] = a[i+1];
    the assignments to use_band and band_names sit in one loop body of the code but
    touch different arrays; they are modelled as one loop each. *)
Definition shift_left {A} (cp : A -> outcome A) (a : list A) (b n_used : Z) : outcome (list A) :=
  ofold (fun a i =>
           x <- of_option (get_at a (i + 1)) ;;
           y <- cp x ;;
           of_option (set_at a i y))
        (zrange b (n_used - 2)) a.

(** The while loop: index-parse-hl.c:197-228.  Every iteration decides one more
    band, so n_bands iterations are enough; running out of fuel would be UB. *)
Fixpoint drop_unused (fuel : nat) (b n_used : Z) (use : list bool) (names : list (list Z))
  (number : list (list Z)) : outcome (Z * list (list Z) * list (list Z)) :=
  if negb (b <? n_used) then Ret (n_used, names, number) else
  match fuel with
  | O => UB
  | S f =>
    u <- of_option (get_at use b) ;;
    if u : bool then drop_unused f (b + 1) n_used use names number
    else
      use' <- shift_left Ret use b n_used ;;
      names' <- shift_left (copy_string NPOW_10) names b n_used ;;
      number' <- omap (fun row => shift_left Ret row b n_used) number ;;
      drop_unused f b (n_used - 1) use' names' number'
  end.

(** remove_unused_bands: index-parse-hl.c:191-234.  The reallocation of band_names
    moves whole rows of NPOW_10 bytes. *)
Definition remove_unused_bands (use : list bool) (s : sen) : outcome sen :=
  r <- drop_unused (Z.to_nat (sn_bands s)) 0 (sn_bands s) use (sn_names s) (sn_number s) ;;
  let '(n_used, names, number) := r in
  number' <- re_alloc_2D 0 0 number (Z.to_nat (sn_n s)) (Z.to_nat (sn_bands s))
                         (Z.to_nat (sn_n s)) (Z.to_nat n_used) ;;
  names' <- re_alloc [] [] names (Z.to_nat (sn_bands s)) (Z.to_nat n_used) ;;
  Ret (MkSen (sn_n s) n_used names' number' (sn_adjust s)).

(** retrieve_indices: index-parse-hl.c:269-333, after load_index_definitions. *)
Definition retrieve_indices (indices : list (list Z)) (s : sen) : outcome sen :=
  r <- ofold (fun '(err, use) index =>
                q <- get_required_bands s index ;;
                match q with
                | None => Ret (err + 1, use)
                | Some required =>
                  c <- check_available_bands s required use ;;
                  let '(e, use') := c in
                  Ret (if e >? 0 then err + 1 else err, use')
                end)
             indices (0, repeat false (Z.to_nat (sn_bands s))) ;;
  let '(err, use) := r in
  if err >? 0 then Exit
  else if sn_adjust s then Ret s
  else remove_unused_bands use s.
End Defs.
