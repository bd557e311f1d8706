(** Model of src/modules/cross-level/string-cl.c on byte buffers.  A buffer is a
    list of bytes (0 = NUL) with a fixed length; source strings are character
    lists without the NUL.  Sizes are size_t; unless written with a modulus they
    are assumed to stay below 2^31 (so the int fields do not wrap). *)
From Verif Require Import Base CStr AllocModel.

(** The C string held by a buffer: None if it has no terminating NUL. *)
Fixpoint cstr_of (buf : list Z) : option (list Z) :=
  match buf with
  | [] => None
  | c :: t => if c =? 0 then Some [] else
              match cstr_of t with Some s => Some (c :: s) | None => None end
  end.

(** libc strncpy: writes exactly [size] bytes. *)
Definition strncpy (dst src : list Z) (size : nat) : outcome (list Z) :=
  if (size <=? length dst)%nat
  then Ret (firstn size src ++ repeat 0 (size - length src) ++ skipn size dst)
  else UB.

(** copy_string: string-cl.c:42-51. *)
Definition copy_string_buf (dst : list Z) (size : nat) (src : list Z) : outcome (list Z) :=
  d <- strncpy dst src size ;;
  last <- of_option (get_at d (Z.of_nat size - 1)) ;;
  if negb (last =? 0) then Exit else Ret d.

(** snprintf(dst, size, ...) with the resulting text, and the exit on truncation
    used throughout: the text and its NUL are written. *)
Definition snprintf_buf (dst : list Z) (size : nat) (text : list Z) : outcome (list Z) :=
  if (size <=? length text)%nat then
    (if (size <=? length dst)%nat then Exit else UB)
  else if (length text + 1 <=? length dst)%nat
       then Ret (text ++ [0] ++ skipn (length text + 1) dst)
       else UB.

(** concat_string_2: string-cl.c:64-74; concat_string_3: string-cl.c:88-98. *)
Definition concat_string_2 (dst : list Z) (size : nat) (s1 s2 delim : list Z) : outcome (list Z) :=
  snprintf_buf dst size (s1 ++ delim ++ s2).
Definition concat_string_3 (dst : list Z) (size : nat) (s1 s2 s3 delim : list Z) : outcome (list Z) :=
  snprintf_buf dst size (s1 ++ delim ++ s2 ++ delim ++ s3).

(** libc strstr: offset of the first match. *)
Fixpoint prefixb (p l : list Z) : bool :=
  match p, l with
  | [], _ => true
  | _, [] => false
  | a :: p', b :: l' => (a =? b) && prefixb p' l'
  end.
Fixpoint strstr (l search : list Z) : option nat :=
  if prefixb search l then Some O
  else match l with
       | [] => None
       | _ :: t => match strstr t search with Some i => Some (S i) | None => None end
       end.

(** replace_string: string-cl.c:112-177 (size_t arithmetic modulo 2^64; the
    scratch buffer has buffer_len * 8 bytes). *)
Definition replace_string (buf search replace : list Z) (buffer_len : Z) : outcome (list Z) :=
  source <- of_option (cstr_of buf) ;;
  if (zlen source - zlen search + zlen replace) mod 2 ^ 64 >=? buffer_len then Exit
  else match strstr source search with
       | None => Ret buf
       | Some i =>
         let new := firstn i source ++ replace ++ skipn (i + length search) source in
         if zlen new + 1 >? 8 * buffer_len then UB
         else if zlen new + 1 >? zlen buf then UB
         else Ret (new ++ [0] ++ skipn (length new + 1) buf)
       end.

(** overwrite_string_part: string-cl.c:190-206. *)
Definition overwrite_string_part (buf : list Z) (offset : nat) (replace : list Z) (replace_len : nat)
  : outcome (list Z) :=
  source <- of_option (cstr_of buf) ;;
  if (length replace <? replace_len)%nat then Exit
  else if (length source <? offset + replace_len)%nat then Exit
  else Ret (firstn offset buf ++ firstn replace_len replace ++ skipn (offset + replace_len) buf).

(** string_t and fill_string: string-cl.c:314-334, 362-375. *)
Definition alloc_string (len : nat) : outcome (list Z) :=
  if (len =? 0)%nat then Exit else Ret (alloc 0 (len + 1)).
Definition fill_string (src : list Z) : outcome (list Z) :=
  b <- alloc_string (length src) ;;
  copy_string_buf b (length src + 1) src.

(** string_vector_t: string-cl.h:50-54. *)
Record svec := mkSvec { sv_rows : list (list Z); sv_length : nat; sv_number : nat }.
Definition svec_null : svec := mkSvec [] 0 0.

(** alloc_string_vector: string-cl.c:386-408. *)
Definition alloc_string_vector (number length : nat) : outcome svec :=
  if (number =? 0)%nat then Exit
  else if (length =? 0)%nat then Exit
  else Ret (mkSvec (alloc_2D 0 number (length + 1)) (length + 1) number).

(** re_alloc_string_vector: string-cl.c:419-442 (-1 marks uninitialised bytes). *)
Definition re_alloc_string_vector (v : svec) (new_number new_length : nat) : outcome svec :=
  if (new_number =? 0)%nat then Exit
  else if (new_length =? 0)%nat then Exit
  else
    rows <- re_alloc_2D 0 (-1) (sv_rows v) (sv_number v) (sv_length v) new_number (new_length + 1) ;;
    Ret (mkSvec rows (new_length + 1) new_number).

(** fill_string_vector: string-cl.c:486-507. *)
Definition fill_string_vector (v : svec) (pos : nat) (str : list Z) : outcome svec :=
  v' <- (if (sv_number v <=? pos)%nat || (sv_length v <=? length str)%nat
         then re_alloc_string_vector v
                (if (sv_number v <=? pos)%nat then pos + 1 else sv_number v)
                (if (sv_length v <=? length str)%nat then length str else sv_length v)
         else Ret v) ;;
  row <- of_option (nth_error (sv_rows v') pos) ;;
  row' <- copy_string_buf row (sv_length v') str ;;
  Ret (mkSvec (list_set (sv_rows v') pos row') (sv_length v') (sv_number v')).

(** A history of fill_string_vector calls. *)
Fixpoint fill_all (v : svec) (ops : list (nat * list Z)) : outcome svec :=
  match ops with
  | [] => Ret v
  | (pos, s) :: rest => v' <- fill_string_vector v pos s ;; fill_all v' rest
  end.

(** strings_equal / vector_contains / vector_contains_pos: string-cl.c:252-300
    (comparison of C strings; -1 if absent). *)
Fixpoint streq (a b : list Z) : bool :=
  match a, b with
  | [], [] => true
  | x :: a', y :: b' => (x =? y) && streq a' b'
  | _, _ => false
  end.
Fixpoint contains_pos (vec : list (list Z)) (i : Z) (target : list Z) : Z :=
  match vec with
  | [] => -1
  | s :: rest => if streq s target then i else contains_pos rest (i + 1) target
  end.
Definition vector_contains_pos (vec : list (list Z)) (target : list Z) : Z := contains_pos vec 0 target.
Definition vector_contains (vec : list (list Z)) (target : list Z) : bool :=
  existsb (fun s => streq s target) vec.
