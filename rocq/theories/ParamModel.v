(** Model of the parameter file parser and checker in
    src/modules/cross-level/param-cl.c and of the reading loop in
    src/modules/higher-level/param-hl.c:973-981.  A registered parameter is a
    record; scalar and vector values are lists (a scalar has one element).  The
    libc conversions atof (to float and double) and the file system are
    parameters of the model. *)
From Verif Require Import Base CStr Loops StringModel DateModel Float.

Inductive chartest := NullOrExist | MustExist | NotExist | NullOrBase | BaseName | NoTest.

(** par_t.type with the range/enumeration members (register_*_par, 317-786). *)
Inductive ptype :=
| PInt (lo hi : Z)
| PEnum (l : list (list Z * Z))
| PFloat (lo hi : f32)
| PDouble (lo hi : f64)
| PBool (l : list (list Z * Z))
| PDate (lo hi : date)
| PChar (t : chartest).

Inductive pval :=
| VInt (z : Z) | VFloat (x : f32) | VDouble (x : f64) | VDate (d : date) | VChar (s : list Z)
| VNone.   (* allocated, not yet written *)

(** par_t: p_vec is None for scalars (length == NULL), Some expected_length for
    vectors; p_val holds the values, its length is *length. *)
Record par := mkPar { p_name : list Z; p_type : ptype; p_vec : option Z; p_set : bool; p_val : list pval }.
Definition set_val (p : par) (v : list pval) : par := mkPar (p_name p) (p_type p) (p_vec p) true v.

Definition seps : list Z := ` " =".
Definition stops : list Z := [13; 10; 35].   (* \r \n # *)
Definition NPOW_10 : Z := 1024.
Definition NPOW_16 : Z := 65536.
Definition INT_MAX : Z := 2147483647.

(** length_par: param-cl.c:37-61. *)
Definition length_par (buf : list Z) : outcome Z :=
  b <- copy_string NPOW_16 buf ;;
  Ret (zlen (tokens seps (take_until stops b)) - 1).

(** parse_enum: param-cl.c:121-130. *)
Fixpoint parse_enum (str : list Z) (enums : list (list Z * Z)) : Z :=
  match enums with
  | [] => INT_MAX
  | (t, e) :: r => if streq str t then e else parse_enum str r
  end.

(** The byte at offset [k] of the local buffer[NPOW_16] while the token at offset
    [o] is processed: strncpy in copy_string pads with NUL, the text was cut at
    offset [cut] and strtok_r ended the token with NUL; text behind the cut (the
    comment) is still there. *)
Definition buf_byte (line : list Z) (cut o : Z) (tok : list Z) (k : Z) : option Z :=
  if k <? o + zlen tok then get_at tok (k - o)
  else if k =? o + zlen tok then Some 0
  else if k =? cut then Some 0
  else if k <? zlen line then get_at line k
  else if k <? NPOW_16 then Some 0
  else None.

(** strncpy(dst, str+k, n) from that buffer; reading outside it is undefined. *)
Fixpoint read_field (n : nat) (byte : Z -> option Z) (k : Z) : outcome (list Z) :=
  match n with
  | O => Ret []
  | S m => c <- of_option (byte k) ;;
           if c =? 0 then Ret [] else (r <- read_field m byte (k + 1) ;; Ret (c :: r))
  end.

(** parse_date: param-cl.c:96-110, [o] is the offset of the string. *)
Definition parse_date (byte : Z -> option Z) (o : Z) : outcome date :=
  cy <- read_field 4 byte o ;;
  y <- atoi cy ;;
  cm <- read_field 2 byte (o + 5) ;;
  m <- atoi cm ;;
  cd <- read_field 2 byte (o + 8) ;;
  d <- atoi cd ;;
  Ret (set_date init_date y m d).

Section Parse.
Context (atof32 : list Z -> f32) (atof64 : list Z -> f64) (fileexist : list Z -> bool).

(** The conversions of one token: the switch statements in param-cl.c:838-863
    and 881-906.  [l] is the text from which strtok_r took the token. *)
Definition convert (ty : ptype) (line l tok : list Z) : outcome pval :=
  match ty with
  | PInt _ _ => z <- atoi tok ;; Ret (VInt z)
  | PEnum e => Ret (VInt (parse_enum tok e))
  | PFloat _ _ => Ret (VFloat (atof32 tok))
  | PDouble _ _ => Ret (VDouble (atof64 tok))
  | PBool e => Ret (VInt (parse_enum tok e))
  | PDate _ _ =>
    let cut := zlen (take_until stops line) in
    let o := cut - zlen (skip_while seps l) in
    d <- parse_date (buf_byte line cut o tok) o ;; Ret (VDate d)
  | PChar _ => s <- copy_string NPOW_10 tok ;; Ret (VChar s)
  end.

(** The while loop over the tokens of a vector: param-cl.c:877-910. *)
Fixpoint store_vec (fuel : nat) (ty : ptype) (line l : list Z) (n : Z) (vec : list pval) :
    outcome (list pval) :=
  match fuel with
  | O => UB
  | S f =>
    match strtok seps l with
    | None => Ret vec
    | Some (tok, r) =>
      v <- convert ty line l tok ;;
      vec' <- of_option (set_at vec n v) ;;
      store_vec f ty line r (n + 1) vec'
    end
  end.

(** The loop over the registered parameters: param-cl.c:825-916.  [l] is the text
    behind saveptr. *)
Fixpoint par_loop (line tag l : list Z) (ps : list par) : outcome (list par) :=
  match ps with
  | [] => Ret []
  | p :: t =>
    if p_set p then r <- par_loop line tag l t ;; Ret (p :: r)
    else if streq tag (p_name p) then
      match strtok seps l with
      | None => Ret ps
      | Some (tok, l') =>
        match p_vec p with
        | None =>
          v <- convert (p_type p) line l tok ;;
          r <- par_loop line tag l' t ;;
          Ret (set_val p [v] :: r)
        | Some _ =>
          n <- length_par line ;;
          if n <? 1 then Ret (set_val p [] :: t)
          else
            b <- copy_string NPOW_16 line ;;
            match strtok seps (take_until stops b) with
            | None => UB
            | Some (tag', l0) =>
              vec <- store_vec (S (length l0)) (p_type p) line l0 0 (repeat VNone (Z.to_nat n)) ;;
              r <- par_loop line tag' [] t ;;
              Ret (set_val p vec :: r)
            end
        end
      end
    else r <- par_loop line tag l t ;; Ret (p :: r)
  end.

(** parse_parameter: param-cl.c:804-919. *)
Definition parse_parameter (ps : list par) (line : list Z) : outcome (list par) :=
  b <- copy_string NPOW_16 line ;;
  match strtok seps (take_until stops b) with
  | None => Ret ps
  | Some (tag, l) => par_loop line tag l ps
  end.

(** check_int_par 1150, check_enum_par 1178, check_float_par 1212,
    check_double_par 1240, check_date_par 1268, check_char_par 1298: whether one
    value is rejected. *)
Definition bad_char (t : chartest) (s : list Z) : bool :=
  let no_base := (if strstr s (` "/") then true else false) ||
                 (if strstr s (` ".") then false else true) in
  match t with
  | NullOrExist => negb (streq s (` "NULL")) && negb (fileexist s)
  | MustExist => negb (fileexist s)
  | NotExist => fileexist s
  | NullOrBase => negb (streq s (` "NULL")) && no_base
  | BaseName => no_base
  | NoTest => false
  end.
Definition bad_value (ty : ptype) (v : pval) : bool :=
  match ty, v with
  | PInt lo hi, VInt z => (z <? lo) || (z >? hi)
  | PEnum l, VInt z => negb (existsb (fun e => z =? snd e) l)
  | PFloat lo hi, VFloat x => flt x lo || flt hi x
  | PDouble lo hi, VDouble x => flt x lo || flt hi x
  | PBool l, VInt z => negb (existsb (fun e => z =? snd e) l)
  | PDate lo hi, VDate d => (ce d <? ce lo) || (ce d >? ce hi)
  | PChar t, VChar s => bad_char t s
  | _, _ => false
  end.

(** One iteration of check_parameter's loop: 1395-1440. *)
Definition bad_par (p : par) : bool :=
  if negb (p_set p) then true
  else
    let check := existsb (bad_value (p_type p)) (p_val p) in
    match p_vec p with
    | None => check
    | Some expected =>
      if zlen (p_val p) =? 0 then true
      else if (expected >? 0) && negb (zlen (p_val p) =? expected) then true
      else check
    end.

(** check_parameter: param-cl.c:1389-1446. *)
Definition check_parameter (ps : list par) : rc :=
  if existsb bad_par ps then FAILURE else SUCCESS.

(** Reading the file: param-hl.c:973 (fgets loop), here on the lines read. *)
Definition parse_lines (ps : list par) (lines : list (list Z)) : outcome (list par) :=
  ofold parse_parameter lines ps.

(** The fgets loop itself; fuel = file length suffices. *)
Fixpoint parse_file (fuel : nat) (ps : list par) (file : list Z) : outcome (list par) :=
  match fuel with
  | O => UB
  | S f =>
    match fgets NPOW_16 file with
    | None => Ret ps
    | Some (line, rest) => ps' <- parse_parameter ps line ;; parse_file f ps' rest
    end
  end.
End Parse.

(** prescreen_par: param-cl.c:284-306 on the lines read (result: count or
    failure). *)
Definition prescreen_par (lines : list (list Z)) (tag : list Z) : option Z :=
  let hit line := match strtok seps (take_until stops line) with
                  | None => false
                  | Some (t, _) => streq t tag
                  end in
  let n := zlen (filter hit lines) in
  if n =? 0 then None else Some n.
