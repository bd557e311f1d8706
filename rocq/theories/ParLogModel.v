(** Model of log_parameter: src/modules/cross-level/param-cl.c:1018-1143.
    The log is a buffer of NPOW_14 bytes; [cur] is an offset into it that may run
    past its end (the code compares the pointer with [end] before every use).  The
    printf conversion %f is a parameter of the model.  int overflow of the values
    returned by snprintf is not modelled. *)
From Verif Require Import Base CStr Loops StringModel DateModel Float ParamModel.

Definition NPOW_14 : Z := 16384.

Section Log.
Variables (show_f32 : f32 -> list Z) (show_f64 : f64 -> list Z).
(** The bytes found behind the one-element array eol until a NUL; [None]: nothing
    may be assumed, i.e. reading them is undefined. *)
Variable behind : option (list Z).

(** snprintf(cur, end-cur, ...): writes the text cut to end-cur-1 characters and a
    NUL, returns the uncut length; a write outside of the buffer is UB. *)
Definition snprintf_at (buf : list Z) (cur size : Z) (text : list Z) : outcome (list Z) :=
  let out := firstn (Z.to_nat (size - 1)) text ++ [0] in
  if (0 <=? cur) && (cur + zlen out <=? zlen buf) && (0 <? size) then
    Ret (firstn (Z.to_nat cur) buf ++ out ++ skipn (Z.to_nat cur + length out) buf)
  else UB.

(** if (cur < end) cur += snprintf(cur, end-cur, ...) else exit(1) *)
Definition put (st : list Z * Z) (text : list Z) : outcome (list Z * Z) :=
  let '(buf, cur) := st in
  if cur <? NPOW_14 then
    buf' <- snprintf_at buf cur (NPOW_14 - cur) text ;;
    Ret (buf', cur + zlen text)
  else Exit.

(** The conversions %d, %f, %04d-%02d-%02d, %s of the switch; values that were never
    written (NULL string pointers) are undefined. *)
Definition show (v : pval) : outcome (list Z) :=
  match v with
  | VInt z => Ret (print_d z)
  | VFloat x => Ret (show_f32 x)
  | VDouble x => Ret (show_f64 x)
  | VDate d => Ret (print_0d 4 (year d) ++ ` "-" ++ print_0d 2 (month d) ++ ` "-" ++ print_0d 2 (day d))
  | VChar s => Ret s
  | VNone => UB
  end.

(** char eol[1]: 1084; %s reads on until a NUL. *)
Definition eol_string (n len : Z) : outcome (list Z) :=
  if n =? len - 1 then Ret []
  else match behind with Some s => Ret (` " " ++ s) | None => UB end.

(** One parameter: 1024-1138. *)
Definition log_one (i : Z) (p : par) (st : list Z * Z) : outcome (list Z * Z) :=
  st <- (if i >? 0 then put st (` ", ") else Ret st) ;;
  st <- put st (p_name p ++ ` ": ") ;;
  match p_vec p with
  | None =>
    v <- of_option (get_at (p_val p) 0) ;;
    t <- show v ;;
    put st t
  | Some _ =>
    ofold (fun st n =>
             v <- of_option (get_at (p_val p) n) ;;
             t <- show v ;;
             e <- eol_string n (zlen (p_val p)) ;;
             put st (t ++ e)) (zupto (zlen (p_val p))) st
  end.

Fixpoint log_loop (i : Z) (ps : list par) (st : list Z * Z) : outcome (list Z * Z) :=
  match ps with
  | [] => Ret st
  | p :: rest => st' <- log_one i p st ;; log_loop (i + 1) rest st'
  end.

Definition log_parameter (buf : list Z) (ps : list par) : outcome (list Z * Z) :=
  log_loop 0 ps (buf, 0).
End Log.
