(** Model of read_table, find_table_col and find_table_row,
    src/modules/cross-level/table-cl.c:38-236, 311-336.  The file is a character
    list without NUL bytes; [None] cannot be opened.  The libc conversion atof is a
    parameter.  Name strings are lists (their 1024 byte buffers only matter through
    copy_string).  The masks are not modelled. *)
From Coq Require Import Reals.
From Verif Require Import Base CStr Loops StringModel AllocModel StatsModel.
#[local] Open Scope Z_scope.

Definition separator : list Z := [32; 44; 9].

Section Read.
Context {D : Type} (zero undef : D) (atof : list Z -> D) (has_row_names has_col_names : bool).

(** The growing buffers: data, col_names, ncol_buf. *)
Record cells := mkCells { c_data : list (list D); c_names : list (list Z); c_cols : Z }.

(** 106-110 and 128-132. *)
Definition grow_cols (nrow_buf col : Z) (c : cells) : outcome cells :=
  if col >=? c_cols c then
    n2 <- chk_int (c_cols c * 2) ;;
    names <- (if has_col_names then re_alloc [] [] (c_names c) (Z.to_nat (c_cols c)) (Z.to_nat n2) else Ret (c_names c)) ;;
    data <- re_alloc_2D zero undef (c_data c) (Z.to_nat nrow_buf) (Z.to_nat (c_cols c)) (Z.to_nat nrow_buf) (Z.to_nat n2) ;;
    Ret (mkCells data names n2)
  else Ret c.

(** The column names: 88-110.  [cur] is the current token and the rest of the line. *)
Fixpoint names_line (fuel : nat) (nrow_buf : Z) (cur : option (list Z * list Z)) (col : Z) (c : cells)
  : outcome (cells * Z) :=
  match cur with
  | None => Ret (c, col)
  | Some (tok0, save0) =>
    match fuel with
    | O => UB
    | S f =>
      ts <- (if has_row_names && (col =? 0)
             then match strtok separator save0 with None => Exit | Some ts => Ret ts end
             else Ret (tok0, save0)) ;;
      let '(tok, save) := ts in
      name <- copy_string 1024 tok ;;
      names <- of_option (set_at (c_names c) col name) ;;
      c' <- grow_cols nrow_buf (col + 1) (mkCells (c_data c) names (c_cols c)) ;;
      names_line f nrow_buf (strtok separator save) (col + 1) c'
    end
  end.

(** A row: 112-136. *)
Fixpoint data_line (fuel : nat) (nrow_buf row : Z) (cur : option (list Z * list Z)) (col : Z) (rows : list (list Z)) (c : cells)
  : outcome (list (list Z) * cells * Z) :=
  match cur with
  | None => Ret (rows, c, col)
  | Some (tok0, save0) =>
    match fuel with
    | O => UB
    | S f =>
      rts <- (if has_row_names && (col =? 0) then
                name <- copy_string 1024 tok0 ;;
                rows' <- of_option (set_at rows row name) ;;
                match strtok separator save0 with None => Exit | Some (t, s) => Ret (rows', t, s) end
              else Ret (rows, tok0, save0)) ;;
      let '(rows', tok, save) := rts in
      r <- of_option (get_at (c_data c) row) ;;
      r' <- of_option (set_at r col (atof tok)) ;;
      data <- of_option (set_at (c_data c) row r') ;;
      c' <- grow_cols nrow_buf (col + 1) (mkCells data (c_names c) (c_cols c)) ;;
      data_line f nrow_buf row (strtok separator save) (col + 1) rows' c'
    end
  end.

(** buffers, row_names, nrow_buf, ncol, row, line. *)
Record tstate := mkT { t_cells : cells; t_rows : list (list Z); t_rowbuf : Z; t_ncol : Z; t_row : Z; t_line : Z }.

(** 77-160: one line. *)
Definition table_line (l : list Z) (s : tstate) : outcome tstate :=
  let cur := strtok separator l in
  rcc <- (if (t_row s =? 0) && has_col_names && (t_ncol s =? 0) then
            cc <- names_line (S (length l)) (t_rowbuf s) cur 0 (t_cells s) ;;
            Ret (t_rows s, fst cc, snd cc)
          else data_line (S (length l)) (t_rowbuf s) (t_row s) cur 0 (t_rows s) (t_cells s)) ;;
  let '(rows, c, col) := rcc in
  let ncol := if t_row s =? 0 then col else t_ncol s in
  row <- (if negb has_col_names || (t_line s >? 0) then chk_int (t_row s + 1) else Ret (t_row s)) ;;
  if (row >? 0) && negb (col =? ncol) then Exit
  else
    line <- chk_int (t_line s + 1) ;;
    if row >=? t_rowbuf s then
      n1 <- chk_int (t_rowbuf s * 2) ;;
      data <- re_alloc_2D zero undef (c_data c) (Z.to_nat (t_rowbuf s)) (Z.to_nat (c_cols c)) (Z.to_nat n1) (Z.to_nat (c_cols c)) ;;
      rows' <- (if has_row_names then re_alloc [] [] rows (Z.to_nat (t_rowbuf s)) (Z.to_nat n1) else Ret rows) ;;
      Ret (mkT (mkCells data (c_names c) (c_cols c)) rows' n1 ncol row line)
    else Ret (mkT c rows (t_rowbuf s) ncol row line).

Fixpoint table_loop (fuel : nat) (file : list Z) (s : tstate) : outcome tstate :=
  match fgets 65536 file with
  | None => Ret s
  | Some (line, rest) =>
    match fuel with
    | O => UB
    | S f => s' <- table_line (take_until [13; 10] line) s ;; table_loop f rest s'
    end
  end.

(** table_t without the statistics. *)
Record table := mkTable { tb_nrow : Z; tb_ncol : Z; tb_data : list (list D); tb_rows : list (list Z); tb_cols : list (list Z) }.

(** 52-66: the initial buffers. *)
Definition table_start : tstate :=
  mkT (mkCells [[zero]] (if has_col_names then [[]] else []) 1) (if has_row_names then [[]] else []) 1 0 0 0.

Definition read_table (file : option (list Z)) : outcome table :=
  match file with
  | None => Exit
  | Some f =>
    s <- table_loop (length f) f table_start ;;
    let nb := Z.to_nat (t_rowbuf s) in let cb := Z.to_nat (c_cols (t_cells s)) in
    let nr := Z.to_nat (t_row s) in let nc := Z.to_nat (t_ncol s) in
    if negb (t_row s =? t_rowbuf s) || negb (t_ncol s =? c_cols (t_cells s)) then
      d1 <- re_alloc_2D zero undef (c_data (t_cells s)) nb cb nr cb ;;
      d2 <- re_alloc_2D zero undef d1 nr cb nr nc ;;
      rows <- (if has_row_names then re_alloc [] [] (t_rows s) nb nr else Ret (t_rows s)) ;;
      cols <- (if has_col_names then re_alloc [] [] (c_names (t_cells s)) cb nc else Ret (c_names (t_cells s))) ;;
      Ret (mkTable (t_row s) (t_ncol s) d2 rows cols)
    else Ret (mkTable (t_row s) (t_ncol s) (c_data (t_cells s)) (t_rows s) (c_names (t_cells s)))
  end.

(** find_table_col: 311-321, find_table_row: 329-339; -1 if there is none. *)
Fixpoint find_name (name : list Z) (names : list (list Z)) (k : Z) : Z :=
  match names with
  | [] => -1
  | n :: t => if streq n name then k else find_name name t (k + 1)
  end.
Definition find_table_col (t : table) (name : list Z) : Z := if has_col_names then find_name name (tb_cols t) 0 else -1.
Definition find_table_row (t : table) (name : list Z) : Z := if has_row_names then find_name name (tb_rows t) 0 else -1.
End Read.
Arguments mkTable {D}. Arguments tb_nrow {D}. Arguments tb_ncol {D}. Arguments tb_data {D}. Arguments tb_rows {D}. Arguments tb_cols {D}.
Arguments mkCells {D}. Arguments c_data {D}. Arguments c_names {D}. Arguments c_cols {D}.
Arguments mkT {D}. Arguments t_cells {D}. Arguments t_rows {D}. Arguments t_rowbuf {D}. Arguments t_ncol {D}. Arguments t_row {D}. Arguments t_line {D}.

(** The statistics of one column: 200-233, in exact arithmetic. *)
#[local] Open Scope R_scope.
Record colstat := mkCs { cs_mean : R; cs_sd : R; cs_min : R; cs_max : R; cs_sum : R }.
Definition stat_step (s : R * var * R * R * R) (x : R) : R * var * R * R * R :=
  let '(k, v, lo, hi, sum) := s in
  let k := k + 1 in
  (k, if Req_EM_T k 1 then mkVar x (r_vx v) else var_recurrence x v k,
   (if Rlt_dec x lo then x else lo), (if Rgt_dec x hi then x else hi), sum + x).
Definition col_stats (l : list R) : colstat :=
  let '(k, v, lo, hi, sum) := fold_left stat_step l (0, mkVar 0 0, 32767, - (32768), 0) in
  mkCs (r_mx v) (standdev (r_vx v) k) lo hi sum.

Definition table_stats (t : @table R) : outcome (list colstat) :=
  omap (fun col => l <- omap (fun row => r <- of_option (get_at (tb_data t) row) ;; of_option (get_at r col)) (zupto (tb_nrow t)) ;;
                   Ret (col_stats l)) (zupto (tb_ncol t)).
