(** Model of the processing loop of higher-level FORCE:
    src/modules/higher-level/progress-hl.c, tasks-hl.c and the main loop of
    src/main/higher-level/force-higher-level.c. *)
From Verif Require Import Base Float.

(** ** Enumeration of processing units *)

(** dim_chunks: progress-hl.c:72-101 with sizes in a common integer unit (5e-3 of
    the map unit = [tol]); the double division and fmod are exact here. *)
Record chunks := mkChunks { c_cols : Z; c_rows : Z; c_cells : Z }.
Definition chunk_layout (tol tile_x tile_y chunk_x chunk_y : Z) : outcome chunks :=
  if (chunk_x =? 0) || (chunk_y =? 0) then UB else
  let cols := Z.quot tile_x chunk_x in
  let rows := Z.quot tile_y chunk_y in
  if cols <? 1 then Exit
  else if rows <? 1 then Exit
  else if Z.rem tile_x chunk_x >? tol then Exit
  else if Z.rem tile_y chunk_y >? tol then Exit
  else Ret (mkChunks cols rows (cols * rows)).

Record unit_pos := mkUnit { u_tile : Z; u_chunk : Z; u_cx : Z; u_cy : Z; u_tx : Z; u_ty : Z }.

(** forward_processing_unit after the increment: progress-hl.c:179-205.  The
    tile number is computed in binary32: (int)floor(unit / (float)cells), where
    the int operand is converted to float.  Integer division of nonnegative
    numbers for the chunk row. *)
Definition locate (tiles : list (Z * Z)) (ch : chunks) (n_units unit : Z) : outcome unit_pos :=
  if (unit <? 0) || (unit >=? n_units) then Ret (mkUnit (-1) (-1) (-1) (-1) (-1) (-1))
  else
    tile <- int_of_floor (f32_div (f32_of_Z unit) (f32_of_Z (c_cells ch))) ;;
    t <- of_option (get_at tiles tile) ;;
    let chunk := unit - tile * c_cells ch in
    let cy := Z.quot chunk (c_cols ch) in
    let cx := chunk - cy * c_cols ch in
    Ret (mkUnit tile chunk cx cy (fst t) (snd t)).

(** n_processing_units: progress-hl.c:138. *)
Definition n_units_of (tiles : list (Z * Z)) (ch : chunks) : Z := zlen tiles * c_cells ch.

(** ** The pipeline *)

(** Counters: progress-hl.c:135-137 and 214-222. *)
Record units := mkUnits { u_last : Z; u_now : Z; u_next : Z }.
Definition init_units : units := mkUnits (-3) (-2) (-1).
Definition forward (u : units) : units := mkUnits (u_last u + 1) (u_now u + 1) (u_next u + 1).

(** What one processing unit owns: the elements [pu] of MASK/ARD1/ARD2/nt1/nt2
    ([c_in]), of OUTPUT/nprod ([c_out]), and what was written to disk for it. *)
Section Pipeline.
Context {In Out : Type}.
(** Reading a unit yields data or not; computing yields products or not; both are
    arbitrary functions here. *)
Context (read_unit : Z -> option In) (compute_unit : Z -> option In -> option Out).

Record cell := mkCell { c_in : option In; c_out : option Out; c_disk : list Out }.
Definition empty_cell : cell := mkCell None None [].

(** Simplified: CompFree clears the input (C frees it and leaves the dangling
    pointers, which no later step uses); a failed directory lock counts as "no
    products". *)
(** Primitive steps of the three stages on their own cell; each is one or several
    C statements without access to other cells:
    read_higher_level tasks-hl.c:59-63 (reset), 69-116 (load);
    compute_higher_level 150-151 (reset), 159-231 (compute), 236-238 (free);
    output_higher_level 263-310 (write if there are products), 316-318 (free). *)
Inductive step := ReadReset | ReadLoad | CompReset | CompRun | CompFree | OutWrite | OutFree.
Definition do_step (pu : Z) (s : step) (c : cell) : cell :=
  match s with
  | ReadReset => mkCell None (c_out c) (c_disk c)
  | ReadLoad => mkCell (read_unit pu) (c_out c) (c_disk c)
  | CompReset => mkCell (c_in c) None (c_disk c)
  | CompRun => mkCell (c_in c) (compute_unit pu (c_in c)) (c_disk c)
  | CompFree => mkCell None (c_out c) (c_disk c)
  | OutWrite => mkCell (c_in c) (c_out c)
                  (match c_out c with Some o => c_disk c ++ [o] | None => c_disk c end)
  | OutFree => mkCell (c_in c) None (c_disk c)
  end.
Definition read_steps := [ReadReset; ReadLoad].
Definition comp_steps := [CompReset; CompRun; CompFree].
Definition out_steps := [OutWrite; OutFree].

Definition at_unit (pu : Z) (l : list step) : list (Z * step) := map (pair pu) l.

(** The guards read_this_chunk, compute_this_chunk, write_this_chunk:
    progress-hl.c:629-654 (the nprod test of the last is in OutWrite). *)
Definition read_thread (n : Z) (u : units) : list (Z * step) :=
  if u_next u <? n then at_unit (u_next u) read_steps else [].
Definition comp_thread (n : Z) (u : units) : list (Z * step) :=
  if (u_now u >=? 0) && (u_now u <? n) then at_unit (u_now u) comp_steps else [].
Definition out_thread (n : Z) (u : units) : list (Z * step) :=
  if u_last u >=? 0 then at_unit (u_last u) out_steps else [].

(** Interleavings of two / three threads. *)
Inductive interleave {A} : list A -> list A -> list A -> Prop :=
| il_nil : interleave [] [] []
| il_left a l1 l2 l : interleave l1 l2 l -> interleave (a :: l1) l2 (a :: l)
| il_right a l1 l2 l : interleave l1 l2 l -> interleave l1 (a :: l2) (a :: l).
Definition interleave3 {A} (l1 l2 l3 l : list A) : Prop :=
  exists l12, interleave l1 l2 l12 /\ interleave l12 l3 l.

(** One pass of the while loop of force-higher-level.c:216-241: with STREAMING the
    three calls run in parallel (any interleaving), without they run one after
    the other.  [passes stream n u t k] : starting with counters u the loop ends
    after k passes having performed the steps t. *)
Inductive passes (stream : bool) (n : Z) : units -> list (Z * step) -> nat -> Prop :=
| pass_end u : u_now (forward u) > n -> passes stream n u [] 0
| pass_more u t rest k :
    u_now (forward u) <= n ->
    (if stream
     then interleave3 (read_thread n (forward u)) (comp_thread n (forward u)) (out_thread n (forward u)) t
     else t = read_thread n (forward u) ++ comp_thread n (forward u) ++ out_thread n (forward u)) ->
    passes stream n (forward u) rest k ->
    passes stream n u (t ++ rest) (S k).

(** Executing a trace on the arrays (one cell per unit); an index outside is UB. *)
Fixpoint exec (t : list (Z * step)) (mem : list cell) : outcome (list cell) :=
  match t with
  | [] => Ret mem
  | (pu, s) :: rest =>
    c <- of_option (get_at mem pu) ;;
    mem' <- of_option (set_at mem pu (do_step pu s c)) ;;
    exec rest mem'
  end.
End Pipeline.

(** ** Byte totals and the final verdict *)

(** What the read resp. write call of one unit does to its counter: None = the
    function returned early and did not assign; tasks-hl.c:71-119, 263-320. *)
Definition stream_total (l : list (option Z)) : Z :=
  (* reduction(+: ...): thread-private copies start at 0 and are added *)
  fold_left (fun acc o => acc + match o with Some b => b | None => 0 end) l 0.
Definition serial_total (l : list (option Z)) : Z :=
  (* *ibytes = bytes on the shared variable *)
  fold_left (fun acc o => match o with Some b => b | None => acc end) l 0.
Definition total (stream : bool) := if stream then stream_total else serial_total.

(** handle_no_io: tasks-hl.c:337-391; [sample_files] = sampling module and all
    three sample files exist. *)
Definition handle_no_io (ibytes obytes : Z) (sample_files fail_if_empty : bool) : rc * bool :=
  let warn_o := negb sample_files in
  let empty := (ibytes =? 0) || (warn_o && (obytes =? 0)) in
  (if empty && fail_if_empty then FAILURE else SUCCESS, empty).
