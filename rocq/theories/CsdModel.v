(** Download of Level 1 images: model of bash/force-level1-csd.sh, the choice of scenes (521-527) and the loop over them (613-659).
    A scene is a row of the catalogue.  The tests of sensor, tile, tier and collection, which mostly grep for text anywhere in the row, are an input.  The clouds are numbers of any unit.
    The processing version stands for the sort keys (processing baseline and generation time, or processing date).  sort is an insertion sort by these keys; how it
    orders equal keys is not used. *)
From Verif Require Import Base.
From Coq Require Import Arith.

Definition text := list Z.
(** Sentinel-2: [c_tile] is column 4, [c_row] is empty; Landsat: columns 10 and 11. [c_time] is the time of day of column 5, in seconds. *)
Record scene := mkScene { c_id : Z; c_tile : text; c_row : text; c_date : Z; c_time : Z; c_cloud : Z; c_version : Z }.
Record query := mkQuery { q_listed : scene -> bool; q_from : Z; q_to : Z; q_clow : Z; q_chigh : Z }.

(** The second awk of both pipelines; the first one has cut the time off the date. *)
Definition wanted (q : query) (s : scene) : bool :=
  q_listed q s && (q_from q <=? c_date s) && (c_date s <=? q_to q) && (q_clow q <=? c_cloud s) && (c_cloud s <=? q_chigh q).
(** sort. *)
Fixpoint insert (before : scene -> scene -> bool) (x : scene) (l : list scene) : list scene :=
  match l with [] => [x] | y :: t => if before x y then x :: l else y :: insert before x t end.
Definition arrange (before : scene -> scene -> bool) (l : list scene) : list scene := fold_right (insert before) [] l.
Definition newest_first (a b : scene) : bool := c_version b <=? c_version a.
Definition earliest_first (a b : scene) : bool := c_date a <=? c_date b.
(** awk '!a[key]++': the first row of each key. *)
Definition key_dec : forall a b : text * text * Z, {a = b} + {a <> b}.
Proof. repeat decide equality. Defined.
Fixpoint firsts (key : scene -> text * text * Z) (seen : list (text * text * Z)) (l : list scene) : list scene :=
  match l with
  | [] => []
  | s :: t => if in_dec key_dec (key s) seen then firsts key seen t else s :: firsts key (key s :: seen) t
  end.
(** 523: a[$4,$5]. *)
Definition key_s2 (s : scene) : text * text * Z := (c_tile s, [], c_date s).
(** 526: a[$10$11,$5]. *)
Definition key_landsat (s : scene) : text * text * Z := (c_tile s ++ c_row s, [], c_date s).
Definition select (key : scene -> text * text * Z) (q : query) (catalogue : list scene) : list scene :=
  arrange earliest_first (firsts key [] (arrange newest_first (filter (wanted q) catalogue))).
Definition select_s2 := select key_s2.
Definition select_landsat := select key_landsat.

(** ** The loop: 613-659 *)
(** A scene in the pool: number of files that are there, and whether one is being transferred (its name ends with .gstmp). *)
Record state := mkPool { p_files : Z -> nat; p_flight : Z -> bool; p_queue : list Z }.
(** The scene is in the pool: 633-634. *)
Definition present (p : state) (s : Z) : bool := negb (p_files p s =? 0)%nat && negb (p_flight p s).
(** Single steps: a file begins to be transferred, it is there (the i-th one), the scene is put into the queue (654-656). *)
Inductive op := Begin_file (s : Z) | File (s : Z) (i : nat) | Queue (s : Z).
Definition upd {A} (f : Z -> A) (s : Z) (v : A) : Z -> A := fun x => if x =? s then v else f x.
Definition do_op (p : state) (o : op) : state :=
  match o with
  | Begin_file s => mkPool (p_files p) (upd (p_flight p) s true) (p_queue p)
  | File s i => mkPool (upd (p_files p) s (Nat.max (p_files p s) i)) (upd (p_flight p) s false) (p_queue p)
  | Queue s => mkPool (p_files p) (p_flight p) (p_queue p ++ [s])
  end.
Definition do_ops (p : state) (os : list op) : state := fold_left do_op os p.
(** gsutil copies the [n] files of a scene (in parallel; here one after the other), then the scene is queued. *)
Definition scene_ops (n : nat) (s : Z) : list op := flat_map (fun i => [Begin_file s; File s i]) (seq 1 n) ++ [Queue s].
Fixpoint download (n : Z -> nat) (links : list Z) (p : state) : list op :=
  match links with
  | [] => []
  | s :: t => if present p s then download n t p else let o := scene_ops (n s) s in o ++ download n t (do_ops p o)
  end.
(** A run that ends, for whatever reason, after [k] steps (a failing gsutil ends it, line 43), and one that is complete. *)
Definition stopped (n : Z -> nat) (links : list Z) (p : state) (k : nat) : state := do_ops p (firstn k (download n links p)).
Definition completed (n : Z -> nat) (links : list Z) (p : state) : state := do_ops p (download n links p).
