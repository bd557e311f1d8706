(** Bulk processing of Level 1 images: model of bash/force-level2.sh (process_this_image 99-271, cleaning of the queue 351-356, jobs 358-376 and 397-399),
    of the exits of misc/force-bash-library.sh (file_not_found, dir_not_found) and of the line that bash/force-level1-csd.sh:654-656 adds to the queue.
    Lines are lists of character codes without the newline.  The image processor, tar and unzip are functions of their file; a file that exists is readable; DIR_TEMP and
    the queue can be written.  Updates of the queue under the lock are single steps; the five commands that clean the queue, which take no lock, are
    one reading and one replacement of the file. *)
From Verif Require Import Base CStr.

Definition text := list Z.
Definition QUEUED : text := `"QUEUED".
Definition DONE : text := `"DONE".
Definition FAIL : text := `"FAIL".

(** ** grep, sed and [[ ]] on literal text *)
Fixpoint starts (w l : text) : bool :=
  match w, l with
  | [], _ => true
  | a :: w', c :: t => (a =? c) && starts w' t
  | _, [] => false
  end.
Fixpoint contains (w l : text) : bool := starts w l || match l with [] => false | _ :: t => contains w t end.
Definition ends (w l : text) : bool := starts (rev w) (rev l).
(** s/w//g for a word of at least one letter: [skip] letters of an occurrence are still to be passed over. *)
Fixpoint erase (w : text) (skip : nat) (l : text) : text :=
  match l with
  | [] => []
  | c :: t => match skip with
              | S k => erase w k t
              | O => if starts w l then erase w (length w - 1) t else c :: erase w O t
              end
  end.

(** ** Cleaning: 351-356 *)
(** dos2unix on one line. *)
Definition unix (l : text) : text := match rev l with 13 :: r => rev r | _ => l end.
Definition untab (l : text) : text := map (fun c => if c =? 9 then 32 else c) l.
(** s/ +/ /g *)
Fixpoint squeeze (l : text) : text :=
  match l with
  | [] => []
  | c :: t => if (c =? 32) && (match t with d :: _ => d =? 32 | [] => false end) then squeeze t else c :: squeeze t
  end.
Definition strip_first (l : text) : text := match l with 32 :: t => t | _ => l end.
Definition strip_last (l : text) : text := match rev l with 32 :: r => rev r | _ => l end.
Definition clean (l : text) : text := strip_last (strip_first (squeeze (untab (unix l)))).

(** ** Jobs: 358-376, 397-399, and 116: all blanks are taken out of the name *)
Definition unblank (l : text) : text := filter (fun c => negb (c =? 32)) l.
(** 359. *)
Definition queued (lines : list text) : list text := map (erase QUEUED O) (filter (contains QUEUED) lines).
(** [Exit]: no image, or a relative path.  An empty line at the end is no job for parallel; an empty one elsewhere is, of an image without name, which is never found. *)
Definition jobs (lines : list text) : outcome (list text) :=
  let q := queued lines in
  let names := flat_map (tokens [32]) q in
  if (zlen names =? 0) then Exit
  else if forallb (starts [47]) names then Ret (map unblank q) else Exit.

(** ** One image: 99-271 *)
(** What exists, what can be unpacked, and what force-l2ps answers for a directory. *)
Record world := mkWorld { w_file : text -> bool; w_dir : text -> bool; w_unpack : text -> bool; w_core : text -> bool }.
Definition base (p : text) : text := rev (take_until [47] (rev p)).
(** 117-119. *)
Definition log_of (dirlog img : text) : text := dirlog ++ [47] ++ base img ++ `".log".
(** ${x//w/r}: all occurrences. *)
Fixpoint subst (w r : text) (skip : nat) (l : text) : text :=
  match l with
  | [] => []
  | c :: t => match skip with
              | S k => subst w r k t
              | O => if starts w l then r ++ subst w r (length w - 1) t else c :: subst w r O t
              end
  end.
(** 137, 162, 185-188, 207: the directory that is processed. *)
Definition extract_of (tmp img : text) : text :=
  if ends (`".tar.gz") img then tmp ++ [47] ++ subst (`".tar.gz") [] O (base img)
  else if ends (`".tar") img then tmp ++ [47] ++ subst (`".tar") [] O (base img)
  else if ends (`".zip") img then subst (`".SAFE.SAFE") (`".SAFE") O (tmp ++ [47] ++ subst (`".zip") (`".SAFE") O (base img))
  else img.
Definition core (w : world) (tmp img : text) : option text := Some (if w_core w (extract_of tmp img) then DONE else FAIL).
(** The status that is recorded; [None]: the job ends at file_not_found or dir_not_found (exit 1) and records nothing. *)
Definition process (w : world) (tmp img : text) : option text :=
  if ends (`".tar.gz") img || ends (`".tar") img then
    if negb (w_file w img) then None else if w_unpack w img then core w tmp img else Some FAIL
  else if ends (`".zip") img then
    if negb (w_file w img) then None
    else if w_unpack w img then (if w_dir w (extract_of tmp img) then core w tmp img else None) else Some FAIL
  else if w_dir w img then core w tmp img else None.

(** ** Recording: 265-269, sed -E "s+(IMAGE) .*+\1 STATUS+" *)
(** The name is used as a regular expression in which a dot stands for any character. *)
Fixpoint match_at (pat l : text) : option text :=
  match pat, l with
  | [], _ => Some l
  | p :: ps, c :: t => if (p =? 46) || (p =? c) then match_at ps t else None
  | _, [] => None
  end.
Fixpoint sed_line (pat st l : text) : text :=
  match match_at pat l with
  | Some (32 :: _) => firstn (length pat) l ++ 32 :: st
  | _ => match l with [] => [] | c :: t => c :: sed_line pat st t end
  end.
(** Characters with another meaning in regular expressions. *)
Definition special : text := `"\[]()*?{}|^$".
(** [None]: depends on the meaning of special characters, left out.  With a plus in the name the command is malformed and the queue stays as it is. *)
Definition record (img st : text) (lines : list text) : option (list text) :=
  if existsb (fun c => memz c special) img then None
  else if memz 43 img then Some lines else Some (map (sed_line img st) lines).

(** ** Histories *)
(** The queue, and the cleaned copy of it that has not replaced it yet. *)
Record state := mkState { s_lines : list text; s_copy : option (list text) }.
Inductive event :=
  | Finished (img : text)      (* an image was processed *)
  | Enqueued (path : text)     (* force-level1-csd.sh:654-656 *)
  | Clean_begins               (* force-level2.sh:352-356 read the queue *)
  | Clean_ends.                (* and replace it *)
Definition step (w : world) (tmp : text) (s : state) (e : event) : option state :=
  match e with
  | Finished img => match process w tmp img with
                    | None => Some s
                    | Some st => match record img st (s_lines s) with Some l => Some (mkState l (s_copy s)) | None => None end
                    end
  | Enqueued p => Some (mkState (s_lines s ++ [p ++ 32 :: QUEUED]) (s_copy s))
  | Clean_begins => Some (mkState (s_lines s) (Some (map clean (s_lines s))))
  | Clean_ends => match s_copy s with Some l => Some (mkState l None) | None => Some s end
  end.
Fixpoint run (w : world) (tmp : text) (s : state) (es : list event) : option state :=
  match es with [] => Some s | e :: t => match step w tmp s e with Some s' => run w tmp s' t | None => None end end.
