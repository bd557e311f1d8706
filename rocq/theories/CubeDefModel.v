(** Model of the datacube definition file: src/modules/cross-level/cube-cl.c:242-423
    and of read_tagvalue in src/modules/cross-level/read-cl.c:37-107.  Files are
    character lists without NUL bytes; [None] is a file that cannot be opened.  The
    libc conversion atof is a parameter; locking and the other members of cube_t
    are not modelled. *)
From Verif Require Import Base CStr Loops StringModel Float DecModel.

(** cube_t: projection, origin_geo, origin_map, tile_size. *)
Record cdef := mkCdef { cd_proj : list Z; cd_geo_x : f64; cd_geo_y : f64; cd_map_x : f64; cd_map_y : f64;
                        cd_size_x : f64; cd_size_y : f64 }.

(** init_datacube: cube-cl.c:101-118. *)
Definition zero64 : f64 := BinarySingleNaN.B754_zero false.
Definition init_datacube : cdef := mkCdef [] zero64 zero64 zero64 zero64 zero64 zero64.

(** write_datacube_def: cube-cl.c:242-270.  An existing file is left as it is. *)
Definition def_text (c : cdef) : list Z :=
  ` "PROJECTION = " ++ cd_proj c ++ [10] ++
  ` "ORIGIN_GEO_X = " ++ print_f (cd_geo_x c) ++ [10] ++
  ` "ORIGIN_GEO_Y = " ++ print_f (cd_geo_y c) ++ [10] ++
  ` "ORIGIN_MAP_X = " ++ print_f (cd_map_x c) ++ [10] ++
  ` "ORIGIN_MAP_Y = " ++ print_f (cd_map_y c) ++ [10] ++
  ` "TILE_SIZE_X = " ++ print_f (cd_size_x c) ++ [10] ++
  ` "TILE_SIZE_Y = " ++ print_f (cd_size_y c) ++ [10].
Definition write_datacube_def (file : option (list Z)) (c : cdef) : list Z :=
  match file with Some f => f | None => def_text c end.

(** read_tagvalue: read-cl.c:37-107.  [Ret None] is the NULL result.  The growth of
    the row buffer is not modelled except that an empty file makes the final
    reallocation fail (0 rows: exit). *)
Fixpoint tagvalue_loop (fuel : nat) (file : list Z) (acc : list (list Z * list Z))
  : outcome (option (list (list Z * list Z))) :=
  match fgets 65536 file with
  | None => Ret (Some acc)
  | Some (line, rest) =>
    match fuel with
    | O => UB
    | S f =>
      let l := take_until [13; 10] line in
      match strtok (` " =") l with
      | None => Ret None
      | Some (tag, save) =>
        tag <- copy_string 1024 tag ;;
        match strtok (` " =") save with
        | None => Ret None
        | Some (val, _) => val <- copy_string 1024 val ;; tagvalue_loop f rest (acc ++ [(tag, val)])
        end
      end
    end
  end.
Definition read_tagvalue (file : option (list Z)) : outcome (option (list (list Z * list Z))) :=
  match file with
  | None => Ret None
  | Some f =>
    r <- tagvalue_loop (length f) f [] ;;
    match r with Some [] => Exit | _ => Ret r end
  end.

(** read_datacube_def_deprecated: cube-cl.c:280-322. *)
Definition old_tags : list (list Z) :=
  [` "PROJECTION"; ` "ORIGIN_GEO_X"; ` "ORIGIN_GEO_Y"; ` "ORIGIN_MAP_X"; ` "ORIGIN_MAP_Y"; ` "TILE_SIZE_Y"].
Fixpoint old_loop (tags : list (list Z)) (file : list Z) : outcome (list (list Z * list Z)) :=
  match tags with
  | [] => Ret []
  | tag :: rest_tags =>
    match fgets 1024 file with
    | None => Exit
    | Some (line, rest) =>
      val <- copy_string 1024 (take_until [13; 10; 35] line) ;;
      more <- old_loop rest_tags rest ;;
      Ret ((tag, val) :: more)
    end
  end.
Definition read_deprecated (file : option (list Z)) : outcome (list (list Z * list Z)) :=
  match file with
  | None => Exit
  | Some f =>
    rows <- old_loop old_tags f ;;
    last <- of_option (get_at rows 5) ;;
    Ret (rows ++ [(` "TILE_SIZE_X", snd last)])
  end.

(** read_datacube_def: cube-cl.c:331-399.  [Ret None] is the NULL result. *)
Section Read.
Variable atof : list Z -> f64.

Definition with_row (c : cdef) (tag val : list Z) : outcome (option cdef) :=
  if streq tag (` "PROJECTION") then
    p <- copy_string 1024 val ;;
    Ret (Some (mkCdef p (cd_geo_x c) (cd_geo_y c) (cd_map_x c) (cd_map_y c) (cd_size_x c) (cd_size_y c)))
  else if streq tag (` "ORIGIN_GEO_X") then
    Ret (Some (mkCdef (cd_proj c) (atof val) (cd_geo_y c) (cd_map_x c) (cd_map_y c) (cd_size_x c) (cd_size_y c)))
  else if streq tag (` "ORIGIN_GEO_Y") then
    Ret (Some (mkCdef (cd_proj c) (cd_geo_x c) (atof val) (cd_map_x c) (cd_map_y c) (cd_size_x c) (cd_size_y c)))
  else if streq tag (` "ORIGIN_MAP_X") then
    Ret (Some (mkCdef (cd_proj c) (cd_geo_x c) (cd_geo_y c) (atof val) (cd_map_y c) (cd_size_x c) (cd_size_y c)))
  else if streq tag (` "ORIGIN_MAP_Y") then
    Ret (Some (mkCdef (cd_proj c) (cd_geo_x c) (cd_geo_y c) (cd_map_x c) (atof val) (cd_size_x c) (cd_size_y c)))
  else if streq tag (` "TILE_SIZE_X") then
    Ret (Some (mkCdef (cd_proj c) (cd_geo_x c) (cd_geo_y c) (cd_map_x c) (cd_map_y c) (atof val) (cd_size_y c)))
  else if streq tag (` "TILE_SIZE_Y") then
    Ret (Some (mkCdef (cd_proj c) (cd_geo_x c) (cd_geo_y c) (cd_map_x c) (cd_map_y c) (cd_size_x c) (atof val)))
  else Ret None.

Fixpoint parse_rows (rows : list (list Z * list Z)) (c : cdef) (received : Z) : outcome (option cdef) :=
  match rows with
  | [] => Ret (if received =? 7 then Some c else None)
  | (tag, val) :: rest =>
    r <- with_row c tag val ;;
    match r with None => Ret None | Some c' => parse_rows rest c' (received + 1) end
  end.

Definition read_datacube_def (file : option (list Z)) : outcome (option cdef) :=
  r <- read_tagvalue file ;;
  rows <- match r with Some rows => Ret rows | None => read_deprecated file end ;;
  parse_rows rows init_datacube 0.

(** copy_datacube_def: cube-cl.c:409-423: the datacube and the file in the target
    directory. *)
Definition copy_datacube_def (from to : option (list Z)) : outcome (option (cdef * list Z)) :=
  r <- read_datacube_def from ;;
  match r with None => Ret None | Some c => Ret (Some (c, write_datacube_def to c)) end.
End Read.
