(** All tiles of a datacube seen as one image without borders. *)
From Verif Require Import Base ImgSpec.

(** A cube: pixels per chunk and chunks per tile in both directions; for every
    tile that has a file, its bands, row by row. *)
Record cube := mkCube { q_npx : Z; q_npy : Z; q_ncx : Z; q_ncy : Z; q_tile : Z -> Z -> option (list (list Z)) }.
Definition tile_w (q : cube) : Z := q_ncx q * q_npx q.
Definition tile_h (q : cube) : Z := q_ncy q * q_npy q.
Definition cube_ok (q : cube) : Prop := 0 < q_npx q /\ 0 < q_npy q /\ 0 < q_ncx q /\ 0 < q_ncy q /\
  forall tx ty bs, q_tile q tx ty = Some bs -> Forall (fun b => zlen b = tile_w q * tile_h q) bs.

(** Value at global row [R] and column [C] of band number [b] (from 1; 0 is a blank
    band): that of the tile the position lies in, nodata where there is no file. *)
Definition world (q : cube) (nodata b R C : Z) : option Z :=
  match q_tile q (C / tile_w q) (R / tile_h q) with
  | None => Some nodata
  | Some bs => if b =? 0 then Some 0 else
               match get_at bs (b - 1) with
               | Some band => pix band (tile_w q) (R mod tile_h q) (C mod tile_w q)
               | None => None
               end
  end.

(** First global column / row of a chunk. *)
Definition first_col (q : cube) (tx cx : Z) : Z := (tx * q_ncx q + cx) * q_npx q.
Definition first_row (q : cube) (ty cy : Z) : Z := (ty * q_ncy q + cy) * q_npy q.
