(** * Vocabulary for C53: land cells of a face and their tiles *)
From Coq Require Import String Reals Sorted.
From Verif Require Import Base Str M_LandDomain Spec_Interp Spec_Supergrid.
Open Scope list_scope. Open Scope Z_scope.

(** [owner] tells on which land face (from 0) the cells of an exchange file lie; the file names
    say the same: the name of a file contains <mosaic>_tile<n> just for its own face *)
Definition names_tell (d : land_input) (owner : str * list lcell -> Z) : Prop :=
  forall f, In f (d_files d) -> forall face, 0 <= face < d_nfaces d ->
    (occurs (d_mosaic d ++ chars "_tile" ++ print_int 0 (face + 1)) (fst f) <-> owner f = face).
(** Exchange cells inside the faces *)
Definition cells_inside (d : land_input) : Prop :=
  forall f c, In f (d_files d) -> In c (snd f) -> 0 <= l_i c < d_nx d /\ 0 <= l_j c < d_ny d.
(** The area of land on cell [n] (counted along the rows) of a face *)
Definition exchange_cells (d : land_input) owner (face : Z) : list lcell :=
  flat_map snd (filter (fun f => owner f =? face) (d_files d)).
Definition land_area (d : land_input) owner (face n : Z) : R :=
  rsum l_area (filter (fun c => l_j c * d_nx d + l_i c =? n) (exchange_cells d owner face)).
Definition is_land d owner face n : Prop := 0 <= n < d_nx d * d_ny d /\ (0 < land_area d owner face n)%R.
(** The number of tiles the restart file of the face has in cell [n]: tile_index is
    n + (nx*ny) * (tile number) *)
Definition ntiles (d : land_input) (face n : Z) : Z :=
  match zget (d_restart d) face with Some idx => zlen (filter (fun i => i mod (d_nx d * d_ny d) =? n) idx) | None => 0 end.
(** Land cells are just the cells with tiles, and no index is negative *)
Definition consistent (d : land_input) owner : Prop :=
  forall face, 0 <= face < d_nfaces d ->
    (forall idx i, zget (d_restart d) face = Some idx -> In i idx -> 0 <= i) /\
    (forall n, 0 <= n < d_nx d * d_ny d -> is_land d owner face n <-> 0 < ntiles d face n).
(** [cells f] lists the land cells of face f, in increasing order *)
Definition lists_land d owner (cells : Z -> list Z) : Prop :=
  forall face, StronglySorted Z.lt (cells face) /\ forall n, In n (cells face) <-> is_land d owner face n.
