(** * Model of src/make-land-domain/make_land_domain.c (over the reals) *)
From Coq Require Import String Reals.
From Verif Require Import Base Str M_Interp M_Supergrid.
Open Scope list_scope. Open Scope Z_scope.

(** A cell of an exchange grid file: column and row on the land face, and its area
    (read_mosaic_xgrid_order1; the atmosphere side is read and not used) *)
Record lcell := { l_i : Z; l_j : Z; l_area : R }.
(** What main reads: name of the land mosaic, common size and number of faces, the aXl files with
    their names, and tile_index of the restart file of each face *)
Record land_input := { d_mosaic : str; d_nx : Z; d_ny : Z; d_nfaces : Z;
  d_files : list (str * list lcell); d_restart : list (list Z) }.
Definition RADIUS : R := 6371000.

(** sprintf(face_name, "%s_tile%d", mosaic_name, face+1), line 168 (buffer size not modelled) *)
Definition face_name (mosaic : str) (face : Z) : str := mosaic ++ chars "_tile" ++ print_int 0 (face + 1).
(** Lines 169-200: area of the land cells of one face *)
Definition face_area (d : land_input) (face : Z) : outcome (list R) :=
  ofold (fun area f =>
    if negb (strstr (fst f) (face_name (d_mosaic d) face)) then Ok area else
    ofold (fun area c => do v <- oget area (l_j c * d_nx d + l_i c) ;
      oset area (l_j c * d_nx d + l_i c) (v + l_area c * 4 * PI * RADIUS * RADIUS)%R) (snd f) area)
    (d_files d) (repeat 0%R (Z.to_nat (d_nx d * d_ny d))).
(** Lines 161-208: masks, counts per face and the total *)
Definition land_masks (d : land_input) : outcome (list (list Z) * list Z * Z) :=
  ofor 0 (d_nfaces d) (fun st face => let '(masks, counts, nlands) := st in
    do area <- face_area d face ;
    do r <- ofor 0 (d_nx d * d_ny d) (fun st n => let '(mask, cnt, tot) := st in
      do v <- oget area n ;
      if rlt 0 v then do mask <- oset mask n 1 ; Ok (mask, cnt + 1, tot + 1) else Ok (mask, cnt, tot))
      (repeat 0 (Z.to_nat (d_nx d * d_ny d)), 0, nlands) ;
    let '(mask, cnt, tot) := r in
    Ok (masks ++ [mask], counts ++ [cnt], tot)) ([], [], 0).
(** Lines 229-250: tiles per cell.  For one face the arguments of strcpy at line 234 are
    swapped: an uninitialised buffer is copied over the option's text and then opened. *)
Definition tile_counts (d : land_input) : outcome (list (list Z)) :=
  ofor 0 (d_nfaces d) (fun counts face =>
    if d_nfaces d =? 1 then UB else
    do idx <- oget (d_restart d) face ;
    do cnt <- ofold (fun cnt i =>
      if i <? 0 then Err 1 else
      if d_nx d * d_ny d =? 0 then UB else
      let k := Z.rem i (d_nx d * d_ny d) in
      do v <- oget cnt k ; oset cnt k (v + 1)) idx (repeat 0 (Z.to_nat (d_nx d * d_ny d))) ;
    Ok (counts ++ [cnt])) [].
(** Lines 254-261 *)
Definition check_masks (d : land_input) (masks ntile : list (list Z)) : outcome unit :=
  ofor 0 (d_nfaces d) (fun _ face =>
    do m <- oget masks face ; do t <- oget ntile face ;
    ofor 0 (d_nx d * d_ny d) (fun _ n =>
      do a <- oget m n ; do b <- oget t n ;
      if (0 <? a) && (b =? 0) then Err 2 else if (a =? 0) && (0 <? b) then Err 3 else Ok tt) tt) tt.
(** Lines 264-286: packing *)
Definition pack (d : land_input) (masks ntile : list (list Z)) (nlands : Z) : outcome (list Z * list Z) :=
  do r <- ofor 0 (d_nfaces d) (fun st face =>
    do m <- oget masks face ; do t <- oget ntile face ;
    ofor 0 (d_nx d * d_ny d) (fun st n => let '(pos, gi, gt) := st in
      do a <- oget m n ;
      if 0 <? a then
        do gi <- oset gi pos n ; do b <- oget t n ; do gt <- oset gt pos b ; Ok (pos + 1, gi, gt)
      else Ok (pos, gi, gt)) st)
    (0, repeat (-1) (Z.to_nat nlands), repeat 0 (Z.to_nat nlands)) ;
  Ok (snd (fst r), snd r).
(** main, from line 144: nland_face, grid_index, grid_ntile as written *)
Definition make_land_domain (d : land_input) : outcome (list Z * list Z * list Z) :=
  do mk <- land_masks d ;
  let '(masks, nland_face, nlands) := mk in
  do nt <- tile_counts d ;
  do _ <- check_masks d masks nt ;
  do p <- pack d masks nt nlands ;
  Ok (nland_face, fst p, snd p).
