(** Model of get_land_area, src/check-mask/check_mask.c:971-1025, over the reals, and of the land
    branch of main that calls it.  What is read is the [land_input] of [M_LandDomain] without the
    restart files, and the directory of the grid file. *)
From Coq Require Import String Reals.
From Verif Require Import Base Str M_Interp M_Supergrid M_LandDomain M_LandMask.
Open Scope list_scope. Open Scope Z_scope.

(** check_mask.c:987-1023.  The name searched for the tile's name is the whole path, 1003-1006. *)
Definition get_land_area (d : land_input) (dir : str) (tile : Z) : outcome (list R) :=
  do area <- ofold (fun area f =>
    if (1 <? d_nfaces d) && negb (strstr (dir ++ chars "/" ++ fst f) (face_name (d_mosaic d) (tile - 1))) then Ok area else
    ofold (fun area c => do v <- oget area (l_j c * d_nx d + l_i c) ;
      oset area (l_j c * d_nx d + l_i c) (v + l_area c)%R) (snd f) area)
    (d_files d) (repeat 0%R (Z.to_nat (d_nx d * d_ny d))) ;
  ofor 0 (d_nx d * d_ny d) (fun area i => do v <- oget area i ; oset area i (v * (4 * PI * RADIUS * RADIUS))%R) area.

(** check_mask.c:430-476; error 1: not six tiles, 2: tiles not square.  All tiles have the same
    size here (449-451). *)
Definition check_land (d : land_input) (dir : str) (lx ly : Z) (arr : list Z) : outcome (option land_table) :=
  if negb (d_nfaces d =? 6) then Err 1 else
  if negb (d_nx d =? d_ny d) then Err 2 else
  do land <- ofor 0 6 (fun land n => do tmp <- get_land_area d dir (n + 1) ; Ok (land ++ [map (rlt 0) tmp])) [] ;
  land_mask (d_nx d) lx ly arr land.
