(** Model of check_mask for the land model, src/check-mask/check_mask.c.  As in [M_CheckMask] a
    field holds for each cell whether its land area is positive: check_land_mask only compares
    with 0 (848), and the rest copies values. *)
From Verif Require Import Base M_Extent M_CheckMask.

(** a[t][x] and a[t][x] = v for an array of arrays. *)
Definition get2 {A} (a : list (list A)) (t x : Z) : outcome A := do d <- oget a t ; oget d x.
Definition set2 {A} (a : list (list A)) (t x : Z) (v : A) : outcome (list (list A)) :=
  do d <- oget a t ; do d <- oset d x v ; oset a t d.

(** check_mask.c:462-471, halo = 1: the land of a tile surrounded by cells without land. *)
Definition pad_land (nx ny : Z) (tmp : list bool) : outcome (list bool) :=
  ofor 1 ny (fun a j => ofor 1 nx (fun a i =>
    do v <- oget tmp ((j - 1) * nx + i - 1) ; oset a (j * (nx + 2) + i) v) a) (repeat false (Z.to_nat ((nx + 2) * (ny + 2)))).

(** update_cubic_halo, check_mask.c:490-527 *)
Definition update_cubic_halo {A} (ntiles nx ny : Z) (data : list (list A)) : outcome (list (list A)) :=
  let nxp := nx + 2 in
  ofor 0 ntiles (fun data tile =>
    if Z.rem tile 2 =? 0 then
      let tw := Z.rem (tile + ntiles - 2) ntiles in let te := Z.rem (tile + 1) ntiles in
      let ts := Z.rem (tile + ntiles - 1) ntiles in let tn := Z.rem (tile + 2) ntiles in
      do data <- ofor 1 ny (fun data j =>
        do v <- get2 data tw (ny * nxp + nx + 1 - j) ; do data <- set2 data tile (j * nxp) v ;
        do v <- get2 data te (j * nxp + 1) ; set2 data tile (j * nxp + nx + 1) v) data ;
      ofor 1 nx (fun data i =>
        do v <- get2 data ts (ny * nxp + i) ; do data <- set2 data tile i v ;
        do v <- get2 data tn ((ny + 1 - i) * nxp + 1) ; set2 data tile ((ny + 1) * nxp + i) v) data
    else
      let tw := Z.rem (tile + ntiles - 1) ntiles in let te := Z.rem (tile + 2) ntiles in
      let ts := Z.rem (tile + ntiles - 2) ntiles in let tn := Z.rem (tile + 1) ntiles in
      do data <- ofor 1 ny (fun data j =>
        do v <- get2 data tw (j * nxp + nx) ; do data <- set2 data tile (j * nxp) v ;
        do v <- get2 data te (nxp + nx + 1 - j) ; set2 data tile (j * nxp + nx + 1) v) data ;
      ofor 1 nx (fun data i =>
        do v <- get2 data ts ((ny + 1 - i) * nxp + nx) ; do data <- set2 data tile i v ;
        do v <- get2 data tn (nxp + i) ; set2 data tile ((ny + 1) * nxp + i) v) data) data.

(** check_land_mask, check_mask.c:839-855: the domains of a tile, 1 for one that is used. *)
Definition land_masks (area : list bool) (nx lx ly : Z) (ibegin iend jbegin jend : list Z) : outcome (list Z) :=
  ofor 0 ly (fun mask j =>
    do jb <- oget jbegin j ; do je <- oget jend j ;
    ofor 0 lx (fun mask i =>
      do ib <- oget ibegin i ; do ie <- oget iend i ;
      do w <- any_wet area (nx + 2) ib (ie + 2) jb (je + 2) ;
      if (w : bool) then oset mask (j * lx + i) 1 else Ok mask) mask) (repeat 0 (Z.to_nat (lx * ly))).

(** The mask table: the number of masked domains, the layout with the number of tiles, and one
    line (i, j, tile) per domain *)
Record land_table := MkLand { l_nmask : Z; l_layout : Z * Z * Z; l_lines : list (Z * Z * Z) }.

(** check_land_mask, check_mask.c:816-908.  mask_list, three integers per masked domain, is a list
    of triples that grows; [arr]: the arrays ibegin, iend, jbegin, jend. *)
Definition check_land_mask (ntiles nx ny lx ly : Z) (arr : list Z) (land_area : list (list bool)) : outcome (option land_table) :=
  do '(ib, ie) <- mpp_compute_extent nx lx arr arr ;
  do '(jb, je) <- mpp_compute_extent ny ly arr arr ;
  do mask <- ofor 0 ntiles (fun mask n => do a <- oget land_area n ; do m <- land_masks a nx lx ly ib ie jb je ; Ok (mask ++ [m])) [] ;
  do nmask <- ofor 0 ntiles (fun c n => do m <- oget mask n ; do k <- count_masked m (lx * ly) ; Ok (c + k)) 0 ;
  if nmask >? 0 then
    do mask_list <- ofor 0 ntiles (fun l n => ofor 0 ly (fun l j => ofor 0 lx (fun l i =>
      do v <- get2 mask n (j * lx + i) ; Ok (if v =? 0 then l ++ [(i + 1, j + 1, n + 1)] else l)) l) l) [] ;
    do lines <- ofor 0 nmask (fun out n => do e <- oget mask_list n ; Ok (out ++ [e])) [] ;
    Ok (Some (MkLand nmask (lx, ly, ntiles) lines))
  else Ok None.

(** check_mask.c:459-476 for a cubed sphere of six tiles of [n] by [n] cells *)
Definition land_mask (n lx ly : Z) (arr : list Z) (land : list (list bool)) : outcome (option land_table) :=
  do area <- ofor 0 6 (fun area t => do tmp <- oget land t ; do a <- pad_land n n tmp ; Ok (area ++ [a])) [] ;
  do area <- update_cubic_halo 6 n n area ;
  check_land_mask 6 n n lx ly arr area.
