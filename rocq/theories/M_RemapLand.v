(** * Model of src/remap-land/remap_land.c: remapping of the tiles of a land restart file

    One destination face.  Doubles are real numbers.  Arrays that the code keeps side by
    side (fraction, tags, index ... of a tile) are one array of records here: they have the
    same size and are always accessed with the same subscript.  File access is not modelled:
    the contents of the files are arguments.  All processors are run one after the other;
    the only communication is the gathering on the root processor. *)
From Coq Require Import Reals.
From Verif Require Import Base M_Interp M_Runoff M_Extent.
Open Scope Z_scope.

(** MPP_FILL_INT, MPP_FILL_DOUBLE: lib/libfrencutils/mpp_io.h:39-40 (NC_FILL_INT, NC_FILL_DOUBLE
    of netcdf.h) *)
Definition FILL_INT : Z := -2147483647.
Definition FILL_DOUBLE : R := (9969209968386869 * 10 ^ 21)%R.

(** The file types, remap_land.c:365-383 *)
Inductive ftype := LAND | SOIL | CANA | SNOW | LAKE | GLAC | VEGN | FIRE.
(** use_all_tile, remap_land.c:964-965 *)
Definition use_all_tile (ft : ftype) : bool := match ft with LAND | CANA | SNOW => true | _ => false end.
(** The tests of remap_land.c:1460, 1489 and 1508 *)
Definition with_soil (ft : ftype) : bool := match ft with GLAC | LAKE => false | _ => true end.
Definition with_glac (ft : ftype) : bool := match ft with SOIL | VEGN | LAKE => false | _ => true end.
Definition with_lake (ft : ftype) : bool := match ft with SOIL | VEGN | GLAC => false | _ => true end.

(** What get_land_tile_info stores for a tile: frac, tag1, tag2, idx, idx_otn. *)
Record tile := Tile { t_frac : R; t_tag1 : Z; t_tag2 : Z; t_idx : Z; t_otn : Z }.
Definition no_tile : tile := Tile FILL_DOUBLE FILL_INT FILL_INT FILL_INT FILL_INT.

(** get_land_tile_info, remap_land.c:2437-2501.  [tmp1], [tmp2], [idx_in] and [frac_in] are the
    contents of the file.  Where the code passes NULL for tag2, idx or idx_otn the values
    computed here are not used.  In the code count, frac ... of a source face are a part of
    an array over all faces (lines 984-996); here they are arrays of their own, so that
    leaving the part of a face is undefined here. *)
Definition get_land_tile_info (nx ny ntile isc iec : Z) (tmp1 tmp2 idx_in : list Z) (frac_in : list R) (all_tile : bool)
  : outcome (list Z * list tile) :=
  let nxc := iec - isc + 1 in
  do '(count, tiles, _) <- ofor 0 (zlen tmp1) (fun st l =>
    let '(count, tiles, pos) := st in
    do t1 <- oget tmp1 l ;
    if t1 =? FILL_INT then Ok st else
    do g <- oget idx_in l ;
    let i := Z.rem g nx in
    let k := Z.quot g nx in
    let j := Z.rem k ny in
    let p := j * nx + i in
    let it := Z.quot g (nx * ny) in
    if (p <? isc) || (iec <? p) then Ok st else
    let p := p - isc in
    do c <- oget count p ;
    if ntile <? c then Err 1 else
    do f <- oget frac_in l ;
    do t2 <- oget tmp2 l ;
    do tiles <- oset tiles (ntile * p + c) (Tile f t1 t2 (if all_tile then l else pos) it) ;
    do count <- oset count p (c + 1) ;
    Ok (count, tiles, pos + 1))
    (repeat 0 (Z.to_nat nxc), repeat no_tile (Z.to_nat (ntile * nxc)), 0) ;
  Ok (count, tiles).

(** great_circle_distance, lib/libfrencutils/mosaic_util.c:747-759; RADIUS is 6371000 (constant.h) *)
Definition great_circle_distance (lon1 lat1 lon2 lat2 : R) : R :=
  (6371000 * (2 * asin (sqrt (sin ((lat1 - lat2) / 2) * sin ((lat1 - lat2) / 2) +
     cos lat1 * cos lat2 * (sin ((lon1 - lon2) / 2) * sin ((lon1 - lon2) / 2))))))%R.

(** full_search_nearest, remap_land.c:2520-2560, for one destination point whose mask is not 0.
    The state is d_cur, face_cur, ind_cur (the last two are not initialised in the code
    and are used only after they have been set). *)
Definition search_point (nface npts : Z) (lon lat : list R) (mask : list Z) (x y : R) : outcome (Z * Z) :=
  do '(d_cur, face_cur, ind_cur) <- ofor 0 nface (fun st m => ofor 0 npts (fun st i =>
    let '(d_cur, face_cur, ind_cur) := st in
    let l := m * npts + i in
    do k <- oget mask l ;
    if k =? 0 then Ok st else
    do lo <- oget lon l ; do la <- oget lat l ;
    let d := great_circle_distance x y lo la in
    if rlt d_cur 0 || rlt d d_cur then Ok (d, m, i) else Ok st) st) ((-1)%R, 0, 0) ;
  if rlt d_cur 0 then Err 2 else Ok (face_cur, ind_cur).
(** full_search_nearest: face_map and idx_map, as a list of pairs *)
Definition full_search_nearest (nface npts : Z) (lon lat : list R) (mask : list Z)
  (npts_dst : Z) (lon_dst lat_dst : list R) (mask_dst : list Z) : outcome (list (Z * Z)) :=
  ofor 0 npts_dst (fun map i =>
    do k <- oget mask_dst i ;
    if k =? 0 then Ok (map ++ [(-1, -1)]) else
    do x <- oget lon_dst i ; do y <- oget lat_dst i ;
    do r <- search_point nface npts lon lat mask x y ;
    Ok (map ++ [r])) [].

(** A land restart file: tile_index, frac, soil, vegn, glac, lake. *)
Record landfile := LandFile { l_idx : list Z; l_frac : list R; l_soil : list Z; l_vegn : list Z; l_glac : list Z; l_lake : list Z }.

(** The source tiles of all faces, remap_land.c:967-998: the counts and tiles of the faces
    one after the other. *)
Definition source_tiles (nx ny ntile : Z) (all_tile : bool) (tag1 tag2 : landfile -> list Z) (files : list landfile)
  : outcome (list Z * list tile) :=
  ofold (fun st f =>
    let '(count, tiles) := st in
    do '(c, t) <- get_land_tile_info nx ny ntile 0 (nx * ny - 1) (tag1 f) (tag2 f) (l_idx f) (l_frac f) all_tile ;
    Ok (count ++ c, tiles ++ t)) files ([], []).

(** What is stored for a destination tile, remap_land.c:1464-1471, 1490-1494, 1509-1512 *)
Record dtile := DTile { d_soil : Z; d_vegn : Z; d_glac : Z; d_lake : Z; d_frac : R; d_idx : Z; d_otn : Z; d_face : Z }.
(** remap_land.c:1256, 1267-1279 (d_otn and d_face are not initialised in the code; they are used
    only where d_idx has been set) *)
Definition no_dtile : dtile := DTile FILL_INT FILL_INT FILL_INT FILL_INT FILL_DOUBLE (-1) 0 0.

(** The tables used when the destination cells are filled. *)
Record tables := Tables {
  b_soil_count : list Z; b_soil : list tile;              (* source *)
  b_glac_count : list Z; b_glac : list tile;
  b_lake_count : list Z; b_lake : list tile;
  b_soil_cold : list Z; b_soil_frac_cold : list R;        (* destination: cold restart *)
  b_glac_cold : list Z; b_glac_cold_tile : list tile;
  b_lake_cold : list Z; b_lake_cold_tile : list tile;
  b_soil_map : list (Z * Z); b_glac_map : list (Z * Z); b_lake_map : list (Z * Z) }.

(** The soil part of the loop over the destination cells, remap_land.c:1450-1480.
    The state is land_count_dst, the tiles, nidx_dst. *)
Definition map_soil (ft : ftype) (ntile ns : Z) (b : tables) (st : list Z * list dtile * Z) (i : Z) : outcome (list Z * list dtile * Z) :=
  let '(lc, tiles, nidx) := st in
  do sc <- oget (b_soil_cold b) i ;
  if negb (0 <? sc) then Ok st else
  do '(n, idx) <- oget (b_soil_map b) i ;
  if n <? 0 then Err 3 else
  let p := n * ns + idx in
  do count <- oget (b_soil_count b) p ;
  do pos <- oget lc i ;
  do '(tiles, nidx) <-
    (if with_soil ft then
       do '(tiles, tot) <- ofor 0 count (fun st l =>
         let '(tiles, tot) := st in
         let idst := ntile * i + (pos + l) in
         do s <- oget (b_soil b) (ntile * p + l) ;
         do fc <- oget (b_soil_frac_cold b) i ;
         do d <- oget tiles idst ;
         do tiles <- oset tiles idst (DTile (t_tag1 s) (t_tag2 s) (d_glac d) (d_lake d) (t_frac s * fc)%R (t_idx s) (t_otn s) n) ;
         Ok (tiles, (tot + t_frac s)%R)) (tiles, 0%R) ;
       do tiles <- ofor pos count (fun tiles l =>
         do d <- oget tiles (ntile * i + l) ;
         oset tiles (ntile * i + l) (DTile (d_soil d) (d_vegn d) (d_glac d) (d_lake d) (d_frac d / tot)%R (d_idx d) (d_otn d) (d_face d))) tiles ;
       Ok (tiles, nidx + count)
     else Ok (tiles, nidx)) ;
  do lc <- oset lc i (pos + count) ;
  Ok (lc, tiles, nidx).

(** The glacier and the lake part, remap_land.c:1481-1517: the same but for the tag that is set. *)
Definition map_single (wanted : bool) (ntile ns : Z) (set : dtile -> Z -> dtile) (cold : list Z) (cold_tile : list tile)
  (count : list Z) (src : list tile) (smap : list (Z * Z)) (st : list Z * list dtile * Z) (i : Z) : outcome (list Z * list dtile * Z) :=
  let '(lc, tiles, nidx) := st in
  do gc <- oget cold i ;
  if negb (0 <? gc) then Ok st else
  do '(n, idx) <- oget smap i ;
  let p := n * ns + idx in
  do pos <- oget lc i ;
  do c <- oget count p ;
  if negb (c =? 1) then Err 4 else
  do '(tiles, nidx) <-
    (if wanted then
       do s <- oget src p ;
       do ct <- oget cold_tile i ;
       do d <- oget tiles (ntile * i + pos) ;
       let d := set d (t_tag1 s) in
       do tiles <- oset tiles (ntile * i + pos) (DTile (d_soil d) (d_vegn d) (d_glac d) (d_lake d) (t_frac ct) (t_idx s) (d_otn d) n) ;
       Ok (tiles, nidx + 1)
     else Ok (tiles, nidx)) ;
  do lc <- oset lc i (pos + 1) ;
  Ok (lc, tiles, nidx).
Definition set_glac (d : dtile) (v : Z) : dtile := DTile (d_soil d) (d_vegn d) v (d_lake d) (d_frac d) (d_idx d) (d_otn d) (d_face d).
Definition set_lake (d : dtile) (v : Z) : dtile := DTile (d_soil d) (d_vegn d) (d_glac d) v (d_frac d) (d_idx d) (d_otn d) (d_face d).

(** remap_land.c:1446-1518 *)
Definition map_cells (ft : ftype) (has_glac has_lake : bool) (ntile ns nxc : Z) (b : tables) : outcome (list Z * list dtile * Z) :=
  ofor 0 nxc (fun st i =>
    do st <- map_soil ft ntile ns b st i ;
    do st <- (if has_glac then map_single (with_glac ft) ntile ns set_glac (b_glac_cold b) (b_glac_cold_tile b) (b_glac_count b) (b_glac b) (b_glac_map b) st i else Ok st) ;
    (if has_lake then map_single (with_lake ft) ntile ns set_lake (b_lake_cold b) (b_lake_cold_tile b) (b_lake_count b) (b_lake b) (b_lake_map b) st i else Ok st))
    (repeat 0 (Z.to_nat nxc), repeat no_dtile (Z.to_nat (ntile * nxc)), 0).

(** soil_frac_cold, remap_land.c:1263-1265, 1296-1297 *)
Definition soil_frac_cold (ntile_cold nxc : Z) (count : list Z) (tiles : list tile) : outcome (list R) :=
  ofor 0 nxc (fun out i =>
    do c <- oget count i ;
    do s <- ofor 0 c (fun s l => do t <- oget tiles (ntile_cold * i + l) ; Ok (s + t_frac t)%R) 0%R ;
    Ok (out ++ [s])) [].

(** The source and the destination. *)
Record input := Input {
  i_nface : Z; i_nx : Z; i_ny : Z; i_ntile : Z;              (* source mosaic, number of tiles *)
  i_lon : list R; i_lat : list R;                            (* source cells, all faces, radians *)
  i_files : list landfile;                                   (* source land restart files *)
  i_nxd : Z; i_nyd : Z; i_ntile_cold : Z;                    (* destination face *)
  i_lond : list R; i_latd : list R;
  i_cold : landfile;                                         (* land cold restart file *)
  i_has_glac : bool; i_has_lake : bool }.

(** The destination points of a processor, remap_land.c:1250-1253 *)
Definition window {A} (l : list A) (isc nxc : Z) : list A := firstn (Z.to_nat nxc) (skipn (Z.to_nat isc) l).

(** One processor: remap_land.c:967-998 (source tiles), 1250-1298 (cold restart), 1366-1375
    (search; the remap file is not used), 1446-1518 (destination cells).  The tables
    of glaciers and lakes are built only if there are any. *)
Definition one_pe (ft : ftype) (z : input) (isc iec : Z) : outcome (list Z * list dtile * Z) :=
  let all := use_all_tile ft in
  let nxc := iec - isc + 1 in
  let ns := i_nx z * i_ny z in
  let x := window (i_lond z) isc nxc in
  let y := window (i_latd z) isc nxc in
  let search count cold := full_search_nearest (i_nface z) ns (i_lon z) (i_lat z) count nxc x y cold in
  let cold_tiles := fun ntile tag1 tag2 =>
    get_land_tile_info (i_nxd z) (i_nyd z) ntile isc iec tag1 tag2 (l_idx (i_cold z)) (l_frac (i_cold z)) false in
  let single := fun (has : bool) (tag : landfile -> list Z) =>
    if has then
      do '(sc, st) <- source_tiles (i_nx z) (i_ny z) 1 all tag tag (i_files z) ;
      do '(cc, ct) <- cold_tiles 1 (tag (i_cold z)) (tag (i_cold z)) ;
      do m <- search sc cc ;
      Ok (sc, st, cc, ct, m)
    else Ok ([], [], [], [], []) in
  do '(sc, st) <- source_tiles (i_nx z) (i_ny z) (i_ntile z) all l_soil l_vegn (i_files z) ;
  do '(cc, ct) <- cold_tiles (i_ntile_cold z) (l_soil (i_cold z)) (l_vegn (i_cold z)) ;
  do fc <- soil_frac_cold (i_ntile_cold z) nxc cc ct ;
  do sm <- search sc cc ;
  do '(gsc, gst, gcc, gct, gm) <- single (i_has_glac z) l_glac ;
  do '(lsc, lst, lcc, lct, lm) <- single (i_has_lake z) l_lake ;
  map_cells ft (i_has_glac z) (i_has_lake z) (i_ntile z) ns nxc
    (Tables sc st gsc gst lsc lst cc fc gcc gct lcc lct sm gm lm).

(** The tile index of the destination, remap_land.c:1524-1534 *)
Definition tile_index (ntile npts_global isc nxc : Z) (tiles : list dtile) : outcome (list Z) :=
  ofor 0 (nxc * ntile) (fun out m =>
    do d <- oget tiles m ;
    Ok (out ++ [if -1 <? d_idx d then (m mod ntile) * npts_global + m / ntile + isc else FILL_INT])) [].

(** start_pos, remap_land.c:1826-1829 *)
Definition start_pos (nidx_src : list Z) (face : Z) : Z := fold_right Z.add 0 (firstn (Z.to_nat face) nidx_src).

(** The values of a field on the destination tiles, remap_land.c:1870-1879, 1884-1893, 2035-2044 ...
    [data] holds the values of all source files one after the other (lines 1835-1854). *)
Definition field_values {A} (fill : A) (nidx_src : list Z) (data : list A) (tiles : list dtile) : outcome (list A) :=
  ofold (fun out d =>
    if d_idx d <? 0 then Ok (out ++ [fill])
    else do v <- oget data (start_pos nidx_src (d_face d) + d_idx d) ; Ok (out ++ [v])) tiles [].

(** compress_int_data / compress_double_data, remap_land.c:2613-2680, the part of one processor.
    [None] is an element of data_local that has not been set: for doubles [init] is
    [None], for integers the fill value (line 2657).  The result holds, for every n, the
    elements of data_local handed over to the gathering. *)
Definition compress_local {A} (is_fill : A -> bool) (init : option A) (ntile npts nidx : Z) (land_count : list Z) (data : list A) (all_tile : bool)
  : outcome (list (list (option A))) :=
  do '(_, _, segs) <- ofor 0 ntile (fun st n =>
    let '(local, pos1, segs) := st in
    do '(local, pos) <- ofor 0 npts (fun st i =>
      let '(local, pos) := st in
      do c <- oget land_count i ;
      if n <? c then
        do v <- oget data (ntile * i + n) ;
        if is_fill v then Ok (local, if all_tile then pos + 1 else pos)
        else do local <- oset local pos (Some v) ; Ok (local, pos + 1)
      else Ok (local, pos)) (local, pos1) ;
    Ok (local, pos, segs ++ [firstn (Z.to_nat (pos - pos1)) (skipn (Z.to_nat pos1) local)]))
    (repeat init (Z.to_nat nidx), 0, []) ;
  Ok segs.

(** The gathering on the root processor, mpp_domain.c:757-808 called at remap_land.c:2635-2638 and
    2673-2677: the parts of the processors, in their order, are stored from [pos2] on. *)
Definition gather {A} (global : list A) (pos2 : Z) (parts : list (list A)) : outcome (list A * Z) :=
  ofold (fun st v => let '(g, p) := st in do g <- oset g p v ; Ok (g, p + 1)) (concat parts) (global, pos2).
Definition compress_global {A} (ntile : Z) (global : list (option A)) (locals : list (list (list (option A)))) : outcome (list (option A)) :=
  do '(g, _) <- ofor 0 ntile (fun st n =>
    let '(g, pos2) := st in
    do parts <- ofold (fun acc segs => do s <- oget segs n ; Ok (acc ++ [s])) locals [] ;
    gather g pos2 parts) (global, 0) ;
  Ok g.

(** All processors: domain decomposition (remap_land.c:1126-1135; with layout (npes,1) the domain
    of processor p is division p) and the work of each. *)
Record pe_result := PeResult { r_isc : Z; r_nxc : Z; r_count : list Z; r_tiles : list dtile; r_nidx : Z }.
Definition all_pes (ft : ftype) (z : input) (npes : Z) : outcome (list pe_result) :=
  let fresh := repeat 0 (Z.to_nat npes) in
  do '(ib, ie) <- mpp_compute_extent (i_nxd z * i_nyd z) npes fresh fresh ;
  ofor 0 npes (fun acc p =>
    do isc <- oget ib p ; do iec <- oget ie p ;
    do '(lc, tiles, nidx) <- one_pe ft z isc iec ;
    Ok (acc ++ [PeResult isc (iec - isc + 1) lc tiles nidx])) [].

(** Writing one array of a destination tile each: what is written into the file on the root
    processor.  [values] computes the array from the tiles of a processor. *)
Definition write {A} (ft : ftype) (z : input) (is_fill : A -> bool) (init global : option A)
  (values : pe_result -> outcome (list A)) (pes : list pe_result) : outcome (list (option A)) :=
  let nidx_global := fold_right Z.add 0 (map r_nidx pes) in
  do locals <- ofold (fun acc r =>
    do d <- values r ;
    do segs <- compress_local is_fill init (i_ntile z) (r_nxc r) (r_nidx r) (r_count r) d (use_all_tile ft) ;
    Ok (acc ++ [segs])) pes [] ;
  compress_global (i_ntile z) (repeat global (Z.to_nat nidx_global)) locals.

Definition int_fill (v : Z) : bool := v =? FILL_INT.
Definition real_fill (v : R) : bool := reqb v FILL_DOUBLE.

(** remap_land.c:1767-1770, 1777-1780, 1781-1800: the tile index, the fractions and the tags *)
Definition write_tile_index (ft : ftype) (z : input) (pes : list pe_result) : outcome (list (option Z)) :=
  write ft z int_fill (Some FILL_INT) None
    (fun r => tile_index (i_ntile z) (i_nxd z * i_nyd z) (r_isc r) (r_nxc r) (r_tiles r)) pes.
Definition write_frac (ft : ftype) (z : input) (pes : list pe_result) : outcome (list (option R)) :=
  write ft z real_fill None (Some FILL_DOUBLE) (fun r => Ok (map d_frac (r_tiles r))) pes.
Definition write_tag (ft : ftype) (z : input) (tag : dtile -> Z) (pes : list pe_result) : outcome (list (option Z)) :=
  write ft z int_fill (Some FILL_INT) None (fun r => Ok (map tag (r_tiles r))) pes.
(** A field of integers or doubles, remap_land.c:1819-1901, 1994-2062 (one level of it).
    [src] holds the field of every source file. *)
Definition write_int (ft : ftype) (z : input) (src : list (list Z)) (pes : list pe_result) : outcome (list (option Z)) :=
  write ft z int_fill (Some FILL_INT) None (fun r => field_values FILL_INT (map zlen src) (concat src) (r_tiles r)) pes.
Definition write_double (ft : ftype) (z : input) (src : list (list R)) (pes : list pe_result) : outcome (list (option R)) :=
  write ft z real_fill None (Some FILL_DOUBLE) (fun r => field_values FILL_DOUBLE (map zlen src) (concat src) (r_tiles r)) pes.
