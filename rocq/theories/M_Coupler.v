(** * Model of src/make-coupler-mosaic/make_coupler_mosaic.c: the exchange grids

    The part that finds the exchange cells between atmosphere, land and ocean (and wave) grids,
    for the legacy clipping and interpolation order 1 (no centroids).  Doubles are real numbers.
    The polygon routines clip_2dx2d, poly_area and fix_lon are parameters.  Arrays that the
    code keeps side by side (cell indices and area of an exchange cell) are one list of records.
    The arrays of exchange cells are as long as the number of cells stored in them; a store
    beyond their capacity is undefined.  Files are not modelled: the grids, the cell areas and
    the ocean fractions are arguments. *)
From Coq Require Import Reals.
From Verif Require Import Base M_Interp M_Extent M_Domain2D.
Open Scope Z_scope.

(** Polygons: n, x[MV], y[MV] *)
Definition poly := list (R * R).
Record geometry := Geometry { g_clip : poly -> poly -> poly; g_area : poly -> R; g_fix : poly -> R -> poly }.
(** A tile: nxa[n], nya[n], xatm[n], yatm[n], area_atm[n] and the same for land, ocean, wave *)
Record tile := Tile { t_nx : Z; t_ny : Z; t_x : list R; t_y : list R; t_area : list R }.
(** --maxxgrid, --area_ratio_thresh, lnd_same_as_atm, ocn_same_as_atm *)
Record options := Options { o_max : Z; o_thresh : R; o_lnd_same : bool; o_ocn_same : bool }.

(** make_coupler_mosaic.c:150, 153 *)
Definition MX : Z := 2000.
Definition MIN_AREA_FRAC : R := (1 / 10000)%R.

(** minval_double, maxval_double, avgval_double: lib/libfrencutils/mosaic_util.c:226-261 *)
Definition minval (l : list R) : R := match l with [] => 0%R | x :: t => fold_left (fun m d => if rlt d m then d else m) t x end.
Definition maxval (l : list R) : R := match l with [] => 0%R | x :: t => fold_left (fun m d => if rlt m d then d else m) t x end.
Definition avgval (l : list R) : R := (fold_left Rplus l 0 / IZR (zlen l))%R.
Definition xs (p : poly) : list R := map fst p.
Definition ys (p : poly) : list R := map snd p.

(** The corners of cell (i,j), make_coupler_mosaic.c:1394-1401, 1460-1467, 1598-1605, 2627-2634 *)
Definition vertex (t : tile) (n : Z) : outcome (R * R) := do x <- oget (t_x t) n ; do y <- oget (t_y t) n ; Ok (x, y).
Definition corners (t : tile) (i j : Z) : outcome poly :=
  let w := t_nx t + 1 in
  do a <- vertex t (j * w + i) ; do b <- vertex t (j * w + i + 1) ;
  do c <- vertex t ((j + 1) * w + i + 1) ; do d <- vertex t ((j + 1) * w + i) ;
  Ok [a; b; c; d].

(** The latitudes of the cells is..ie, make_coupler_mosaic.c:1284-1307, 2581-2604 *)
Definition band (t : tile) (is ie : Z) : outcome (R * R) :=
  ofor is (ie - is + 1) (fun st la =>
    do q <- corners t (la mod t_nx t) (la / t_nx t) ;
    Ok (fold_left (fun '(lo, hi) y => (if rlt y lo then y else lo, if rlt hi y then y else hi)) (ys q) st))
    (9999%R, (-9999)%R).

(** The rows searched in a land or ocean tile for atmosphere cells, make_coupler_mosaic.c:1310-1321, 1334-1345 *)
Definition rows_atm (t : tile) (ymin ymax : R) : outcome (Z * Z) :=
  do '(js, je) <- ofor 0 (t_ny t + 1) (fun st j => ofor 0 (t_nx t + 1) (fun '(js, je) i =>
    do yy <- oget (t_y t) (j * (t_nx t + 1) + i) ;
    Ok (if rlt ymin yy then (if j <? js then j else js) else js,
        if rlt yy ymax then (if je <? j then j else je) else je)) st) (t_ny t, -1) ;
  Ok (Z.max 0 (js - 1), Z.min (t_ny t - 1) (je + 1)).
(** The rows searched in an ocean tile for land or wave cells, make_coupler_mosaic.c:2606-2615, 3131-3140 *)
Definition rows_lnd (t : tile) (ymin ymax : R) : outcome (Z * Z) :=
  do '(js, je) <- ofor 0 (t_ny t + 1) (fun st j => ofor 0 (t_nx t + 1) (fun '(js, je) i =>
    do yy <- oget (t_y t) (j * (t_nx t + 1) + i) ;
    Ok (if rlt ymin yy && rlt yy ymax then (if j <? js then j else js, if je <? j then j else je) else (js, je))) st) (t_ny t, -1) ;
  Ok (Z.max 0 (js - 1), Z.min (t_ny t - 1) (je + 1)).
(** The columns, make_coupler_mosaic.c:1322-1329, 1347-1354, 2616-2617, 3142-3149 *)
Definition columns (t : tile) (all : bool) : Z * Z := if all then (0, t_nx t - 1) else (t_nx t - 1, 0).
(** for(j=js; j<=je; j++) for(i=is; i<=ie; i++) *)
Definition over {S} (js je is ie : Z) (f : S -> Z -> Z -> outcome S) (s : S) : outcome S :=
  ofor js (je - js + 1) (fun s j => ofor is (ie - is + 1) (fun s i => f s i j) s) s.

(** Exchange cells: indices in both grids (starting at 0) and area. *)
Record xcell := XCell { c_ia : Z; c_ja : Z; c_ib : Z; c_jb : Z; c_area : R }.
(** The pieces of an atmosphere cell cut by the land grid: axl_i, axl_j, axl_t, the polygon, axl_area *)
Record piece := Piece { p_i : Z; p_j : Z; p_t : Z; p_poly : poly; p_area : R }.
(** An atmosphere cell: na, ia, ja, ya_min, ya_max (before fix_lon), xa and ya after fix_lon, its area *)
Record acell := ACell { a_t : Z; a_i : Z; a_j : Z; a_ymin : R; a_ymax : R; a_poly : poly; a_area : R }.

(** make_coupler_mosaic.c:1394-1408 (and 2627-2640 for land cells) *)
Definition atm_cell (g : geometry) (na : Z) (t : tile) (la : Z) : outcome acell :=
  let i := la mod t_nx t in let j := la / t_nx t in
  do q <- corners t i j ;
  do ar <- oget (t_area t) la ;
  Ok (ACell na i j (minval (ys q)) (maxval (ys q)) (g_fix g q PI) ar).
(** xa_avg *)
Definition a_avg (a : acell) : R := avgval (xs (a_poly a)).

(** One land cell cut with the atmosphere cell, make_coupler_mosaic.c:1460-1496: x_out, y_out; no
    vertices for n_out = 0 and for continue. *)
Definition cut_land (o : options) (g : geometry) (a : acell) (nl il jl : Z) (q : poly) : outcome poly :=
  if rle (a_ymax a) (minval (ys q)) || rle (maxval (ys q)) (a_ymin a) then Ok [] else
  let p := g_fix g q (a_avg a) in
  if rle (maxval (xs p)) (minval (xs (a_poly a))) || rle (maxval (xs (a_poly a))) (minval (xs p)) then Ok [] else
  if o_lnd_same o then
    if (a_t a =? nl) && (a_j a =? jl) && (a_i a =? il) then
      if negb (zlen (a_poly a) =? zlen p) then Err 1 else Ok p
    else Ok []
  else Ok (g_clip g (a_poly a) p).

(** make_coupler_mosaic.c:1411-1566: the pieces of an atmosphere cell *)
Definition add_piece (o : options) (g : geometry) (a : acell) (nl : Z) (t : tile) (acc : list piece) (il jl : Z) : outcome (list piece) :=
  do q <- corners t il jl ;
  do p <- cut_land o g a nl il jl q ;
  match p with
  | [] => Ok acc
  | _ :: _ =>
      do al <- oget (t_area t) (jl * t_nx t + il) ;
      if rlt (o_thresh o) (g_area g p / Rmin al (a_area a)) then
        if zlen acc <? MX then Ok (acc ++ [Piece il jl nl p 0]) else UB
      else Ok acc
  end.

(** One piece over one ocean cell, make_coupler_mosaic.c:1679-1719.  [po] is the ocean cell as left
    by the last call of fix_lon, which takes the first four vertices again (a cell with fewer
    vertices is not modelled). *)
Definition add_land (o : options) (g : geometry) (a : acell) (lnd : list tile) (frac : R) (st : poly * list piece) (p : piece) : outcome (poly * list piece) :=
  let '(po, done) := st in
  do x0 <- oget (xs (p_poly p)) 0 ;
  do po <- (if o_lnd_same o then Ok po else if zlen po <? 4 then UB else Ok (g_fix g (firstn 4 po) x0)) ;
  if rle (maxval (xs po)) (minval (xs (p_poly p))) || rle (maxval (xs (p_poly p))) (minval (xs po)) ||
     rle (a_ymax a) (minval (ys (p_poly p))) || rle (maxval (ys (p_poly p))) (a_ymin a)
  then Ok (po, done ++ [p]) else
  match g_clip g (p_poly p) po with
  | [] => Ok (po, done ++ [p])
  | (_ :: _) as out =>
      let xarea := (g_area g out * (1 - frac))%R in
      do t <- oget lnd (p_t p) ;
      do al <- oget (t_area t) (p_j p * t_nx t + p_i p) ;
      Ok (po, done ++ [if rlt (o_thresh o) (xarea / Rmin al (a_area a)) then Piece (p_i p) (p_j p) (p_t p) (p_poly p) (p_area p + xarea) else p])
  end.

(** One ocean cell, make_coupler_mosaic.c:1598-1721.  The state is the exchange cells of this
    ocean tile and the pieces. *)
Definition add_ocean (o : options) (g : geometry) (a : acell) (lnd : list tile) (t : tile) (omask : list R)
  (st : list xcell * list piece) (io jo : Z) : outcome (list xcell * list piece) :=
  let '(cells, pieces) := st in
  do q <- corners t io jo ;
  let po := g_fix g q (a_avg a) in
  do frac <- oget omask (jo * t_nx t + io) ;
  let wet := rlt MIN_AREA_FRAC frac in
  if wet && (rle (maxval (xs po)) (minval (xs (a_poly a))) || rle (maxval (xs (a_poly a))) (minval (xs po)) ||
             rle (a_ymax a) (minval (ys q)) || rle (maxval (ys q)) (a_ymin a))
  then Ok (cells, pieces) else
  do cells <- (if wet then
      match g_clip g (a_poly a) po with
      | [] => Ok cells
      | (_ :: _) as out =>
          let xarea := (g_area g out * frac)%R in
          do ao <- oget (t_area t) (jo * t_nx t + io) ;
          if rlt (o_thresh o) (xarea / Rmin ao (a_area a)) then
            if zlen cells <? o_max o then Ok (cells ++ [XCell (a_i a) (a_j a) io jo xarea]) else UB
          else Ok cells
      end
    else Ok cells) ;
  if rlt MIN_AREA_FRAC (1 - frac) then
    do '(_, pieces) <- ofold (add_land o g a lnd frac) pieces (po, []) ;
    Ok (cells, pieces)
  else Ok (cells, pieces).

(** The exchange cells between land and atmosphere, make_coupler_mosaic.c:1724-1745 *)
Definition keep_piece (o : options) (a : acell) (lnd : list tile) (axl : list (list xcell)) (p : piece) : outcome (list (list xcell)) :=
  do t <- oget lnd (p_t p) ;
  do al <- oget (t_area t) (p_j p * t_nx t + p_i p) ;
  if rlt (o_thresh o) (p_area p / Rmin al (a_area a)) then
    do cells <- oget axl (p_t p) ;
    if zlen cells <? o_max o then oset axl (p_t p) (cells ++ [XCell (a_i a) (a_j a) (p_i p) (p_j p) (p_area p)]) else UB
  else Ok axl.

(** The search ranges of all tiles of land or ocean, make_coupler_mosaic.c:1309-1356 *)
Definition ranges (same : bool) (na : Z) (tiles : list tile) (b : R * R) : outcome (list (Z * Z * Z * Z)) :=
  ofor 0 (zlen tiles) (fun acc n =>
    do t <- oget tiles n ;
    do '(js, je) <- rows_atm t (fst b) (snd b) ;
    let '(is, ie) := columns t ((n =? na) || negb same) in
    Ok (acc ++ [(js, je, is, ie)])) [].

(** One atmosphere cell, make_coupler_mosaic.c:1394-1745.  The state is naxl[na] and naxo[na] with
    their cells: a list for every land tile and for every ocean tile. *)
Definition one_cell (o : options) (g : geometry) (na : Z) (t : tile) (lnd ocn : list tile) (omask : list (list R))
  (lr or : list (Z * Z * Z * Z)) (st : list (list xcell) * list (list xcell)) (la : Z) : outcome (list (list xcell) * list (list xcell)) :=
  let '(axl, axo) := st in
  do a <- atm_cell g na t la ;
  do pieces <- ofor 0 (zlen lnd) (fun acc nl =>
    do tl <- oget lnd nl ; do '(js, je, is, ie) <- oget lr nl ;
    over js je is ie (add_piece o g a nl tl) acc) [] ;
  do '(axo, pieces) <- ofor 0 (zlen ocn) (fun '(axo, pieces) no =>
    do to <- oget ocn no ; do '(js, je, is, ie) <- oget or no ; do om <- oget omask no ;
    do cells <- oget axo no ;
    do '(cells, pieces) <- over js je is ie (add_ocean o g a lnd to om) (cells, pieces) ;
    do axo <- oset axo no cells ;
    Ok (axo, pieces)) (axo, pieces) ;
  do axl <- ofold (keep_piece o a lnd) pieces axl ;
  Ok (axl, axo).

(** One processor, make_coupler_mosaic.c:1249-1747 *)
Definition atm_pe (o : options) (g : geometry) (na : Z) (t : tile) (lnd ocn : list tile) (omask : list (list R)) (is ie : Z)
  : outcome (list (list xcell) * list (list xcell)) :=
  do b <- band t is ie ;
  do lr <- ranges (o_lnd_same o) na lnd b ;
  do or <- ranges (o_ocn_same o) na ocn b ;
  ofor is (ie - is + 1) (one_cell o g na t lnd ocn omask lr or) (repeat [] (length lnd), repeat [] (length ocn)).

(** All processors (make_coupler_mosaic.c:1251-1255; with layout (npes,1) the domain of processor p
    is division p), and the exchange cells of every land and every ocean tile gathered in rank
    order (1795-1803, 1822-1830, 2214-2258, 2335-2375) *)
Definition on_all {A} (npts npes : Z) (work : Z -> Z -> outcome A) : outcome (list A) :=
  let fresh := repeat 0 (Z.to_nat npes) in
  do '(ib, ie) <- mpp_compute_extent npts npes fresh fresh ;
  ofor 0 npes (fun acc p => do is <- oget ib p ; do ie <- oget ie p ; do r <- work is ie ; Ok (acc ++ [r])) [].
Definition collect (n : Z) (parts : list (list (list xcell))) : outcome (list (list xcell)) :=
  ofor 0 n (fun acc k =>
    do locs <- ofold (fun l r => do c <- oget r k ; Ok (l ++ [c])) parts [] ;
    do all <- gather_field locs (repeat (XCell 0 0 0 0 0) (length (concat locs))) ;
    Ok (acc ++ [all])) [].
Definition atm_tile (o : options) (g : geometry) (na : Z) (t : tile) (lnd ocn : list tile) (omask : list (list R)) (npes : Z)
  : outcome (list (list xcell) * list (list xcell)) :=
  do parts <- on_all (t_nx t * t_ny t) npes (atm_pe o g na t lnd ocn omask) ;
  do axl <- collect (zlen lnd) (map fst parts) ;
  do axo <- collect (zlen ocn) (map snd parts) ;
  Ok (axl, axo).
(** All tiles of the atmosphere *)
Definition atm_all (o : options) (g : geometry) (atm lnd ocn : list tile) (omask : list (list R)) (npes : Z)
  : outcome (list (list (list xcell) * list (list xcell))) :=
  ofor 0 (zlen atm) (fun acc na => do t <- oget atm na ; do r <- atm_tile o g na t lnd ocn omask npes ; Ok (acc ++ [r])) [].

(** l_area or o_area of one tile of land or ocean, make_coupler_mosaic.c:1767-1841: the sum over
    the atmosphere tiles but the nest.  [sel] takes the cells of the tile. *)
Definition tile_sum (t : tile) (nest : Z) (n : Z) (parts : list (list (list xcell))) : outcome (list R) :=
  ofor 0 (zlen parts) (fun acc na =>
    if na =? nest then Ok acc else
    do per <- oget parts na ;
    do cells <- oget per n ;
    ofold (fun acc c =>
      let ii := c_jb c * t_nx t + c_ib c in
      do v <- oget acc ii ; oset acc ii (v + c_area c)%R) cells acc) (repeat 0%R (Z.to_nat (t_nx t * t_ny t))).
(** atm_xarea of one atmosphere tile (--check), make_coupler_mosaic.c:2221-2236, 2344-2359 *)
Definition atm_sum (t : tile) (axl axo : list (list xcell)) : outcome (list R) :=
  ofold (fun acc cells => ofold (fun acc c =>
      let ii := c_ja c * t_nx t + c_ia c in
      do v <- oget acc ii ; oset acc ii (v + c_area c)%R) cells acc) (axl ++ axo) (repeat 0%R (Z.to_nat (t_nx t * t_ny t))).

(** The ocean fraction written and the number of cells where it differs from the mask,
    make_coupler_mosaic.c:2054-2071.  [ext] is ocn_south_ext. *)
Definition ocean_mask (t : tile) (ext : Z) (omask o_area : list R) : outcome (list R * Z) :=
  ofor 0 (t_ny t - ext) (fun st jo => ofor 0 (t_nx t) (fun '(mask, nbad) io =>
    let i := (jo + ext) * t_nx t + io in
    do s <- oget o_area i ; do ar <- oget (t_area t) i ; do om <- oget omask i ;
    let f := (s / ar)%R in
    Ok (mask ++ [f], if rlt (1 / 10000) (Rabs (om - f)) then nbad + 1 else nbad)) st) ([], 0).
(** The land fraction written, make_coupler_mosaic.c:2110-2119.  The array a_a is filled from
    area_atm[nl][i] with the indices of the land tile. *)
Definition land_mask (atm : list tile) (nl : Z) (t : tile) (l_area : list R) : outcome (list R) :=
  ofor 0 (t_ny t) (fun st jl => ofor 0 (t_nx t) (fun mask il =>
    let i := jl * t_nx t + il in
    do s <- oget l_area i ; do ar <- oget (t_area t) i ;
    do ta <- oget atm nl ; do _ <- oget (t_area ta) i ;
    Ok (mask ++ [(s / ar)%R])) st) [].
(** The end of the run, make_coupler_mosaic.c:3812-3818: Err for mpp_error *)
Definition finish (verbose : bool) (nbad : Z) : outcome unit :=
  if verbose then if nbad =? 0 then Ok tt else Err 2 else Ok tt.

(** The indices written, make_coupler_mosaic.c:2200-2205, 2327-2332 *)
Definition written_land (c : xcell) : xcell := XCell (c_ia c + 1) (c_ja c + 1) (c_ib c + 1) (c_jb c + 1) (c_area c).
Definition written_ocean (ext : Z) (c : xcell) : xcell := XCell (c_ia c + 1) (c_ja c + 1) (c_ib c + 1) (c_jb c + (1 - ext)) (c_area c).

(** Land (or wave) with ocean: one cell against one ocean cell, make_coupler_mosaic.c:2651-2709,
    3185-3251.  The order of the tests differs between the two without effect. *)
Definition add_side (o : options) (g : geometry) (a : acell) (t : tile) (omask : list R) (cells : list xcell) (io jo : Z) : outcome (list xcell) :=
  do frac <- oget omask (jo * t_nx t + io) ;
  if rlt MIN_AREA_FRAC frac then
    do q <- corners t io jo ;
    if rle (a_ymax a) (minval (ys q)) || rle (maxval (ys q)) (a_ymin a) then Ok cells else
    let po := g_fix g q (a_avg a) in
    if rle (maxval (xs po)) (minval (xs (a_poly a))) || rle (maxval (xs (a_poly a))) (minval (xs po)) then Ok cells else
    match g_clip g (a_poly a) po with
    | [] => Ok cells
    | (_ :: _) as out =>
        let xarea := (g_area g out * frac)%R in
        do ao <- oget (t_area t) (jo * t_nx t + io) ;
        if rlt (o_thresh o) (xarea / Rmin ao (a_area a)) then
          if zlen cells <? o_max o then Ok (cells ++ [XCell (a_i a) (a_j a) io jo xarea]) else UB
        else Ok cells
    end
  else Ok cells.
(** One processor, make_coupler_mosaic.c:2559-2718, 3082-3258; [same] is wav_same_as_ocn (false for land) *)
Definition side_pe (o : options) (same : bool) (g : geometry) (nl : Z) (t : tile) (ocn : list tile) (omask : list (list R)) (is ie : Z)
  : outcome (list (list xcell)) :=
  do b <- band t is ie ;
  do or <- ofor 0 (zlen ocn) (fun acc no =>
    do to <- oget ocn no ;
    do '(js, je) <- rows_lnd to (fst b) (snd b) ;
    let '(is, ie) := columns to ((no =? nl) || negb same) in
    Ok (acc ++ [(js, je, is, ie)])) [] ;
  ofor is (ie - is + 1) (fun lxo ll =>
    do a <- atm_cell g nl t ll ;
    ofor 0 (zlen ocn) (fun lxo no =>
      do to <- oget ocn no ; do '(js, je, is, ie) <- oget or no ; do om <- oget omask no ;
      do cells <- oget lxo no ;
      do cells <- over js je is ie (add_side o g a to om) cells ;
      oset lxo no cells) lxo) (repeat [] (length ocn)).
Definition side_tile (o : options) (same : bool) (g : geometry) (nl : Z) (t : tile) (ocn : list tile) (omask : list (list R)) (npes : Z)
  : outcome (list (list xcell)) :=
  do parts <- on_all (t_nx t * t_ny t) npes (side_pe o same g nl t ocn omask) ;
  collect (zlen ocn) parts.
