(** * Model of src/fre-grid/conserve_interp.c, setup_conserve_interp: exchange cells and remap files

    Doubles are real numbers.  The cutting of cells (create_xgrid_*, with j_in already shifted by
    jstart) is a parameter: the list of pieces each processor gets for an output tile and an input
    tile.  Arrays of the exchange grid are lists of records, and the gathers of the arrays of one
    exchange grid one gather of records. *)
From Coq Require Import Reals.
From Verif Require Import Base M_Interp M_Domain2D M_Fregrid.
Open Scope Z_scope.

(** One piece from create_xgrid_2dx2d_order1/2: i_in, j_in, i_out, j_out, xgrid_area, xgrid_clon, xgrid_clat *)
Record pc := MkPc { c_i : Z; c_j : Z; c_io : Z; c_jo : Z; c_a : R; c_lon : R; c_lat : R }.
(** cell_in[m].area, clon, clat: a list of tiles of triples *)
Definition cells := list (list (R * R * R)).
(** Lines 203-227: gather the pieces of all processors, add them up per input cell *)
Definition add_cells (tiles : list tile) (m : Z) (cs : cells) (locs : list (list pc)) : outcome cells :=
  do g <- gather_field locs (repeat (MkPc 0 0 0 0 0%R 0%R 0%R) (length (concat locs))) ;
  do t <- oget tiles m ;
  ofold (fun cs p =>
    let ii := c_j p * t_nx t + c_i p in
    do row <- oget cs m ;
    do e <- oget row ii ;
    let '(a, x, y) := e in
    do row <- oset row ii (a + c_a p, x + c_lon p, y + c_lat p)%R ;
    oset cs m row) g cs.
(** Lines 234-316: append the pieces with input tile [m]; di_in, dj_in the centroid of the piece (second
    order; not allocated for first order, here 0) *)
Definition append (order2 : bool) (m : Z) (X : list xc) (g : list pc) : list xc :=
  X ++ map (fun p => MkXc m (c_i p) (c_j p) (c_io p) (c_jo p) (c_a p)
    (if order2 then c_lon p / c_a p else 0)%R (if order2 then c_lat p / c_a p else 0)%R) g.
(** Lines 148-318 on processor [me] of [npes]; [clip r n m]: the pieces of processor [r] for output tile
    [n] and input tile [m] *)
Definition collect (order2 : bool) (clip : Z -> Z -> Z -> list pc) (npes nout me : Z) (tiles : list tile) : outcome (cells * list (list xc)) :=
  ofor 0 nout (fun '(cs, outs) n =>
    do r <- ofor 0 (zlen tiles) (fun '(cs, X) m =>
      do cs <- (if order2 then add_cells tiles m cs (map (fun r => clip r n m) (zseq 0 npes)) else Ok cs) ;
      Ok (cs, append order2 m X (clip me n m))) (cs, []) ;
    Ok (fst r, outs ++ [snd r]))
    (map (fun t => repeat (0, 0, 0)%R (Z.to_nat (t_nx t * t_ny t))) tiles, []).
(** AREA_RATIO, line 35 *)
Definition AREA_RATIO : R := (1 / 1000)%R.
(** Lines 321-350: the centroid of every input cell, from its pieces if they fill it and otherwise from the
    polygon; [ctr q n] is (poly_ctrlon, poly_ctrlat) of cell [n] of tile [q] *)
Definition centroids (ctr : Z -> Z -> R * R) (tiles : list tile) (cs : cells) : outcome cells :=
  ofor 0 (zlen tiles) (fun cs q =>
    do t <- oget tiles q ;
    ofor 0 (t_ny t) (fun cs j => ofor 0 (t_nx t) (fun cs i =>
      let ii := j * t_nx t + i in
      do row <- oget cs q ;
      do e <- oget row ii ;
      let '(a, x, y) := e in
      if rlt 0 a then
        do ca <- oget (t_cell t) ii ;
        do row <- oset row ii
          (if rlt (Rabs (a - ca) / ca) AREA_RATIO then (a, x / a, y / a)
           else (a, fst (ctr q ii) / ca, snd (ctr q ii) / ca))%R ;
        oset cs q row
      else Ok cs) cs) cs) cs.
(** Lines 351-358: subtract the centroid of the input cell *)
Definition subtract (tiles : list tile) (cs : cells) (X : list xc) : outcome (list xc) :=
  ofold (fun l c =>
    do t <- oget tiles (x_t c) ;
    do row <- oget cs (x_t c) ;
    do e <- oget row (x_j c * t_nx t + x_i c) ;
    Ok (l ++ [MkXc (x_t c) (x_i c) (x_j c) (x_io c) (x_jo c) (x_a c) (x_di c - snd (fst e)) (x_dj c - snd e)]%R)) X [].
(** The exchange cells of all output tiles on processor [me], lines 126-367 without WRITE *)
Definition setup (order2 : bool) (clip : Z -> Z -> Z -> list pc) (ctr : Z -> Z -> R * R) (npes nout me : Z) (tiles : list tile) : outcome (list (list xc)) :=
  do r <- collect order2 clip npes nout me tiles ;
  let '(cs, outs) := r in
  if order2 then
    do cs <- centroids ctr tiles cs ;
    ofold (fun l X => do X <- subtract tiles cs X ; Ok (l ++ [X])) outs []
  else Ok outs.

(** ** The remap file *)
(** Variables tile1, tile1_cell, tile2_cell, xgrid_area and tile1_distance; the two-dimensional ones row by
    row.  tile1_distance only for second order. *)
Record rfile := MkRfile { f_tile1 : list Z; f_cell1 : list Z; f_cell2 : list Z; f_area : list R; f_dist : option (list R) }.
(** mpp_put_var_value_block with start = (0, s), nwrite = (n, 1) into a variable of shape (n, 2) *)
Definition put_column {A} (s : Z) (col var : list A) : outcome (list A) :=
  ofor 0 (zlen col) (fun var n => do v <- oget col n ; oset var (2 * n + s) v) var.
(** What one processor contributes for one output tile: isc and jsc of its part and its exchange cells *)
Record part := MkPart { s_isc : Z; s_jsc : Z; s_cells : list xc }.
(** Lines 368-444 for one output tile: [None] if there is no exchange cell (no file is written).
    [fi], [fd]: what an array holds before it is written *)
Definition write_file (order2 : bool) (fi : Z) (fd : R) (ranks : list part) : outcome (option rfile) :=
  let n := length (concat (map s_cells ranks)) in
  if Z.of_nat n <=? 0 then Ok None else
  let gi (f : part -> xc -> Z) := gather_field (map (fun r => map (f r) (s_cells r)) ranks) (repeat 0 n) in
  let gd (f : xc -> R) := gather_field (map (fun r => map f (s_cells r)) ranks) (repeat 0%R n) in
  do t <- gi (fun _ => x_t) ;
  do i1 <- gi (fun _ => x_i) ;
  do c1 <- put_column 0 (map (fun x => x + 1) i1) (repeat fi (2 * n)) ;
  do i2 <- gi (fun r c => x_io c + s_isc r + 1) ;
  do c2 <- put_column 0 i2 (repeat fi (2 * n)) ;
  do j1 <- gi (fun _ => x_j) ;
  do c1 <- put_column 1 (map (fun x => x + 1) j1) c1 ;
  do j2 <- gi (fun r c => x_jo c + s_jsc r + 1) ;
  do c2 <- put_column 1 j2 c2 ;
  do a <- gd x_a ;
  do d <- (if order2 then
             do x <- gd x_di ; do d <- put_column 0 x (repeat fd (2 * n)) ;
             do y <- gd x_dj ; do d <- put_column 1 y d ; Ok (Some d)
           else Ok None) ;
  Ok (Some (MkRfile (map (fun x => x + 1) t) c1 c2 a d)).
(** Surface of the earth, line 60 and read_mosaic.c:427 *)
Definition GAREA : R := (4 * PI * 6371000 * 6371000)%R.
(** read_mosaic_xgrid_order1/2 (read_mosaic.c:407-440, 520-558) and lines 62-124: the cells of the part
    isc..iec, jsc..jec (counted from 0) of the output tile.  [None] for a file that does not exist: the entry
    of interp is skipped and keeps whatever malloc left there, so that its use is undefined.
    Err 7: a first-order file has no variable tile1_distance. *)
Definition read_file (order2 : bool) (isc iec jsc jec : Z) (file : option rfile) : outcome (list xc) :=
  match file with
  | None => UB
  | Some f =>
    match f_dist f, order2 with
    | None, true => Err 7
    | _, _ =>
      ofor 0 (zlen (f_area f)) (fun l n =>
        do i1 <- oget (f_cell1 f) (n * 2) ; do j1 <- oget (f_cell1 f) (n * 2 + 1) ;
        do i2 <- oget (f_cell2 f) (n * 2) ; do j2 <- oget (f_cell2 f) (n * 2 + 1) ;
        do a <- oget (f_area f) n ; do t <- oget (f_tile1 f) n ;
        do d <- (match f_dist f with
                 | Some d => if order2 then do x <- oget d (n * 2) ; do y <- oget d (n * 2 + 1) ; Ok (x, y) else Ok (0, 0)%R
                 | None => Ok (0, 0)%R end) ;
        let i1 := i1 - 1 in let j1 := j1 - 1 in let i2 := i2 - 1 in let j2 := j2 - 1 in
        if (i2 <=? iec) && (isc <=? i2) && (j2 <=? jec) && (jsc <=? j2) then
          Ok (l ++ [MkXc (t - 1) i1 j1 (i2 - isc) (j2 - jsc) (a / GAREA * GAREA)%R (fst d) (snd d)])
        else Ok l) []
    end
  end.
(** set_remap_file (fregrid_util.c:1946-1998) and line 62: READ is set for all output tiles if the remap file of
    any of them exists; otherwise the exchange cells are computed.  One processor with part [isc..iec] x
    [jsc..jec] of each output tile. *)
Definition reuse (order2 : bool) (doms : list (Z * Z * Z * Z)) (files : list (option rfile)) (computed : list (list xc)) : outcome (list (list xc)) :=
  if existsb (fun f => match f with Some _ => true | None => false end) files then
    ofold (fun l df => let '((isc, iec, jsc, jec), f) := df in do X <- read_file order2 isc iec jsc jec f ; Ok (l ++ [X])) (combine doms files) []
  else Ok computed.
