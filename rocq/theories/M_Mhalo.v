(** * Model of the halo exchange of fregrid: src/fre-grid/fregrid_util.c, get_contact_direction, setup_boundary,
    update_halo

    A contact of the mosaic has two ends; the arrays tile, istart, iend, jstart, jend of setup_boundary hold the first
    ends of all contacts, then the second ends, with tile numbers from 0 (line 2474).  The indices are those
    returned by read_mosaic_contact. *)
From Coq Require Import Reals.
From Verif Require Import Base.
Open Scope Z_scope.

Record cend := MkEnd { e_tile : Z; e_is : Z; e_ie : Z; e_js : Z; e_je : Z }.
(** globals.h 30-37: WEST, EAST, SOUTH, NORTH; ZERO, NINETY, MINUS_NINETY, ONE_HUNDRED_EIGHTY *)
Inductive dirn := WEST | EAST | SOUTH | NORTH.
Inductive rot := ZERO | NINETY | MINUS_NINETY | ONE_HUNDRED_EIGHTY.
(** Bound_config, one boundary *)
Record bnd := MkBnd { is1 : Z; ie1 : Z; js1 : Z; je1 : Z; is2 : Z; ie2 : Z; js2 : Z; je2 : Z; b_rot : rot; tile2 : Z }.

Definition E_POINT : Z := 1.     (* istart = iend and jstart = jend can not be both true *)
Definition E_SKEW : Z := 2.      (* either istart = iend or jstart = jend need to be true *)
Definition E_MISMATCH : Z := 3.  (* size mismatch between the boundary *)

(** get_contact_direction, lines 2419-2442, one end *)
Definition direction (e : cend) : outcome dirn :=
  if (e_is e =? e_ie e) && (e_js e =? e_je e) then Err E_POINT
  else if negb (e_is e =? e_ie e) && negb (e_js e =? e_je e) then Err E_SKEW
  else if e_is e =? e_ie e then (if e_is e =? 0 then Ok WEST else Ok EAST)
  else (if e_js e =? 0 then Ok SOUTH else Ok NORTH).
(** Lines 2475: all ends *)
Definition directions (ends : list cend) : outcome (list dirn) :=
  ofold (fun l e => do d <- direction e ; Ok (l ++ [d])) ends [].

(** Lines 2501-2526: the halo of the tile's own end *)
Definition own_part (nx ny halo shift : Z) (d : dirn) (e : cend) : Z * Z * Z * Z :=
  match d with
  | WEST => (0, halo - 1, Z.min (e_js e) (e_je e) + halo, Z.max (e_js e) (e_je e) + halo + shift)
  | EAST => (nx + shift + halo, nx + shift + halo + halo - 1, Z.min (e_js e) (e_je e) + halo, Z.max (e_js e) (e_je e) + halo + shift)
  | SOUTH => (Z.min (e_is e) (e_ie e) + halo, Z.max (e_is e) (e_ie e) + halo + shift, 0, halo - 1)
  | NORTH => (Z.min (e_is e) (e_ie e) + halo, Z.max (e_is e) (e_ie e) + halo + shift, ny + shift + halo, ny + shift + halo + halo - 1)
  end.
(** Lines 2529-2554: the data of the other end; [nx], [ny]: size of the tile that receives (lines 2480, 2481) *)
Definition other_part (nx ny halo shift : Z) (d : dirn) (e : cend) : Z * Z * Z * Z :=
  match d with
  | WEST => (halo + shift, halo + shift + halo - 1, Z.min (e_js e) (e_je e) + halo, Z.max (e_js e) (e_je e) + halo + shift)
  | EAST => (nx - halo + 1, nx, Z.min (e_js e) (e_je e) + halo, Z.max (e_js e) (e_je e) + halo + shift)
  | SOUTH => (Z.min (e_is e) (e_ie e) + halo, Z.max (e_is e) (e_ie e) + halo + shift, halo + shift, halo + shift + halo - 1)
  | NORTH => (Z.min (e_is e) (e_ie e) + halo, Z.max (e_is e) (e_ie e) + halo + shift, ny - halo + 1, ny)
  end.
(** Lines 2555-2560 *)
Definition rotation_of (d d2 : dirn) : rot :=
  match d, d2 with
  | WEST, NORTH => NINETY
  | EAST, SOUTH => NINETY
  | SOUTH, EAST => MINUS_NINETY
  | NORTH, WEST => MINUS_NINETY
  | NORTH, NORTH => ONE_HUNDRED_EIGHTY
  | _, _ => ZERO
  end.
(** Body of the loop over l, lines 2498-2565, for an end with tile[l] = n *)
Definition one_boundary (nx ny halo shift nc : Z) (ends : list cend) (dirs : list dirn) (l : Z) : outcome bnd :=
  do e <- oget ends l ; do d <- oget dirs l ;
  let l2 := Z.rem (l + nc) (2 * nc) in
  do e2 <- oget ends l2 ; do d2 <- oget dirs l2 ;
  let '(a1, b1, c1, d1) := own_part nx ny halo shift d e in
  let '(a2, b2, c2, d2') := other_part nx ny halo shift d2 e2 in
  if negb ((b2 - a2 + 1) * (d2' - c2 + 1) =? (b1 - a1 + 1) * (d1 - c1 + 1)) then Err E_MISMATCH
  else Ok (MkBnd a1 b1 c1 d1 a2 b2 c2 d2' (rotation_of d d2) (e_tile e2)).
(** setup_boundary for tile [n], lines 2478-2567 *)
Definition tile_boundaries (nx ny halo shift nc : Z) (ends : list cend) (dirs : list dirn) (n : Z) : outcome (list bnd) :=
  ofor 0 (2 * nc) (fun bs l =>
    do e <- oget ends l ;
    if e_tile e =? n then do b <- one_boundary nx ny halo shift nc ends dirs l ; Ok (bs ++ [b]) else Ok bs) [].

(** The values a, a+1, ..., b of a loop counter *)
Definition upto (a b : Z) : list Z := zseq a (b - a + 1).
(** The (k, j, i) visited by the loops that fill the buffer, lines 2641-2654 *)
Definition visited (nz : Z) (b : bnd) : list (Z * Z * Z) :=
  flat_map (fun k =>
    match b_rot b with
    | ZERO => flat_map (fun j => map (fun i => (k, j, i)) (upto (is2 b) (ie2 b))) (upto (js2 b) (je2 b))
    | NINETY => flat_map (fun i => map (fun j => (k, j, i)) (upto (js2 b) (je2 b))) (rev (upto (is2 b) (ie2 b)))
    | MINUS_NINETY => flat_map (fun i => map (fun j => (k, j, i)) (rev (upto (js2 b) (je2 b)))) (upto (is2 b) (ie2 b))
    | ONE_HUNDRED_EIGHTY => flat_map (fun j => map (fun i => (k, j, i)) (rev (upto (is2 b) (ie2 b)))) (rev (upto (js2 b) (je2 b)))
    end) (zseq 0 nz).
(** The (k, j, i) visited by the loop that empties the buffer, line 2656 *)
Definition filled (nz : Z) (b : bnd) : list (Z * Z * Z) :=
  flat_map (fun k => flat_map (fun j => map (fun i => (k, j, i)) (upto (is1 b) (ie1 b))) (upto (js1 b) (je1 b))) (zseq 0 nz).
Definition place (nx ny : Z) (x : Z * Z * Z) : Z := let '(k, j, i) := x in k * (nx * ny) + j * nx + i.
(** update_halo for one boundary, lines 2625-2657: [nx], [ny] and [nx2], [ny2] are the sizes of the arrays *)
Definition fill_buffer (nx2 ny2 nz : Z) (src : list R) (b : bnd) : outcome (list R) :=
  ofold (fun buf x => do v <- oget src (place nx2 ny2 x) ; Ok (buf ++ [v])) (visited nz b) [].
Definition empty_buffer (nx ny nz : Z) (data buf : list R) (b : bnd) : outcome (list R) :=
  do r <- ofold (fun '(data, l) x => do v <- oget buf l ; do data <- oset data (place nx ny x) v ; Ok (data, l + 1)) (filled nz b) (data, 0) ;
  Ok (fst r).
(** The callers, e.g. lines 280-290 and 2168-2180: all boundaries of all tiles; [G]: sizes of the tiles, the arrays
    have [shift] more points and a halo of one *)
Definition update_tile (G : list (Z * Z)) (shift nz n : Z) (D : list (list R)) (bs : list bnd) : outcome (list (list R)) :=
  ofold (fun D b =>
    do g <- oget G n ; do g2 <- oget G (tile2 b) ;
    do src <- oget D (tile2 b) ;
    do buf <- fill_buffer (fst g2 + shift + 2) (snd g2 + shift + 2) nz src b ;
    do data <- oget D n ;
    do data <- empty_buffer (fst g + shift + 2) (snd g + shift + 2) nz data buf b ;
    oset D n data) bs D.
Definition exchange (G : list (Z * Z)) (shift nz : Z) (contacts : list (cend * cend)) (D : list (list R)) : outcome (list (list R)) :=
  let ends := map fst contacts ++ map snd contacts in
  do dirs <- directions ends ;
  do B <- ofor 0 (zlen G) (fun B n => do g <- oget G n ; do bs <- tile_boundaries (fst g) (snd g) 1 shift (zlen contacts) ends dirs n ; Ok (B ++ [bs])) [] ;
  ofor 0 (zlen G) (fun D n => do bs <- oget B n ; update_tile G shift nz n D bs) D.
