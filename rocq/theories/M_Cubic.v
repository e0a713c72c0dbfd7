(** Model of the assembly of the six tiles of a cubed-sphere grid in make_hgrid:
    src/make-hgrid/create_gnomonic_cubic_grid.c, [create_gnomonic_cubic_grid], without nests
    (ntiles2 = ntiles = 6, global_nest = 0).

    Simplifications.  The code keeps longitude and latitude in two arrays that are always
    read and written together (xc and yc, x and y, xtmp and ytmp): the model keeps one array
    of points of an arbitrary type [P].  What the code computes from one, two or four points
    (the adjustment of lines 340-347, the transformations, the midpoints, the great-circle
    distance) is a parameter, so that the theorems hold whatever these functions are, in
    particular for the floating-point functions of the program.  The points left by
    mirror_grid are the argument [xc]; the arrays x, dx and dy, which the caller allocates,
    are arguments too. *)
From Coq Require Import ZArith List Bool.
From Verif Require Import Base.
Import ListNotations.
Open Scope Z_scope.

(** The place of point (j, i) of tile t in an array of tiles of [w] columns and [h] rows,
    [t*h*w + j*w + i].  The code writes the index with the numbers inserted, e.g.
    xc[2*nip*nip+j*nip] for t = 2, i = 0, or xc[ni*nip+ni-j] for t = 0, j = ni, i = ni-j;
    tile_offset (300-323) is t*nip*nip, tile_offset_supergrid t*nxp*nxp and
    tile_offset_supergrid_m t*nx*nxp. *)
Definition at3 (h w t j i : Z) : Z := t * (h * w) + j * w + i.

(** One assignment [a[dst] = a[src]]. *)
Definition copy1 {A} (a : list A) (dst src : Z) : outcome (list A) :=
  do v <- oget a src ; oset a dst v.

(** A loop [for(k=0; k<n; k++) { a[dst1(k)] = a[src1(k)]; a[dst2(k)] = a[src2(k)]; ... }]. *)
Definition copy_loop {A} (n : Z) (l : list ((Z -> Z) * (Z -> Z))) (a : list A) : outcome (list A) :=
  ofor 0 n (fun a k => ofold (fun a '(dst, src) => copy1 a (dst k) (src k)) l a) a.

(** create_gnomonic_cubic_grid.c 349-389: "ensure consistency on the boundary between
    tiles", five loops. *)
Definition join_tiles {A} (ni : Z) (a : list A) : outcome (list A) :=
  let nip := ni + 1 in
  let p := at3 nip nip in
  do a <- copy_loop nip [ (fun j => p 1 j 0, fun j => p 0 j ni);              (* 1E -> 2W *)
                          (fun j => p 2 j 0, fun j => p 0 ni (ni - j)) ] a ;  (* 1N -> 3W *)
  do a <- copy_loop nip [ (fun i => p 4 ni i, fun i => p 0 (ni - i) 0);       (* 1W -> 5N *)
                          (fun i => p 5 ni i, fun i => p 0 0 i);              (* 1S -> 6N *)
                          (fun i => p 2 0 i, fun i => p 1 ni i);              (* 2N -> 3S *)
                          (fun i => p 3 0 i, fun i => p 1 (ni - i) ni) ] a ;  (* 2E -> 4S *)
  do a <- copy_loop nip [ (fun j => p 5 j ni, fun j => p 1 0 (ni - j));       (* 2S -> 6E *)
                          (fun j => p 3 j 0, fun j => p 2 j ni);              (* 3E -> 4W *)
                          (fun j => p 4 j 0, fun j => p 2 ni (ni - j)) ] a ;  (* 3N -> 5W *)
  do a <- copy_loop nip [ (fun i => p 4 0 i, fun i => p 3 ni i);              (* 4N -> 5S *)
                          (fun i => p 5 0 i, fun i => p 3 (ni - i) ni) ] a ;  (* 4E -> 6S *)
  copy_loop nip [ (fun j => p 5 j 0, fun j => p 4 j ni) ] a.                  (* 5E -> 6W *)

(** Two nested loops that store [f j i] at place [p j i]. *)
Definition store2 {A} (nj ni : Z) (p : Z -> Z -> Z) (f : Z -> Z -> outcome A) (x : list A)
  : outcome (list A) :=
  ofor 0 nj (fun x j => ofor 0 ni (fun x i => do v <- f j i ; oset x (p j i) v) x) x.

(** create_gnomonic_cubic_grid.c 496-569, the body of the loop over the tiles: the corners
    of the cells of tile n go to the even places of the supergrid, the centres (cell_center,
    2008-2048) to the odd ones, the midpoints of the sides (cell_east, 2052-2090, and
    cell_north, 2094-2132) to the others.  The code stores the centres and midpoints in a
    temporary array first and copies from it; the model stores them directly. *)
Definition fill_tile {P} (mid : P -> P -> P) (mid4 : P -> P -> P -> P -> P)
    (ni : Z) (xc : list P) (n : Z) (x : list P) : outcome (list P) :=
  let c j i := oget xc (at3 (ni + 1) (ni + 1) n j i) in
  let s := at3 (2 * ni + 1) (2 * ni + 1) n in
  do x <- store2 (ni + 1) (ni + 1) (fun j i => s (j * 2) (i * 2)) c x ;
  do x <- store2 ni ni (fun j i => s (j * 2 + 1) (i * 2 + 1))
    (fun j i => do p1 <- c j i ; do p2 <- c j (i + 1) ; do p3 <- c (j + 1) (i + 1) ;
                do p4 <- c (j + 1) i ; Ok (mid4 p1 p2 p3 p4)) x ;
  do x <- store2 ni (ni + 1) (fun j i => s (j * 2 + 1) (i * 2))
    (fun j i => do p1 <- c j i ; do p2 <- c (j + 1) i ; Ok (mid p1 p2)) x ;
  store2 (ni + 1) ni (fun j i => s (j * 2) (i * 2 + 1))
    (fun j i => do p1 <- c j i ; do p2 <- c j (i + 1) ; Ok (mid p1 p2)) x.

(** create_gnomonic_cubic_grid.c 338-569: the points of the supergrid.  [adjust] is the body
    of the loop of 339-347, [transform] the Schmidt or cube transformation of 392-417 (the
    identity when neither was asked for), both applied point by point. *)
Definition cubic_points {P} (adjust transform : P -> P) (mid : P -> P -> P)
    (mid4 : P -> P -> P -> P -> P) (ni : Z) (xc x : list P) : outcome (list P) :=
  do xc <- join_tiles ni (map adjust xc) ;
  let xc := map transform xc in
  ofor 0 6 (fun x n => fill_tile mid mid4 ni xc n x) x.

(** create_gnomonic_cubic_grid.c 575-614: the lengths of the cell sides.  dy is computed for a
    stretched grid, and is the transpose of dx otherwise. *)
Definition side_lengths {P V} (dist : P -> P -> V) (stretched : bool) (nx : Z) (x : list P)
    (dx dy : list V) : outcome (list V * list V) :=
  let nxp := nx + 1 in
  let g n j i := oget x (at3 nxp nxp n j i) in
  do dx <- ofor 0 6 (fun dx n =>
      store2 nxp nx (at3 nxp nx n)
        (fun j i => do p1 <- g n j i ; do p2 <- g n j (i + 1) ; Ok (dist p1 p2)) dx) dx ;
  do dy <- ofor 0 6 (fun dy n =>
      if stretched then
        store2 nx nxp (at3 nx nxp n)
          (fun j i => do p1 <- g n j i ; do p2 <- g n (j + 1) i ; Ok (dist p1 p2)) dy
      else
        store2 nxp nx (fun j i => at3 nx nxp n i j) (fun j i => oget dx (at3 nxp nx n j i)) dy) dy ;
  Ok (dx, dy).

(** create_gnomonic_cubic_grid.c 616-659: "ensure consistency on the boundaries between
    tiles" for the lengths. *)
Definition join_lengths {V} (nx : Z) (dx dy : list V) : outcome (list V) :=
  let nxp := nx + 1 in
  let X := at3 nxp nx in
  let Y := at3 nx nxp in
  let from_dx dy dst src := do v <- oget dx src ; oset dy dst v in
  ofor 0 nx (fun dy j =>
    do dy <- from_dx dy (Y 0 j 0) (X 4 nx (nx - j - 1)) ;     (* 5N -> 1W *)
    do dy <- copy1 dy (Y 0 j nx) (Y 1 j 0) ;                  (* 2W -> 1E *)
    do dy <- from_dx dy (Y 1 j nx) (X 3 0 (nx - j - 1)) ;     (* 4S -> 2E *)
    do dy <- from_dx dy (Y 2 j 0) (X 0 nx (nx - j - 1)) ;     (* 1N -> 3W *)
    do dy <- copy1 dy (Y 2 j nx) (Y 3 j 0) ;                  (* 4W -> 3E *)
    do dy <- from_dx dy (Y 3 j nx) (X 5 0 (nx - j - 1)) ;     (* 6S -> 4E *)
    do dy <- from_dx dy (Y 4 j 0) (X 2 nx (nx - j - 1)) ;     (* 3N -> 5W *)
    do dy <- copy1 dy (Y 4 j nx) (Y 5 j 0) ;                  (* 6W -> 5E *)
    from_dx dy (Y 5 j nx) (X 1 0 (nx - j - 1))) dy.           (* 2S -> 6E *)

(** The whole of it, 338-659: points, then lengths. *)
Definition cubic_grid {P V} (adjust transform : P -> P) (mid : P -> P -> P)
    (mid4 : P -> P -> P -> P -> P) (dist : P -> P -> V) (stretched : bool)
    (ni : Z) (xc x : list P) (dx dy : list V) : outcome (list P * list V * list V) :=
  do x <- cubic_points adjust transform mid mid4 ni xc x ;
  do '(dx, dy) <- side_lengths dist stretched (2 * ni) x dx dy ;
  do dy <- join_lengths (2 * ni) dx dy ;
  Ok (x, dx, dy).
