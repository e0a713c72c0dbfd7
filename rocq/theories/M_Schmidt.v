(** Model of the transformations of a cubed-sphere grid that make_hgrid --do_schmidt and
    --do_cube_transform apply: src/make-hgrid/create_gnomonic_cubic_grid.c, [direct_transform]
    and [cube_transform].  Real numbers for the (long) double arithmetic; the message printed
    for the first tile is left out. *)
From Coq Require Import Reals ZArith List Bool.
From Verif Require Import Base M_Interp M_Matrix.
Import ListNotations.
Open Scope R_scope.

(** EPSLN7, create_gnomonic_cubic_grid.c:60 *)
Definition EPSLN7 : R := 1 / 10000000.

(** The body of the loops of direct_transform, 1239-1260, and of cube_transform, 1425-1447, for
    one point.  The two differ in one line: cube_transform adds M_PI to the longitude (1435);
    [flip] says which one it is.  The sines and cosines of lat_p, taken before the loop, are
    written out. *)
Definition transform_point (flip : bool) (stretch lon_p lat_p : R) (p : R * R) : R * R :=
  let '(lon, lat) := p in
  let c2p1 := 1 + stretch * stretch in
  let c2m1 := 1 - stretch * stretch in
  let lat_t := if rlt EPSLN7 (Rabs c2m1)
               then asin ((c2m1 + c2p1 * sin lat) / (c2p1 + c2m1 * sin lat)) else lat in
  let sin_lat := sin lat_t in
  let cos_lat := cos lat_t in
  let lon := if flip then lon + PI else lon in
  let sin_o := - (sin lat_p * sin_lat + cos lat_p * cos_lat * cos lon) in
  if rlt (1 - Rabs sin_o) EPSLN7
  then (0, if rlt sin_o 0 then - (1 / 2 * PI) else 1 / 2 * PI)
  else
    let lat' := asin sin_o in
    let lon' := lon_p + atan2 (- cos_lat * sin lon) (- sin_lat * cos lat_p + cos_lat * sin lat_p * cos lon) in
    ((if rlt lon' 0 then lon' + 2 * PI else if negb (rlt lon' (2 * PI)) then lon' - 2 * PI else lon'), lat').

(** direct_transform, 1215-1262, and cube_transform, 1398-1450: the loops over the points
    i1..i2, j1..j2 of arrays that start at [o] (the code passes xc+n*nip*nip). *)
Definition transform_tile (flip : bool) (stretch : R) (i1 i2 j1 j2 : Z) (lon_p lat_p : R) (o : Z)
    (lon lat : list R) : outcome (list R * list R) :=
  let nxp := (i2 - i1 + 1)%Z in
  ofor j1 (j2 - j1 + 1) (fun s j => ofor i1 (i2 - i1 + 1) (fun '(lon, lat) i =>
    let l := (o + (j * nxp + i))%Z in
    do x <- oget lon l ; do y <- oget lat l ;
    let '(x', y') := transform_point flip stretch lon_p lat_p (x, y) in
    do lon <- oset lon l x' ; do lat <- oset lat l y' ; Ok (lon, lat)) s) (lon, lat).

(** create_gnomonic_cubic_grid 388-415: the transformation of the six tiles; target_lon and
    target_lat are given in degrees (D2R = M_PI/180). *)
Definition transform_tiles (schmidt cube : bool) (stretch target_lon target_lat : R) (ni : Z)
    (xc yc : list R) : outcome (list R * list R) :=
  let nip := (ni + 1)%Z in
  if schmidt || cube then
    ofor 0 6 (fun '(xc, yc) n =>
      transform_tile (negb schmidt) stretch 0 ni 0 ni (target_lon * (PI / 180)) (target_lat * (PI / 180))
        (n * nip * nip)%Z xc yc) (xc, yc)
  else Ok (xc, yc).
