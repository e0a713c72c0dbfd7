(** * Model of the 3x3 matrix, rotation and spherical coordinate routines of mosaic_util.c,
    over the reals (the code uses long double in the matrix routines and double elsewhere). *)
From Coq Require Import Reals.
From Verif Require Import Base M_Interp.
Open Scope Z_scope.

(** EPSLN10, EPSLN15, mosaic_util.c:37-38 *)
Definition EPSLN10 : R := (1 / 10000000000)%R.
Definition EPSLN15 : R := (1 / 1000000000000000)%R.

(** mult, mosaic_util.c:1008-1014 *)
Definition mult (m v : list R) : outcome (list R) :=
  do m0 <- oget m 0 ; do m1 <- oget m 1 ; do m2 <- oget m 2 ;
  do m3 <- oget m 3 ; do m4 <- oget m 4 ; do m5 <- oget m 5 ;
  do m6 <- oget m 6 ; do m7 <- oget m 7 ; do m8 <- oget m 8 ;
  do v0 <- oget v 0 ; do v1 <- oget v 1 ; do v2 <- oget v 2 ;
  Ok [m0 * v0 + m1 * v1 + m2 * v2; m3 * v0 + m4 * v1 + m5 * v2; m6 * v0 + m7 * v1 + m8 * v2]%R.

(** invert_matrix_3x3, mosaic_util.c:1018-1044; [None] is return value 0 *)
Definition invert_matrix_3x3 (m : list R) : outcome (option (list R)) :=
  do m0 <- oget m 0 ; do m1 <- oget m 1 ; do m2 <- oget m 2 ;
  do m3 <- oget m 3 ; do m4 <- oget m 4 ; do m5 <- oget m 5 ;
  do m6 <- oget m 6 ; do m7 <- oget m 7 ; do m8 <- oget m 8 ;
  let det := (m0 * (m4 * m8 - m5 * m7) - m1 * (m3 * m8 - m5 * m6) + m2 * (m3 * m7 - m4 * m6))%R in
  if rlt (Rabs det) EPSLN15 then Ok None else
  let deti := (1 / det)%R in
  Ok (Some [(m4 * m8 - m5 * m7) * deti; (m2 * m7 - m1 * m8) * deti; (m1 * m5 - m2 * m4) * deti;
            (m5 * m6 - m3 * m8) * deti; (m0 * m8 - m2 * m6) * deti; (m2 * m3 - m0 * m5) * deti;
            (m3 * m7 - m4 * m6) * deti; (m1 * m6 - m0 * m7) * deti; (m0 * m4 - m1 * m3) * deti]%R).

(** intersect_tri_with_line, mosaic_util.c:967-1005; the result is (t, p[0], p[1]), [None] is
    return value 0 *)
Definition intersect_tri_with_line (plane l1 l2 : list R) : outcome (option (R * R * R)) :=
  do x0 <- oget plane 0 ; do y0 <- oget plane 1 ; do z0 <- oget plane 2 ;
  do x1 <- oget plane 3 ; do y1 <- oget plane 4 ; do z1 <- oget plane 5 ;
  do x2 <- oget plane 6 ; do y2 <- oget plane 7 ; do z2 <- oget plane 8 ;
  do a0 <- oget l1 0 ; do a1 <- oget l1 1 ; do a2 <- oget l1 2 ;
  do b0 <- oget l2 0 ; do b1 <- oget l2 1 ; do b2 <- oget l2 2 ;
  do inv <- invert_matrix_3x3 [a0 - b0; x1 - x0; x2 - x0; a1 - b1; y1 - y0; y2 - y0; a2 - b2; z1 - z0; z2 - z0]%R ;
  match inv with
  | None => Ok None
  | Some m =>
      do X <- mult m [a0 - x0; a1 - y0; a2 - z0]%R ;
      do t <- oget X 0 ; do p0 <- oget X 1 ; do p1 <- oget X 2 ;
      Ok (Some (t, p0, p1))
  end.

(** set_the_rotation_matrix, mosaic_util.c:1693-1705; M_SQRT1_2 is the exact root *)
Definition the_rotation_matrix : list (list R) :=
  let s := sqrt (1 / 2) in [[0; - s; s]; [s; 1 / 2; 1 / 2]; [- s; 1 / 2; 1 / 2]]%R.
(** rotate_point, mosaic_util.c:1708-1720: the inner loop 1713-1715 and the outer loop *)
Definition rotate_point (rv : list R) (rmat : list (list R)) : outcome (list R) :=
  ofor 0 3 (fun v i =>
    do row <- oget rmat i ;
    do s <- ofor 0 3 (fun s j => do a <- oget row j ; do b <- oget rv j ; Ok (s + a * b)%R) 0%R ;
    Ok (v ++ [s])) [].

(** latlon2xyz, mosaic_util.c:212-223, for one point *)
Definition latlon2xyz (lon lat : R) : list R := [cos lat * cos lon; cos lat * sin lon; sin lat]%R.

(** atan2 of the C library over the reals *)
Definition atan2 (y x : R) : R :=
  if rlt 0 x then atan (y / x)
  else if rlt x 0 then (if rlt y 0 then atan (y / x) - PI else atan (y / x) + PI)%R
  else if rlt 0 y then (PI / 2)%R else if rlt y 0 then (- (PI / 2))%R else 0%R.

(** xyz2latlon, mosaic_util.c:228-253, for one point; a zero vector gives NaN in the code, [UB]
    here *)
Definition xyz2latlon (p : list R) : outcome (R * R) :=
  do x <- oget p 0 ; do y <- oget p 1 ; do z <- oget p 2 ;
  let dist := sqrt (x * x + y * y + z * z) in
  if negb (rlt 0 dist) then UB else
  let x := (x / dist)%R in let y := (y / dist)%R in let z := (z / dist)%R in
  let lon := if rlt (Rabs x + Rabs y) EPSLN10 then 0%R else atan2 y x in
  let lat := asin z in
  Ok ((if rlt lon 0 then 2 * PI + lon else lon)%R, lat).

(** rotate_poly, mosaic_util.c:1723-1734 *)
Definition rotate_poly (P : list (R * R)) : outcome (list (R * R)) :=
  ofor 0 (zlen P) (fun out i =>
    do p <- oget P i ;
    do rv <- rotate_point (latlon2xyz (fst p) (snd p)) the_rotation_matrix ;
    do sv <- xyz2latlon rv ;
    Ok (out ++ [sv])) [].

(** unit_vect_latlon, mosaic_util.c:937-957, for one point *)
Definition unit_vect_latlon (lon lat : R) : list R * list R :=
  ([- sin lon; cos lon; 0], [- sin lat * cos lon; - sin lat * sin lon; cos lat])%R.
