(** Model of the equal-distance gnomonic projection of make_hgrid and of the rotations that
    make six tiles of it, over the reals:
    src/make-hgrid/create_gnomonic_cubic_grid.c, gnomonic_ed, symm_ed, mirror_grid and what
    they call, and their use in create_gnomonic_cubic_grid.  Arrays the code allocates with
    malloc are arguments of the model (whatever they contain). *)
From Coq Require Import Reals ZArith List Bool.
From Verif Require Import Base M_Interp M_Matrix M_Cubic.
Import ListNotations.
Open Scope Z_scope.

(** mirror_latlon, create_gnomonic_cubic_grid.c 1571-1592, with vect_cross of mosaic_util.c. *)
Definition mirror_latlon (lon1 lat1 lon2 lat2 lon0 lat0 : R) : outcome (R * R) :=
  match latlon2xyz lon0 lat0, latlon2xyz lon1 lat1, latlon2xyz lon2 lat2 with
  | [a0; a1; a2], [b0; b1; b2], [c0; c1; c2] =>
      (let n0 := b1 * c2 - b2 * c1 in let n1 := b2 * c0 - b0 * c2 in let n2 := b0 * c1 - b1 * c0 in
       let pdot := sqrt (n0 * n0 + n1 * n1 + n2 * n2) in
       let n0 := n0 / pdot in let n1 := n1 / pdot in let n2 := n2 / pdot in
       let pdot := a0 * n0 + a1 * n1 + a2 * n2 in
       xyz2latlon [a0 - 2 * pdot * n0; a1 - 2 * pdot * n1; a2 - 2 * pdot * n2])%R
  | _, _, _ => UB
  end.

(** One call [latlon2xyz(1, &lamda[n], &theta[n], &x[n], &y[n], &z[n])]. *)
Definition to_xyz (lam th : list R) (n : Z) (xyz : list R * list R * list R)
  : outcome (list R * list R * list R) :=
  let '(x, y, z) := xyz in
  do lo <- oget lam n ; do la <- oget th n ;
  match latlon2xyz lo la with
  | [a; b; c] => do x <- oset x n a ; do y <- oset y n b ; do z <- oset z n c ; Ok (x, y, z)
  | _ => UB
  end.

(** gnomonic_ed 1476-1488: "Define East-West edges".  [dely] is divided by [ni]. *)
Definition ed_west_east (ni : Z) (alpha dely : R) (lam th : list R) : outcome (list R * list R) :=
  let nip := ni + 1 in
  ofor 0 nip (fun '(lam, th) j =>
    do lam <- oset lam (j * nip) (3 / 4 * PI)%R ;
    do lam <- oset lam (j * nip + ni) (5 / 4 * PI)%R ;
    do th <- oset th (j * nip) (- alpha + dely * IZR j)%R ;
    do v <- oget th (j * nip) ; do th <- oset th (j * nip + ni) v ;
    Ok (lam, th)) (lam, th).

(** gnomonic_ed 1490-1497: "Get North-South edges by symmetry". *)
Definition ed_south_north (ni : Z) (lam th : list R) : outcome (list R * list R) :=
  let nip := ni + 1 in
  ofor 1 (ni - 1) (fun '(lam, th) i =>
    do lo1 <- oget lam 0 ; do la1 <- oget th 0 ;
    do lo2 <- oget lam (ni * nip + ni) ; do la2 <- oget th (ni * nip + ni) ;
    do lo0 <- oget lam (i * nip) ; do la0 <- oget th (i * nip) ;
    do '(lo, la) <- mirror_latlon lo1 la1 lo2 la2 lo0 la0 ;
    do lam <- oset lam i lo ; do th <- oset th i la ;
    do v <- oget lam i ; do lam <- oset lam (ni * nip + i) v ;
    do v <- oget th i ; do th <- oset th (ni * nip + i) (- v)%R ;
    Ok (lam, th)) (lam, th).

(** gnomonic_ed 1502-1525: corners, and "Map edges on the sphere back to cube". *)
Definition ed_edge (rsq3 : R) (lam th : list R) (n : Z) (xyz : list R * list R * list R)
  : outcome (list R * list R * list R) :=
  do '(x, y, z) <- to_xyz lam th n xyz ;
  do xv <- oget x n ;
  do v <- oget y n ; do y <- oset y n (- v * rsq3 / xv)%R ;
  do v <- oget z n ; do z <- oset z n (- v * rsq3 / xv)%R ;
  Ok (x, y, z).
Definition ed_cube (ni : Z) (rsq3 : R) (lam th : list R) (xyz : list R * list R * list R)
  : outcome (list R * list R * list R) :=
  let nip := ni + 1 in
  do xyz <- to_xyz lam th 0 xyz ;
  do xyz <- to_xyz lam th ni xyz ;
  do xyz <- to_xyz lam th (ni * nip) xyz ;
  do xyz <- to_xyz lam th (ni * nip + ni) xyz ;
  do xyz <- ofor 1 (ni - 1) (fun s j => ed_edge rsq3 lam th (j * nip) s) xyz ;
  ofor 1 (ni - 1) (fun s i => ed_edge rsq3 lam th i s) xyz.

(** gnomonic_ed 1527-1537: the plane x = -rsq3, and y and z by column and row. *)
Definition ed_plane (ni : Z) (rsq3 : R) (xyz : list R * list R * list R)
  : outcome (list R * list R * list R) :=
  let nip := ni + 1 in
  let '(x, y, z) := xyz in
  do x <- store2 nip nip (fun j i => j * nip + i) (fun _ _ => Ok (- rsq3)%R) x ;
  do '(y, z) <- ofor 1 (nip - 1) (fun s j => ofor 1 (nip - 1) (fun '(y, z) i =>
      do v <- oget y i ; do y <- oset y (j * nip + i) v ;
      do v <- oget z (j * nip) ; do z <- oset z (j * nip + i) v ;
      Ok (y, z)) s) (y, z) ;
  Ok (x, y, z).

(** xyz2latlon of all points, gnomonic_ed 1539. *)
Definition all_latlon (n : Z) (x y z lam th : list R) : outcome (list R * list R) :=
  ofor 0 n (fun '(lam, th) k =>
    do a <- oget x k ; do b <- oget y k ; do c <- oget z k ;
    do '(lo, la) <- xyz2latlon [a; b; c] ;
    do lam <- oset lam k lo ; do th <- oset th k la ; Ok (lam, th)) (lam, th).

(** gnomonic_ed, 1465-1545. *)
Definition gnomonic_ed (ni : Z) (xyz : list R * list R * list R) (lam th : list R)
  : outcome (list R * list R) :=
  let rsq3 := (1 / sqrt 3)%R in
  let alpha := asin rsq3 in
  let dely := (2 * alpha / IZR ni)%R in
  do '(lam, th) <- ed_west_east ni alpha dely lam th ;
  do '(lam, th) <- ed_south_north ni lam th ;
  do xyz <- ed_cube ni rsq3 lam th xyz ;
  do '(x, y, z) <- ed_plane ni rsq3 xyz ;
  all_latlon ((ni + 1) * (ni + 1)) x y z lam th.

(** symm_ed, 1596-1631. *)
Definition symm_ed (ni : Z) (lam th : list R) : outcome (list R * list R) :=
  let nip := ni + 1 in
  do lam <- ofor 1 (nip - 1) (fun lam j => ofor 1 (ni - 1) (fun lam i =>
      copy1 lam (j * nip + i) i) lam) lam ;
  do '(lam, th) <- ofor 0 nip (fun s j => ofor 0 (ni / 2) (fun '(lam, th) i =>
      let ip := ni - i in
      do u <- oget lam (j * nip + i) ; do v <- oget lam (j * nip + ip) ;
      let avg := (1 / 2 * (u - v))%R in
      do lam <- oset lam (j * nip + i) (avg + PI)%R ;
      do lam <- oset lam (j * nip + ip) (PI - avg)%R ;
      do u <- oget th (j * nip + i) ; do v <- oget th (j * nip + ip) ;
      let avg := (1 / 2 * (u + v))%R in
      do th <- oset th (j * nip + i) avg ; do th <- oset th (j * nip + ip) avg ;
      Ok (lam, th)) s) (lam, th) ;
  ofor 0 (ni / 2) (fun s j => let jp := ni - j in ofor 1 (ni - 1) (fun '(lam, th) i =>
      do u <- oget lam (j * nip + i) ; do v <- oget lam (jp * nip + i) ;
      let avg := (1 / 2 * (u + v))%R in
      do lam <- oset lam (j * nip + i) avg ; do lam <- oset lam (jp * nip + i) avg ;
      do u <- oget th (j * nip + i) ; do v <- oget th (jp * nip + i) ;
      let avg := (1 / 2 * (u - v))%R in
      do th <- oset th (j * nip + i) avg ; do th <- oset th (jp * nip + i) (- avg)%R ;
      Ok (lam, th)) s) (lam, th).

(** spherical_to_cartesian, 1829-1836 *)
Definition spherical_to_cartesian (lon lat r : R) : R * R * R :=
  (r * cos lon * cos lat, r * sin lon * cos lat, - r * sin lat)%R.
(** cartesian_to_spherical, 1811-1823; EPSLN10 is 1.e-10 *)
Definition cartesian_to_spherical (x y z : R) : R * R * R :=
  let r := sqrt (x * x + y * y + z * z) in
  ((if rlt (Rabs x + Rabs y) EPSLN10 then 0 else atan2 y x), acos (z / r) - PI / 2, r)%R.
(** rot_3d, 1759-1806, with degrees = convert = 1; another axis is an error *)
Definition rot_3d (axis : Z) (p : R * R * R) (angle : R) : outcome (R * R * R) :=
  let '(x, y, z) := p in
  let '(x1, y1, z1) := spherical_to_cartesian x y z in
  let angle := (angle * (PI / 180))%R in
  let c := cos angle in let s := sin angle in
  match axis with
  | 1 => let '(x2, y2, z2) := (x1, c * y1 + s * z1, - s * y1 + c * z1)%R in Ok (cartesian_to_spherical x2 y2 z2)
  | 2 => let '(x2, y2, z2) := (c * x1 - s * z1, y1, s * x1 + c * z1)%R in Ok (cartesian_to_spherical x2 y2 z2)
  | 3 => let '(x2, y2, z2) := (c * x1 + s * y1, - s * x1 + c * y1, z1)%R in Ok (cartesian_to_spherical x2 y2 z2)
  | _ => Err 1
  end.

(** The sign of mirror_grid, [v >= 0 ? 1 : -1]. *)
Definition sgn1 (v : R) : R := if rlt v 0 then (-1)%R else 1%R.
(** The first half of mirror_grid, 1645-1671, for one array: four points get the mean of their
    absolute values, with their signs. *)
Definition mean4 (nip j jp i ip : Z) (x : list R) : outcome (list R) :=
  do a <- oget x (j * nip + i) ; do b <- oget x (j * nip + ip) ;
  do c <- oget x (jp * nip + i) ; do d <- oget x (jp * nip + ip) ;
  let x1 := (1 / 4 * (Rabs a + Rabs b + Rabs c + Rabs d))%R in
  do v <- oget x (j * nip + i) ; do x <- oset x (j * nip + i) (x1 * sgn1 v)%R ;
  do v <- oget x (j * nip + ip) ; do x <- oset x (j * nip + ip) (x1 * sgn1 v)%R ;
  do v <- oget x (jp * nip + i) ; do x <- oset x (jp * nip + i) (x1 * sgn1 v)%R ;
  do v <- oget x (jp * nip + ip) ; oset x (jp * nip + ip) (x1 * sgn1 v)%R.
(** mirror_grid 1645-1671; ceil(nip/2.) is (nip+1)/2 *)
Definition mirror_first (ni : Z) (x y : list R) : outcome (list R * list R) :=
  let nip := ni + 1 in
  ofor 0 ((nip + 1) / 2) (fun s j => let jp := ni - j in ofor 0 ((nip + 1) / 2) (fun '(x, y) i =>
    let ip := ni - i in
    do x <- mean4 nip j jp i ip x ;
    do y <- mean4 nip j jp i ip y ;
    if negb (nip mod 2 =? 0) && (i =? (nip - 1) / 2)
    then do x <- oset x (j * nip + i) 0%R ; do x <- oset x (jp * nip + i) 0%R ; Ok (x, y)
    else Ok (x, y)) s) (x, y).

(** mirror_grid 1679-1744: the point of tile nt+1 that corresponds to point (j, i) of the
    first tile. *)
Definition mirror_point (ni nt j i : Z) (x1 y1 : R) : outcome (R * R) :=
  let nip := ni + 1 in
  let p1 := (x1, y1, 6371000%R) in
  let odd := negb (nip mod 2 =? 0) in
  let mid := (nip - 1) / 2 in
  match nt with
  | 1 => do '(x2, y2, _) <- rot_3d 3 p1 (-90) ; Ok (x2, y2)
  | 2 => do p2 <- rot_3d 3 p1 (-90) ; do '(x2, y2, _) <- rot_3d 1 p2 90 ;
      if odd then
        let '(x2, y2) := if (i =? mid) && (i =? j) then (0, PI * (1 / 2))%R else (x2, y2) in
        let x2 := if (j =? mid) && (i <? mid) then 0%R else x2 in
        let x2 := if (j =? mid) && (mid <? i) then PI else x2 in
        Ok (x2, y2)
      else Ok (x2, y2)
  | 3 => do p2 <- rot_3d 3 p1 (-180) ; do '(x2, y2, _) <- rot_3d 1 p2 90 ;
      if odd && (j =? mid) then Ok (PI, y2) else Ok (x2, y2)
  | 4 => do p2 <- rot_3d 3 p1 90 ; do '(x2, y2, _) <- rot_3d 2 p2 90 ; Ok (x2, y2)
  | 5 => do p2 <- rot_3d 2 p1 90 ; do '(x2, y2, _) <- rot_3d 3 p2 0 ;
      if odd then
        let '(x2, y2) := if (i =? mid) && (i =? j) then (0, - PI * (1 / 2))%R else (x2, y2) in
        let x2 := if (i =? mid) && (mid <? j) then 0%R else x2 in
        let x2 := if (i =? mid) && (j <? mid) then PI else x2 in
        Ok (x2, y2)
      else Ok (x2, y2)
  | _ => UB
  end.
(** mirror_grid, 1637-1752, ntiles = 6 *)
Definition mirror_grid (ni : Z) (x y : list R) : outcome (list R * list R) :=
  let nip := ni + 1 in
  do '(x, y) <- mirror_first ni x y ;
  ofor 1 5 (fun s nt => ofor 0 nip (fun s j => ofor 0 nip (fun '(x, y) i =>
    do x1 <- oget x (j * nip + i) ; do y1 <- oget y (j * nip + i) ;
    do '(x2, y2) <- mirror_point ni nt j i x1 y1 ;
    do x <- oset x (at3 nip nip nt j i) x2 ; do y <- oset y (at3 nip nip nt j i) y2 ;
    Ok (x, y)) s) s) (x, y).

(** create_gnomonic_cubic_grid 287-336 for grid type gnomonic_ed: the points of the six tiles
    before the loop that adjusts them. *)
Definition cubic_start (ni : Z) (xyz : list R * list R * list R) (lam th xc yc : list R)
  : outcome (list R * list R) :=
  let nip := ni + 1 in
  do '(lam, th) <- gnomonic_ed ni xyz lam th ;
  do '(lam, th) <- symm_ed ni lam th ;
  do xc <- store2 nip nip (fun j i => j * nip + i)
             (fun j i => do v <- oget lam (j * nip + i) ; Ok (v - PI)%R) xc ;
  do yc <- store2 nip nip (fun j i => j * nip + i) (fun j i => oget th (j * nip + i)) yc ;
  mirror_grid ni xc yc.

(** create_gnomonic_cubic_grid 344-347, the body of the loop that adjusts the points; EPSLN4
    is 1.e-4.  [turn] says that neither --do_schmidt nor --do_cube_transform was given. *)
Definition adjust_point (turn : bool) (shift_fac : R) (p : R * R) : R * R :=
  let '(x, y) := p in
  (let x := if turn && rlt (1 / 10000) shift_fac then x - PI / 18 else x in
   let x := if rlt x 0 then x + 2 * PI else x in
   let x := if rlt (Rabs x) EPSLN10 then 0 else x in
   let y := if rlt (Rabs y) EPSLN10 then 0 else y in
   (x, y))%R.
