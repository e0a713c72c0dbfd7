(** * Model of the rectangular and tripolar grids of make_hgrid

    src/make-hgrid/create_lonlat_grid.c and the bipolar functions of
    lib/libfrencutils/tool_util.c, over exact reals.  make_hgrid.c 1116-1119 always passes the
    whole grid as the range isc..iec, jsc..jec.  The legacy way of computing the bounds
    (compute_grid_bound_legacy), the notes printed to the terminal and the area by great circles
    are not modelled, except [gc_corners]. *)
From Coq Require Import Reals.
From Verif Require Import Base M_Interp M_GridBound M_Longitude M_Runoff M_Matrix.
Open Scope Z_scope.

(** constant.h *)
Definition RADIUS : R := 6371000%R.
Definition D2R : R := (PI / 180)%R.
Definition R2D : R := (180 / PI)%R.

(** The arrays of a grid (the arguments x, y, dx, dy, area, angle_dx of create_lonlat_grid.c 58-63). *)
Record hgrid := { g_x : list R; g_y : list R; g_dx : list R; g_dy : list R; g_area : list R; g_angle : list R }.

(** The loops "n = 0; for(j...) for(i...) a[n++] = ...": the array is filled in order. *)
Definition fill2 (nj ni : Z) (f : Z -> Z -> outcome R) : outcome (list R) :=
  ofor 0 nj (fun out j => ofor 0 ni (fun out i => do v <- f j i ; Ok (out ++ [v])) out) [].

(** create_lonlat_grid.c 293-299, 395-401, 519-525, 155-161 *)
Definition points (nxp nyp : Z) (xb yb : list R) : outcome (list R * list R) :=
  do x <- fill2 nyp nxp (fun _ i => oget xb i) ;
  do y <- fill2 nyp nxp (fun j _ => oget yb j) ;
  Ok (x, y).

(** distant, tool_util.c 175-178 *)
Definition distant (a b met1 met2 : R) : R := (Rabs (a - b) * D2R * (met1 + met2) / 2)%R.

(** spherical_dist, tool_util.c 109-128 *)
Definition spherical_dist (x1 y1 x2 y2 : R) : outcome R :=
  if reqb x1 x2 then Ok (distant y1 y2 RADIUS RADIUS)
  else if reqb y1 y2 then Ok (distant x1 x2 (RADIUS * cos (y1 * D2R)) (RADIUS * cos (y2 * D2R)))
  else Err 1.

(** box_area, mosaic_util.c 259-268 *)
Definition box_area (ll_lon ll_lat ur_lon ur_lat : R) : R :=
  let dx := (ur_lon - ll_lon)%R in
  let dx := if rlt PI dx then (dx - 2 * PI)%R else dx in
  let dx := if rlt dx (- PI) then (dx + 2 * PI)%R else dx in
  (dx * (sin ur_lat - sin ll_lat) * RADIUS * RADIUS)%R.

(** Lengths along a row (create_lonlat_grid.c 300-306, 426-435, 526-533) and along a column (308-314,
    437-446, 535-541) of any grid, with the distance of
    the grid. *)
Definition row_lengths (nx ny nxp : Z) (x y : list R) (dist : Z -> R -> R -> R -> R -> outcome R) : outcome (list R) :=
  fill2 (ny + 1) nx (fun j i =>
    do x1 <- oget x (j * nxp + i) ; do y1 <- oget y (j * nxp + i) ;
    do x2 <- oget x (j * nxp + i + 1) ; do y2 <- oget y (j * nxp + i + 1) ; dist j x1 y1 x2 y2).
Definition col_lengths (nx ny nxp : Z) (x y : list R) (dist : Z -> R -> R -> R -> R -> outcome R) : outcome (list R) :=
  fill2 ny (nx + 1) (fun j i =>
    do x1 <- oget x (j * nxp + i) ; do y1 <- oget y (j * nxp + i) ;
    do x2 <- oget x ((j + 1) * nxp + i) ; do y2 <- oget y ((j + 1) * nxp + i) ; dist j x1 y1 x2 y2).
(** The area from the lower left and the upper right corner (335-342, 543-549). *)
Definition box_areas (nx ny nxp : Z) (x y : list R) (f : R -> R -> R -> R -> R) : outcome (list R) :=
  fill2 ny nx (fun j i =>
    do x1 <- oget x (j * nxp + i) ; do y1 <- oget y (j * nxp + i) ;
    do x2 <- oget x ((j + 1) * nxp + i + 1) ; do y2 <- oget y ((j + 1) * nxp + i + 1) ; Ok (f x1 y1 x2 y2)).
Definition no_angle (nx ny : Z) : outcome (list R) := fill2 (ny + 1) (nx + 1) (fun _ _ => Ok 0%R).

(** set_regular_lonlat_grid, create_lonlat_grid.c 286-350 *)
Definition set_regular_lonlat_grid (nxp nyp : Z) (xb yb : list R) : outcome hgrid :=
  let nx := nxp - 1 in let ny := nyp - 1 in
  do '(x, y) <- points nxp nyp xb yb ;
  do dx <- row_lengths nx ny nxp x y (fun _ => spherical_dist) ;
  do dy <- col_lengths nx ny nxp x y (fun _ => spherical_dist) ;
  do area <- box_areas nx ny nxp x y (fun x1 y1 x2 y2 => box_area (x1 * D2R) (y1 * D2R) (x2 * D2R) (y2 * D2R)) ;
  do angle <- no_angle nx ny ;
  Ok {| g_x := x; g_y := y; g_dx := dx; g_dy := dy; g_area := area; g_angle := angle |}.

(** create_regular_lonlat_grid, create_lonlat_grid.c 58-103 *)
Definition create_regular_lonlat_grid (nxb nyb : Z) (xbnds ybnds : list R) (nlon nlat : list Z) (c : center) : outcome hgrid :=
  do '(nx, xb) <- compute_grid_bound nxb xbnds nlon c ;
  do '(ny, yb) <- compute_grid_bound nyb ybnds nlat c ;
  set_regular_lonlat_grid (nx + 1) (ny + 1) xb yb.

(** cartesian_dist, create_lonlat_grid.c 609-621; cartesian_box_area, 625-637 *)
Definition cartesian_dist (flat x1 y1 x2 y2 : R) : outcome R :=
  if reqb x1 x2 then Ok (Rabs (y2 - y1) * D2R * RADIUS)%R
  else if reqb y1 y2 then Ok (Rabs (x2 - x1) * D2R * RADIUS * cos (flat * D2R))%R
  else Err 1.
Definition cartesian_box_area (flat x1 y1 x2 y2 : R) : R :=
  ((x2 - x1) * D2R * ((y2 - y1) * D2R) * cos (flat * D2R) * RADIUS * RADIUS)%R.

(** set_f_plane_grid, create_lonlat_grid.c 514-557; create_f_plane_grid, 561-605 *)
Definition set_f_plane_grid (nxp nyp : Z) (xb yb : list R) (flat : R) : outcome hgrid :=
  let nx := nxp - 1 in let ny := nyp - 1 in
  do '(x, y) <- points nxp nyp xb yb ;
  do dx <- row_lengths nx ny nxp x y (fun _ => cartesian_dist flat) ;
  do dy <- col_lengths nx ny nxp x y (fun _ => cartesian_dist flat) ;
  do area <- box_areas nx ny nxp x y (cartesian_box_area flat) ;
  do angle <- no_angle nx ny ;
  Ok {| g_x := x; g_y := y; g_dx := dx; g_dy := dy; g_area := area; g_angle := angle |}.
Definition create_f_plane_grid (nxb nyb : Z) (xbnds ybnds : list R) (nlon nlat : list Z) (flat : R) (c : center) : outcome hgrid :=
  do '(nx, xb) <- compute_grid_bound nxb xbnds nlon c ;
  do '(ny, yb) <- compute_grid_bound nyb ybnds nlat c ;
  set_f_plane_grid (nx + 1) (ny + 1) xb yb flat.

(** create_simple_cartesian_grid, create_lonlat_grid.c 119-174: the spline through two points *)
Definition two_points (np : Z) (bnds : list R) : outcome (list R) :=
  do grid2 <- ofor 0 np (fun g i => oset g i (IZR i + 1)%R) (alloc np) ;
  cubic_spline 2 np [1%R; IZR np] grid2 bnds (alloc np) 1 1 0.
Definition create_simple_cartesian_grid (nx ny : Z) (xbnds ybnds : list R) (simple_dx simple_dy : R) : outcome hgrid :=
  do xb <- two_points (nx + 1) xbnds ;
  do yb <- two_points (ny + 1) ybnds ;
  do '(x, y) <- points (nx + 1) (ny + 1) xb yb ;
  Ok {| g_x := x; g_y := y; g_dx := repeat simple_dx (Z.to_nat (nx * (ny + 1))); g_dy := repeat simple_dy (Z.to_nat ((nx + 1) * ny));
        g_area := repeat (simple_dx * simple_dy)%R (Z.to_nat (nx * ny)); g_angle := repeat 0%R (Z.to_nat ((nx + 1) * (ny + 1))) |}.

(** create_spectral_grid, create_lonlat_grid.c 183-277.  The Newton loop (218-235) counts with i
    instead of iter, so it has no bound: [fuel] rounds, [Err 98] if they are not enough.  It
    returns z and the derivative of the last round. *)
Definition legendre (nj : Z) (z : R) : outcome (R * R) :=
  ofor 1 nj (fun '(p1, p2) i => Ok (((2 * IZR i - 1) * z * p1 - (IZR i - 1) * p2) / IZR i, p1)%R) (1%R, 0%R).
Fixpoint newton (fuel : nat) (nj : Z) (z : R) : outcome (R * R) :=
  match fuel with
  | O => Err 98
  | S fuel =>
    do '(p1, p2) <- legendre nj z ;
    let pp := (IZR nj * (z * p1 - p2) / (z * z - 1))%R in
    let z' := (z - p1 / pp)%R in
    if rlt (Rabs (z' - z)) (/ 1000000000000000) then Ok (z', pp) else newton fuel nj z'
  end.
(** [None] is a variable without a value; using it is [UB].  The places of sin_lat and wts_lat are
    filled from both ends (242-247). *)
Definition val {A} (o : option A) : outcome A := match o with Some a => Ok a | None => UB end.
Definition create_spectral_grid (fuel : nat) (nx ny : Z) : outcome hgrid :=
  let ni := Z.quot nx 2 in let nj := Z.quot ny 2 in
  let nh := Z.quot nj 2 in
  do hem <- ofor 0 nh (fun l j =>
      do '(z, pp) <- newton fuel nj (cos (PI * (IZR j + 3 / 4) / (IZR nj + 1 / 2))) ;
      Ok (l ++ [(z, 2 / ((1 - z * z) * pp * pp))%R])) [] ;
  do '(sl, wl) <- ofor 0 nh (fun '(sl, wl) j =>
      do h <- oget hem j ;
      do sl <- oset sl j (Some (- fst h)%R) ; do sl <- oset sl (nj - 1 - j) (Some (fst h)) ;
      do wl <- oset wl j (Some (snd h)) ; do wl <- oset wl (nj - 1 - j) (Some (snd h)) ;
      Ok (sl, wl)) (repeat None (Z.to_nat nj), repeat None (Z.to_nat nj)) ;
  do lat <- ofor 0 nj (fun l j => do o <- oget sl j ; do s <- val o ; Ok (l ++ [asin s * R2D]%R)) [] ;
  do '(_, latb) <- ofor 1 (nj - 1) (fun '(sum, l) j =>
      do o <- oget wl (j - 1) ; do w <- val o ; do s <- val sum ;
      Ok (Some (s + w)%R, l ++ [asin (s + w - 1) * R2D]%R)) (None, [(-90)%R]) ;
  let latb := latb ++ [90%R] in
  let dlon := (360 / IZR ni)%R in
  do xb <- ofor 0 (nx + 1) (fun l k => Ok (l ++ [(if Z.even k then (IZR (Z.quot k 2) - 1 / 2) * dlon else IZR (Z.quot k 2) * dlon)%R])) [] ;
  do yb <- ofor 0 (ny + 1) (fun l k => do v <- (if Z.even k then oget latb (Z.quot k 2) else oget lat (Z.quot k 2)) ; Ok (l ++ [v])) [] ;
  set_regular_lonlat_grid (nx + 1) (ny + 1) xb yb.

(** ** The tripolar grid *)

(** fmod of the C library over the reals *)
Definition fmod (x y : R) : R :=
  let q := (x / y)%R in
  (x - y * (if rlt q 0 then - IZR (Int_part (- q)) else IZR (Int_part q)))%R.

(** lat_dist, tool_util.c 266-269 *)
Definition lat_dist (x1 x2 : R) : R := Rmin (fmod (x1 - x2 + 720) 360) (fmod (x2 - x1 + 720) 360).
(** bp_lam, tool_util.c 276-285 *)
Definition bp_lam (x y bpeq rp : R) : R :=
  let l := (2 * atan (tan ((1 / 2 * PI - y * D2R) / 2) / rp) * R2D)%R in
  if rlt (lat_dist x bpeq) 90 then (- l)%R else l.
(** bp_phi, tool_util.c 291-299 *)
Definition bp_phi (x bpsp bpnp : R) : R :=
  if rlt (lat_dist x bpsp) 90 then (-90 + lat_dist x bpsp)%R else (90 - lat_dist x bpnp)%R.

(** tp_trans, tool_util.c 306-337; the turns of lon_in_range are bounded by [fuel].  atan2(sin lamc,
    tan phic) is written atan2(sin lamc * cos phic, sin phic): the same for |phic| < 90 degrees,
    and its limit at 90 degrees, where the tan of the code is a large number. *)
Definition tp_trans (fuel : nat) (lon lat lon_ref lon_start lam0 bpeq bpsp bpnp rp : R) : outcome (R * R) :=
  let lamc := (bp_lam lon lat bpeq rp * D2R)%R in
  let phic := (bp_phi lon bpsp bpnp * D2R)%R in
  let chic := acos (cos lamc * cos phic) in
  let phis := (PI * (1 / 2) - 2 * atan (rp * tan (chic / 2)))%R in
  if rlt (Rabs (lat - 90)) SMALL then
    do lon <- (if rlt 0 phic then lon_in_range fuel lon_start lon_ref else Ok (lon_start + 180)%R) ;
    Ok (lon, (phis * R2D)%R)
  else if rlt (Rabs lamc) SMALL && rlt (Rabs phic) SMALL then Ok (lon_ref, 90%R)
  else
    let lams := fmod (lam0 + PI + PI / 2 - atan2 (sin lamc * cos phic) (sin phic)) (2 * PI) in
    do lon <- lon_in_range fuel (lams * R2D) lon_ref ;
    Ok (lon, (phis * R2D)%R).

(** bipolar_dist, tool_util.c 135-168 *)
Definition bp_metric (x y bpeq bpsp bpnp rp : R) : R :=
  let bl := bp_lam x y bpeq rp in let bp := bp_phi x bpsp bpnp in
  if rlt (Rabs (y - 90)) SMALL || negb (rlt (Rabs (bl * D2R)) SMALL) || negb (rlt (Rabs (bp * D2R)) SMALL) then
    let chic := acos (cos (bl * D2R) * cos (bp * D2R)) in
    (rp * (1 / (cos (chic / 2) * cos (chic / 2))) / (1 + rp * rp * (tan (chic / 2) * tan (chic / 2))))%R
  else 1%R.
Definition bipolar_dist (bpeq bpsp bpnp rp x1 y1 x2 y2 : R) : outcome R :=
  let bl x y := bp_lam x y bpeq rp in let bp x := bp_phi x bpsp bpnp in
  let m x y := bp_metric x y bpeq bpsp bpnp rp in
  let h1 x := (RADIUS * cos (bp x * D2R))%R in
  if reqb x1 x2 then Ok (distant (bl x1 y1) (bl x2 y2) (m x1 y1 * h1 x1) (m x2 y2 * h1 x2))
  else if reqb y1 y2 then Ok (distant (bp x1) (bp x2) (m x1 y1 * RADIUS) (m x2 y2 * RADIUS))
  else Err 1.

(** The northern rows are transformed in place, from west to east; the reference longitude is that
    of the point before, already transformed (create_lonlat_grid.c 448-454). *)
Definition bipolar_rows (fuel : nat) (nxp nyp j_join : Z) (lon_start lam0 bpeq bpsp bpnp rp : R) (xy : list R * list R)
  : outcome (list R * list R) :=
  ofor j_join (nyp - j_join) (fun s j => ofor 0 nxp (fun '(x, y) i =>
    do lon_last <- oget x (j * nxp + Z.max (i - 1) 0) ;
    do lon <- oget x (j * nxp + i) ; do lat <- oget y (j * nxp + i) ;
    do '(lon, lat) <- tp_trans fuel lon lat lon_last lon_start lam0 bpeq bpsp bpnp rp ;
    do x <- oset x (j * nxp + i) lon ; do y <- oset y (j * nxp + i) lat ;
    Ok (x, y)) s) xy.

(** create_tripolar_grid, create_lonlat_grid.c 360-512: the points and the lengths.  The areas of
    the northern cells (poly_area of the corners) and the angles (atan2 of differences of the
    points) are left out: [g_area] and [g_angle] are not given. *)
Record tripolar := { t_x : list R; t_y : list R; t_dx : list R; t_dy : list R; t_join : Z }.
Definition create_tripolar_grid (fuel : nat) (nxb nyb : Z) (xbnds ybnds : list R) (nlon nlat : list Z) (c : center) (lat_join_in : R)
  : outcome tripolar :=
  do '(nx, xb) <- compute_grid_bound nxb xbnds nlon c ;
  do '(ny, yb) <- compute_grid_bound nyb ybnds nlat c ;
  let nxp := nx + 1 in let nyp := ny + 1 in
  do '(x, y) <- points nxp nyp xb yb ;
  do j_join <- nearest_index lat_join_in yb nyp ;
  do lat_join <- oget yb j_join ;
  do lon_start <- oget xbnds 0 ;
  let bpeq := (lon_start + 90)%R in let bpnp := lon_start in let bpsp := (lon_start + 180)%R in
  let lam0 := fmod (bpeq * D2R + 2 * PI) (2 * PI) in
  let rp := tan ((1 / 2 * PI - lat_join * D2R) / 2) in
  let dist j := if j <? j_join then spherical_dist else bipolar_dist bpeq bpsp bpnp rp in
  do dx <- row_lengths nx ny nxp x y dist ;
  do dy <- col_lengths nx ny nxp x y dist ;
  do '(x, y) <- bipolar_rows fuel nxp nyp j_join lon_start lam0 bpeq bpsp bpnp rp (x, y) ;
  Ok {| t_x := x; t_y := y; t_dx := dx; t_dy := dy; t_join := j_join |}.

(** The corners of the cell at (j, i) whose great-circle area get_grid_great_circle_area
    (create_xgrid.c 114-153) takes, from arrays of longitudes and latitudes in radians.
    set_regular_lonlat_grid passes these (create_lonlat_grid.c 317-334), create_tripolar_grid
    passes the first two Cartesian coordinates instead (457-473). *)
Definition gc_corners (nxp j i : Z) (lon lat : list R) : outcome (list (list R)) :=
  ofold (fun out n => do a <- oget lon n ; do b <- oget lat n ; Ok (out ++ [latlon2xyz a b]))
    [j * nxp + i; (j + 1) * nxp + i; (j + 1) * nxp + i + 1; j * nxp + i + 1] [].
Definition regular_corners (nxp j i : Z) (x y : list R) : outcome (list (list R)) :=
  gc_corners nxp j i (map (Rmult D2R) x) (map (Rmult D2R) y).
Definition tripolar_corners (nxp j i : Z) (x y : list R) : outcome (list (list R)) :=
  let cart := map (fun p => latlon2xyz (D2R * fst p) (D2R * snd p)) (combine x y) in
  gc_corners nxp j i (map (fun v => nth 0 v 0%R) cart) (map (fun v => nth 1 v 0%R) cart).
