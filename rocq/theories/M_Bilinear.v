(** Model of the bilinear interpolation of fregrid: src/fre-grid/bilinear_interp.c, with
    spherical_angle from lib/libfrencutils/mosaic_util.c.  Real numbers for double arithmetic; a
    division by zero, which gives infinity or NaN in C, is [UB].  The search for the closest cell
    (first half of setup_bilinear_interp), its fallback get_index and the remap file are not
    modelled: [index] is what the search found.  Both callers of
    do_c2l_interp and do_latlon_coarsening pass nz = 1 (bilinear_interp.c:457 and :491), so the
    loops over levels are left out. *)
From Coq Require Import Reals ZArith List Bool.
From Verif Require Import Base M_Interp.
Import ListNotations.
Open Scope R_scope.

(** double v[3] *)
Definition vec3 : Type := (R * R * R)%type.
Definition vec_at (xt yt zt : list R) (n : Z) : outcome vec3 :=
  do x <- oget xt n ; do y <- oget yt n ; do z <- oget zt n ; Ok (x, y, z).

(** normalize_great_circle_distance, bilinear_interp.c:905-917; sign(a,b), min(a,b): lines 29-31 *)
Definition gc_distance (v1 v2 : vec3) : R :=
  let '(x1, y1, z1) := v1 in let '(x2, y2, z2) := v2 in
  let dist := (x1 * x2 + y1 * y2 + z1 * z2) / sqrt ((x1 * x1 + y1 * y1 + z1 * z1) * (x2 * x2 + y2 * y2 + z2 * z2)) in
  let a := if rlt 1 (Rabs dist) then 1 else Rabs dist in
  acos (if rlt dist 0 then - Rabs a else Rabs a).

(** EPSLN30, mosaic_util.h *)
Definition EPSLN30 : R := / 10 ^ 30.

(** spherical_angle, mosaic_util.c:800-838 *)
Definition spherical_angle (v1 v2 v3 : vec3) : R :=
  let '(x1, y1, z1) := v1 in let '(x2, y2, z2) := v2 in let '(x3, y3, z3) := v3 in
  let px := y1 * z2 - z1 * y2 in let py := z1 * x2 - x1 * z2 in let pz := x1 * y2 - y1 * x2 in
  let qx := y1 * z3 - z1 * y3 in let qy := z1 * x3 - x1 * z3 in let qz := x1 * y3 - y1 * x3 in
  let ddd := (px * px + py * py + pz * pz) * (qx * qx + qy * qy + qz * qz) in
  if negb (rlt 0 ddd) then 0 else
  let ddd := (px * qx + py * qy + pz * qz) / sqrt ddd in
  let ddd := if rlt (Rabs (ddd - 1)) EPSLN30 then 1 else ddd in
  let ddd := if rlt (Rabs (ddd + 1)) EPSLN30 then -1 else ddd in
  if rlt 1 ddd || rlt ddd (-1) then (if rlt ddd 0 then PI else 0) else acos ddd.

(** get_closest_index, bilinear_interp.c:745-900: index[0] and index[1], if found.  [g] gives the
    centre of a cell of the tile. *)
Definition not_above (a b c : R) : bool := negb (rlt c (if rlt a b then b else a)).
Definition closest_index (nx ny : Z) (g : Z -> outcome vec3) (v0 : vec3) (i j : Z) : outcome (option (Z * Z)) :=
  let nxd := (nx + 2)%Z in
  do v1 <- g (j * nxd + i)%Z ; do v2 <- g (j * nxd + i + 1)%Z ; do v3 <- g ((j + 1) * nxd + i)%Z ;
  if not_above (spherical_angle v1 v2 v0) (spherical_angle v1 v3 v0) (spherical_angle v1 v2 v3) then
    do ok <- (if ((i =? nx) && (j =? ny))%Z
      then Ok (not_above (spherical_angle v2 v1 v0) (spherical_angle v2 v3 v0) (spherical_angle v2 v3 v1))
      else do v4 <- g ((j + 1) * nxd + i + 1)%Z ;
           Ok (not_above (spherical_angle v4 v2 v0) (spherical_angle v4 v3 v0) (spherical_angle v4 v3 v2))) ;
    Ok (if ok : bool then Some (i, j) else None)
  else
    do v4 <- g (j * nxd + i - 1)%Z ;
    if not_above (spherical_angle v1 v3 v0) (spherical_angle v1 v4 v0) (spherical_angle v1 v3 v4) then
      do ok <- (if ((i =? 1) && (j =? ny))%Z
        then Ok (not_above (spherical_angle v3 v4 v0) (spherical_angle v3 v1 v0) (spherical_angle v3 v1 v4))
        else do v5 <- g ((j + 1) * nxd + i - 1)%Z ; do v6 <- g (j * nxd + i - 1)%Z ;
             Ok (not_above (spherical_angle v5 v6 v0) (spherical_angle v5 v3 v0) (spherical_angle v5 v3 v6))) ;
      Ok (if ok : bool then Some ((i - 1)%Z, j) else None)
    else
      do v5 <- g (j * nxd + i - 1)%Z ; do v6 <- g ((j - 1) * nxd + i)%Z ;
      if not_above (spherical_angle v1 v4 v0) (spherical_angle v1 v6 v0) (spherical_angle v1 v5 v6) && (1 <? i)%Z && (1 <? j)%Z then
        do v7 <- g ((j - 1) * nxd + i - 1)%Z ;
        Ok (if not_above (spherical_angle v7 v5 v0) (spherical_angle v7 v6 v0) (spherical_angle v7 v6 v5)
            then Some ((i - 1)%Z, (j - 1)%Z) else None)
      else if not_above (spherical_angle v1 v6 v0) (spherical_angle v1 v2 v0) (spherical_angle v1 v6 v2) then
        do ok <- (if ((i =? nx) && (j =? 1))%Z
          then Ok (not_above (spherical_angle v2 v6 v0) (spherical_angle v2 v1 v0) (spherical_angle v2 v1 v6))
          else do v8 <- g ((j - 1) * nxd + i + 1)%Z ;
               Ok (not_above (spherical_angle v8 v6 v0) (spherical_angle v8 v2 v0) (spherical_angle v8 v2 v6))) ;
        Ok (if ok : bool then Some (i, (j - 1)%Z) else None)
      else Ok None.

(** dist2side, bilinear_interp.c:956-965 *)
Definition dist2side (v1 v2 point : vec3) : R :=
  asin (sin (gc_distance v1 point) * sin (spherical_angle v1 v2 point)).

(** weight /= sum *)
Definition div_sum (sum : R) (w : list R) : outcome (list R) :=
  if Req_EM_T sum 0 then UB else Ok (map (fun x => x / sum) w).

(** setup_bilinear_interp 270-405: the four weights of one point, for (ic, jc), (ic, jc+1),
    (ic+1, jc+1), (ic+1, jc); [g] gives the centre of a cell of the tile *)
Definition cell_weights (nx ny ic jc : Z) (g : Z -> outcome vec3) (v0 : vec3) : outcome (list R) :=
  let nxd := (nx + 2)%Z in
  if ((ic =? nx) && (jc =? ny))%Z then
    do v1 <- g (jc * nxd + ic)%Z ; do v2 <- g (jc * nxd + ic + 1)%Z ; do v3 <- g ((jc + 1) * nxd + ic)%Z ;
    let d1 := dist2side v2 v3 v0 in let d2 := dist2side v2 v1 v0 in let d3 := dist2side v1 v3 v0 in
    div_sum (d1 + d2 + d3) [d1; d2; 0; d3]
  else if ((ic =? 0) && (jc =? ny))%Z then
    do v1 <- g (jc * nxd + ic)%Z ; do v2 <- g (jc * nxd + ic + 1)%Z ; do v3 <- g ((jc + 1) * nxd + ic + 1)%Z ;
    let d1 := dist2side v3 v2 v0 in let d2 := dist2side v2 v1 v0 in let d3 := dist2side v3 v1 v0 in
    div_sum (d1 + d2 + d3) [d1; 0; d2; d3]
  else if ((jc =? 0) && (ic =? nx))%Z then
    do v1 <- g (jc * nxd + ic)%Z ; do v2 <- g ((jc + 1) * nxd + ic)%Z ; do v3 <- g ((jc + 1) * nxd + ic + 1)%Z ;
    let d1 := dist2side v2 v3 v0 in let d2 := dist2side v1 v3 v0 in let d3 := dist2side v1 v2 v0 in
    div_sum (d1 + d2 + d3) [d1; d2; d3; 0]
  else
    do v1 <- g (jc * nxd + ic)%Z ; do v2 <- g (jc * nxd + ic + 1)%Z ;
    do v3 <- g ((jc + 1) * nxd + ic)%Z ; do v4 <- g ((jc + 1) * nxd + ic + 1)%Z ;
    let d1 := dist2side v1 v3 v0 in let d2 := dist2side v3 v4 v0 in
    let d3 := dist2side v4 v2 v0 in let d4 := dist2side v2 v1 v0 in
    div_sum (d2 * d3 + d3 * d4 + d4 * d1 + d1 * d2) [d2 * d3; d3 * d4; d4 * d1; d1 * d2].

(** The loop over the points, 218-407, for points that were found.  [grids]: xt, yt, zt of the
    tiles of the source; [xo yo zo]: of the destination. *)
Definition all_weights (nx ny : Z) (grids : list (list R * list R * list R)) (xo yo zo : list R)
    (index : list Z) (n_out : Z) (weight : list R) : outcome (list R) :=
  ofor 0 n_out (fun w n0 =>
    do ic <- oget index (3 * n0) ; do jc <- oget index (3 * n0 + 1) ; do l <- oget index (3 * n0 + 2) ;
    do v0 <- vec_at xo yo zo n0 ;
    do '(xt, yt, zt) <- oget grids l ;
    do ws <- cell_weights nx ny ic jc (vec_at xt yt zt) v0 ;
    ofor 0 4 (fun w m => do x <- oget ws m ; oset w (4 * n0 + m) x) w) weight.

(** max_weight_index, bilinear_interp.c:968-981, with nvar = 4 *)
Definition max_weight_index (var : list R) : outcome Z :=
  ofor 1 3 (fun ind i => do a <- oget var i ; do b <- oget var ind ; Ok (if rlt b a then i else ind)) 0%Z.

(** do_c2l_interp, bilinear_interp.c:563-611 *)
Definition c2l_interp (nx_in ny_in : Z) (fields : list (list R)) (index : list Z) (weight : list R)
    (has_missing : bool) (missing : R) (fill_missing : bool) (n_out : Z) (data_out : list R) : outcome (list R) :=
  let nxd := (nx_in + 2)%Z in
  ofor 0 n_out (fun out n1 =>
    do ic <- oget index (3 * n1) ; do jc <- oget index (3 * n1 + 1) ; do tile <- oget index (3 * n1 + 2) ;
    do f <- oget fields tile ;
    do d0 <- oget f (jc * nxd + ic)%Z ; do d1 <- oget f ((jc + 1) * nxd + ic)%Z ;
    do d2 <- oget f ((jc + 1) * nxd + ic + 1)%Z ; do d3 <- oget f (jc * nxd + ic + 1)%Z ;
    do w0 <- oget weight (4 * n1) ; do w1 <- oget weight (4 * n1 + 1) ;
    do w2 <- oget weight (4 * n1 + 2) ; do w3 <- oget weight (4 * n1 + 3) ;
    let is_missing d := if Req_EM_T d missing then true else false in
    if has_missing && (is_missing d0 || is_missing d1 || is_missing d2 || is_missing d3) then
      if fill_missing then
        do ind <- max_weight_index [w0; w1; w2; w3] ; do d <- oget [d0; d1; d2; d3] ind ; oset out n1 d
      else oset out n1 missing
    else oset out n1 (d0 * w0 + d1 * w1 + d2 * w2 + d3 * w3)) data_out.

(** sort_index, bilinear_interp.c:618-655, up to the first loop: index_sort is allocated with
    room for ntiles integers *)
Definition sort_index_start (ntiles : Z) (junk : list Z) : outcome (list Z) :=
  ofor 0 (3 * ntiles) (fun a l => oset a l 0%Z) (firstn (Z.to_nat ntiles) junk).

(** redu2x, bilinear_interp.c:1055-1154.  [tmp] and [varcrs] are what the arrays vartmp and
    varcrs hold at the start.  [if (vartmp[n1] /= missvalue)] divides. *)
Definition redu2x (varfin yfin : list R) (nxfin nyfin : Z) (varcrs : list R) (nxcrs nycrs : Z)
    (has_missing : bool) (missvalue : R) (cosp acosp tmp : list R) : outcome (list R) :=
  do cosp <- oset cosp 0 0 ;
  do cosp <- oset cosp (nyfin - 1) 0 ;
  do cosp <- ofor 1 (nyfin - 2) (fun cosp j => do y <- oget yfin j ; oset cosp j (cos y)) cosp ;
  do acosp <- ofor 1 (nyfin - 2) (fun acosp j =>
    do a <- oget cosp j ; do b <- oget cosp (j - 1) ; do c <- oget cosp (j + 1) ;
    let d := a + 5 / 10 * (b + c) in
    if Req_EM_T d 0 then UB else oset acosp j (1 / d)) acosp ;
  let miss d := has_missing && (if Req_EM_T d missvalue then true else false) in
  (* x-sweep *)
  do tmp <- ofor 1 (nyfin - 2) (fun tmp j =>
    let n1 := (j * nxfin)%Z in let n2 := (j * nxcrs)%Z in
    let mean a b c := if miss a || miss b || miss c then missvalue else 25 / 100 * (a + 2 * b + c) in
    do a <- oget varfin (n1 + nxfin - 1) ; do b <- oget varfin n1 ; do c <- oget varfin (n1 + 1) ;
    do tmp <- oset tmp n2 (mean a b c) ;
    (* i = 2, 4, ... < nxfin-1 *)
    ofor 1 (nxfin / 2 - 1) (fun tmp i2 => let i := (2 * i2)%Z in
      do a <- oget varfin (n1 + i - 1) ; do b <- oget varfin (n1 + i) ; do c <- oget varfin (n1 + i + 1) ;
      oset tmp (n2 + i2) (mean a b c)) tmp) tmp ;
  (* poles *)
  do varcrs <- ofor 0 nxcrs (fun varcrs i =>
    do a <- oget varfin (i * 2) ; do varcrs <- oset varcrs i a ;
    do b <- oget varfin ((nyfin - 1) * nxfin + i * 2) ; oset varcrs ((nycrs - 1) * nxcrs + i) b) varcrs ;
  (* y-sweep *)
  do tmp <- ofor 1 (nyfin - 2) (fun tmp j => ofor 0 nxcrs (fun tmp i =>
    let n1 := (j * nxcrs + i)%Z in
    do v <- oget tmp n1 ; do c <- oget cosp j ;
    if has_missing then
      if Req_EM_T missvalue 0 then UB else
      let v := v / missvalue in
      if Req_EM_T v 0 then oset tmp n1 v else oset tmp n1 (v * c)
    else oset tmp n1 (v * c)) tmp) tmp ;
  (* j = 2, 4, ... < nyfin-2 *)
  ofor 1 ((nyfin - 1) / 2 - 1) (fun varcrs j2 => let j := (2 * j2)%Z in ofor 0 nxcrs (fun varcrs i =>
    do a <- oget tmp (i + j * nxcrs) ; do b <- oget tmp (i + (j - 1) * nxcrs) ; do c <- oget tmp (i + (j + 1) * nxcrs) ;
    do ac <- oget acosp j ;
    oset varcrs (i + j2 * nxcrs) (if miss a || miss b || miss c then missvalue else ac * (a + 5 / 10 * (b + c)))) varcrs) varcrs.

(** do_latlon_coarsening, bilinear_interp.c:994-1046.  The work arrays are allocated in
    redu2x and for every step; [junk] gives their contents at the start. *)
Fixpoint coarsen_steps (steps : nat) (junk : Z -> list R) (first : bool) (ylat var : list R) (nlon nlat : Z)
    (has_missing : bool) (missvalue : R) : outcome (list R) :=
  match steps with
  | O => Ok var
  | S steps' =>
      do ylat_old <- (if first then Ok ylat else
        let dlat := PI / IZR (nlat - 1) in
        do y <- oset (junk nlat) 0 (- (5 / 10) * PI) ;
        do y <- oset y (nlat - 1) (5 / 10 * PI) ;
        ofor 1 (nlat - 2) (fun y j => do y0 <- oget y 0 ; oset y j (y0 + IZR j * dlat)) y) ;
      let nlon' := (nlon / 2)%Z in let nlat' := ((nlat - 1) / 2 + 1)%Z in
      do v <- redu2x var ylat_old nlon nlat (junk (nlon' * nlat')%Z) nlon' nlat' has_missing missvalue
                (junk nlat) (junk nlat) (junk (nlon' * nlat)%Z) ;
      coarsen_steps steps' junk false ylat v nlon' nlat' has_missing missvalue
  end.
Definition latlon_coarsening (junk : Z -> list R) (finer_steps : nat) (ylat var : list R) (nlon nlat : Z)
    (has_missing : bool) (missvalue : R) : outcome (list R) :=
  coarsen_steps finer_steps junk true ylat var nlon nlat has_missing missvalue.

(** get_output_grid_by_size, fregrid_util.c:576-634: the size of the finer grid, and the
    longitudes and latitudes (in degrees) of the destination and the finer grid *)
Definition fine_nx (finer_steps nlon : Z) : Z := (2 ^ finer_steps * nlon)%Z.
Definition fine_ny (finer_steps nlat : Z) : Z := (2 ^ finer_steps * (nlat - 1) + 1)%Z.
Definition lon_centre (lonbegin lonend : R) (n i : Z) : R :=
  let dlon := (lonend - lonbegin) / IZR n in lonbegin + (IZR i + 5 / 10) * dlon.
Definition lat_centre (center_y : bool) (latbegin latend : R) (n j : Z) : R :=
  if center_y then let dlat := (latend - latbegin) / IZR n in latbegin + (IZR j + 5 / 10) * dlat
  else let dlat := (latend - latbegin) / IZR (n - 1) in latbegin + IZR j * dlat.

(** do_scalar_bilinear_interp, bilinear_interp.c:440-468, with finer_step = 0: data_fine is
    copied to the start of the output array (1008) *)
Definition scalar_bilinear (nx_in ny_in : Z) (fields : list (list R)) (index : list Z) (weight : list R)
    (has_missing : bool) (missing : R) (fill_missing : bool) (n_out : Z) (junk data_out : list R) : outcome (list R) :=
  do fine <- c2l_interp nx_in ny_in fields index weight has_missing missing fill_missing n_out junk ;
  ofor 0 n_out (fun o i => do v <- oget fine i ; oset o i v) data_out.

(** do_vector_bilinear_interp, bilinear_interp.c:476-559, before the coarsening.  [vlon] and
    [vlat] are the arrays with three values per cell (unit_vect_latlon). *)
Definition component (m : Z) (n : Z) (u v vlon vlat : list R) (junk : list R) : outcome (list R) :=
  ofor 0 n (fun out k =>
    do a <- oget u k ; do b <- oget v k ; do e <- oget vlon (3 * k + m) ; do f <- oget vlat (3 * k + m) ;
    oset out k (a * e + b * f)) junk.
Fixpoint components (m n : Z) (junk : list R) (tiles : list ((list R * list R) * (list R * list R))) : outcome (list (list R)) :=
  match tiles with
  | [] => Ok []
  | ((u, v), (vlon, vlat)) :: tiles => do c <- component m n u v vlon vlat junk ; do cs <- components m n junk tiles ; Ok (c :: cs)
  end.
Definition project (n : Z) (x y z vdir junk : list R) : outcome (list R) :=
  ofor 0 n (fun out k =>
    do a <- oget x k ; do b <- oget y k ; do c <- oget z k ;
    do e <- oget vdir (3 * k) ; do f <- oget vdir (3 * k + 1) ; do h <- oget vdir (3 * k + 2) ;
    oset out k (a * e + b * f + c * h)) junk.
Definition vector_bilinear (nx_in ny_in : Z) (tiles : list ((list R * list R) * (list R * list R)))
    (vlon_out vlat_out : list R) (index : list Z) (weight : list R)
    (has_missing : bool) (missing : R) (fill_missing : bool) (n_out : Z) (jin jout : list R) : outcome (list R * list R) :=
  let nd := ((nx_in + 2) * (ny_in + 2))%Z in
  let part m := do f <- components m nd jin tiles ; c2l_interp nx_in ny_in f index weight has_missing missing fill_missing n_out jout in
  do x <- part 0%Z ; do y <- part 1%Z ; do z <- part 2%Z ;
  do u <- project n_out x y z vlon_out jout ; do v <- project n_out x y z vlat_out jout ; Ok (u, v).
