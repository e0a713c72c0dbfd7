(** * Model of the regridding of vector fields: src/fre-grid/conserve_interp.c, do_vector_conserve_interp, and the
    rotation angles read by src/fre-grid/fregrid_util.c

    Doubles are real numbers.  One processor: the indices of the target are those of its part.  The input
    fields, which the code overwrites, are local to the call. *)
From Coq Require Import Reals.
From Verif Require Import Base M_Interp M_Runoff M_Vert M_Fregrid.
Open Scope Z_scope.

(** Rotation: grid.cosrot, grid.sinrot, grid.rotate *)
Record rotation := MkRot { r_cos : list R; r_sin : list R; r_on : bool }.
(** An input tile: grid_in[n].nx, ny, the rotation, u_in[n].data, v_in[n].data *)
Record vtile := MkVtile { v_nx : Z; v_ny : Z; v_rot : rotation; v_u : list R; v_v : list R }.
(** An output tile: grid_out[m].nxc, nyc, the rotation, grid_out[m].area ([None]: pointer never set) and the exchange
    cells interp[m] *)
Record vout := MkVout { w_nx : Z; w_ny : Z; w_rot : rotation; w_area : option (list R); w_xgrid : list xc }.

(** Degrees to radians, D2R *)
Definition D2R : R := (PI / 180)%R.
(** One cell of the loops that fill cosrot, sinrot and rotate: lines 261-263 and 543-545; [p] is the index into
    angle_dx *)
Definition rot_cell (angle : list R) (p : Z) (st : list R * list R * bool) : outcome (list R * list R * bool) :=
  let '(cs, ss, on) := st in
  do a <- oget angle p ;
  let s := sin (a * D2R) in
  Ok (cs ++ [cos (a * D2R)], ss ++ [s], if rlt EPSLN10 (Rabs s) then true else on).
(** fregrid_util.c, get_input_grid, lines 257-264; [angle]: variable angle_dx on the supergrid (2 nx + 1) x (2 ny + 1) *)
Definition input_rotation (nx ny : Z) (angle : list R) : outcome rotation :=
  do r <- ofor 0 ny (fun st j => ofor 0 nx (fun st i => rot_cell angle ((2 * j + 2) * (2 * nx + 2) + 2 * i + 2) st) st) ([], [], false) ;
  let '(cs, ss, on) := r in Ok (MkRot cs ss on).
(** fregrid_util.c, get_output_grid_from_mosaic, lines 539-546; the part of the tile starts at (isc, jsc) *)
Definition output_rotation (nx isc jsc nxc nyc : Z) (angle : list R) : outcome rotation :=
  do r <- ofor 0 nyc (fun st j => ofor 0 nxc (fun st i => rot_cell angle (2 * (j + jsc) * (2 * nx + 1) + 2 * (i + isc)) st) st) ([], [], false) ;
  let '(cs, ss, on) := r in Ok (MkRot cs ss on).

Definition both_valid (missing x y : R) : bool := negb (reqb x missing) && negb (reqb y missing).
(** Rotation of one component pair in place: lines 931-937 ([sgn] = 1) and 996-1002 ([sgn] = -1) *)
Definition rotate (missing sgn : R) (r : rotation) (n : Z) (u v : list R) : outcome (list R * list R) :=
  if r_on r then
    ofor 0 n (fun '(u, v) i =>
      do x <- oget u i ; do y <- oget v i ;
      if both_valid missing x y then
        do c <- oget (r_cos r) i ; do s <- oget (r_sin r) i ;
        do u <- oset u i (x * c - sgn * (y * s))%R ;
        do v <- oset v i (sgn * (x * s) + y * c)%R ;
        Ok (u, v)
      else Ok (u, v)) (u, v)
  else Ok (u, v).
(** Lines 927-940: all input tiles *)
Definition rotate_in (missing : R) (T : list vtile) : outcome (list vtile) :=
  ofold (fun l t => do r <- rotate missing 1 (v_rot t) (v_nx t * v_ny t) (v_u t) (v_v t) ;
                    Ok (l ++ [MkVtile (v_nx t) (v_ny t) (v_rot t) (fst r) (snd r)])) T [].
(** One exchange cell, lines 953-968 *)
Definition vcell (missing : R) (T : list vtile) (nx2 : Z) (st : list R * list R * list R) (c : xc) : outcome (list R * list R * list R) :=
  let '(u, v, a) := st in
  do t <- oget T (x_t c) ;
  let n1 := x_j c * v_nx t + x_i c in let n2 := x_jo c * nx2 + x_io c in
  do x <- oget (v_u t) n1 ; do y <- oget (v_v t) n1 ;
  if both_valid missing x y then
    do d <- oget u n2 ; do u <- oset u n2 (d + x * x_a c)%R ;
    do d <- oget v n2 ; do v <- oset v n2 (d + y * x_a c)%R ;
    do d <- oget a n2 ; do a <- oset a n2 (d + x_a c)%R ;
    Ok (u, v, a)
  else Ok st.
(** Lines 969-992; [by]: what to divide by *)
Definition vdivide (missing : R) (n : Z) (by_ a u v : list R) : outcome (list R * list R) :=
  ofor 0 n (fun '(u, v) i =>
    do s <- oget a i ;
    if rlt 0 s then
      do d <- oget by_ i ;
      do x <- oget u i ; do u <- oset u i (x / d)%R ;
      do y <- oget v i ; do v <- oset v i (y / d)%R ; Ok (u, v)
    else do u <- oset u i missing ; do v <- oset v i missing ; Ok (u, v)) (u, v).
(** One output tile, lines 942-1005 *)
Definition vtile_out (missing : R) (target : bool) (T : list vtile) (o : vout) : outcome (list R * list R) :=
  let n := w_nx o * w_ny o in
  do r <- ofold (vcell missing T (w_nx o)) (w_xgrid o) (alloc n, alloc n, alloc n) ;
  let '(u, v, a) := r in
  do r <- (if target then match w_area o with Some l => vdivide missing n l a u v | None => if n <=? 0 then Ok (u, v) else UB end
           else vdivide missing n a a u v) ;
  rotate missing (-1) (w_rot o) n (fst r) (snd r).
(** do_vector_conserve_interp, lines 917-1007 *)
Definition do_vector (missing : R) (target : bool) (T : list vtile) (O : list vout) : outcome (list (list R * list R)) :=
  do T <- rotate_in missing T ;
  ofold (fun l o => do r <- vtile_out missing target T o ; Ok (l ++ [r])) O [].
