(** * Model of src/runoff-regrid/runoff_regrid.c: nearest ocean point and remapping

    Doubles are real numbers; one processor (the compute domain is the whole grid;
    the decomposition itself is the subject of C05). *)
From Coq Require Import Reals.
From Verif Require Import Base M_Interp.
Open Scope Z_scope.

Definition reqb (a b : R) : bool := if Req_EM_T a b then true else false.

(** distance, runoff_regrid.c:690-704 *)
Definition distance (lon1 lat1 lon2 lat2 : R) : R :=
  (let z1 := sin lat1 in let z2 := sin lat2 in
   let x1 := cos lat1 * cos lon1 in let x2 := cos lat2 * cos lon2 in
   let y1 := cos lat1 * sin lon1 in let y2 := cos lat2 * sin lon2 in
   sqrt ((z1 - z2) ^ 2 + (x1 - x2) ^ 2 + (y1 - y2) ^ 2))%R.

(** nearest, runoff_regrid.c:708-726.  The state is r, *iout, *jout. *)
Definition nearest (nlon nlat : Z) (mask lon lat : list R) (plon plat : R) (iout jout : Z) : outcome (Z * Z) :=
  let r := distance 0 (PI / 2) 0 (- (PI / 2)) in
  do '(_, iout, jout) <- ofor 0 nlat (fun st j => ofor 0 nlon (fun st i =>
    let '(r, iout, jout) := st in
    let n := j * nlon + i in
    do m <- oget mask n ;
    if reqb m 0 then Ok (r, iout, jout) else
    do lo <- oget lon n ; do la <- oget lat n ;
    let r1 := distance plon plat lo la in
    Ok (if rlt r1 r then (r1, i, j) else (r, iout, jout))) st) (r, iout, jout) ;
  Ok (iout, jout).

(** The maps imap and jmap of setup_remap, runoff_regrid.c:499-527 *)
Definition setup_maps (nx ny : Z) (mask xt yt : list R) : outcome (list Z * list Z) :=
  let neg := repeat (-1) (Z.to_nat (nx * ny)) in
  ofor 0 ny (fun st j => ofor 0 nx (fun st i =>
    let '(imap, jmap) := st in
    let l := j * nx + i in
    do m <- oget mask l ;
    if reqb m 0 then
      do x <- oget xt l ; do y <- oget yt l ;
      do i0 <- oget imap l ; do j0 <- oget jmap l ;
      do '(i1, j1) <- nearest nx ny mask xt yt x y i0 j0 ;
      do imap <- oset imap l i1 ; do jmap <- oset jmap l j1 ;
      Ok (imap, jmap)
    else Ok (imap, jmap)) st) (neg, neg).

(** One time step of process_data, runoff_regrid.c:626-662: zeroing, remapping through the
    exchange grid, moving to the ocean, dividing by the area, and leaving out the
    [n_ext] extension rows.  The record [xcell] is that of [M_Interp] (index 1 input,
    index 2 output).  Division by a zero area is not modelled (C would give inf/nan). *)
Definition remap_step (nx_in nx_out : Z) (xg : list xcell) (data_in : list R) (data_out : list R) : outcome (list R) :=
  ofold (fun d c =>
    do v <- oget data_in (x_j1 c * nx_in + x_i1 c) ;
    do o <- oget d (x_j2 c * nx_out + x_i2 c) ;
    oset d (x_j2 c * nx_out + x_i2 c) (o + v * x_area c)%R) xg data_out.
Definition move_step (nx_out ny_out : Z) (mask : list R) (imap jmap : list Z) (data_out : list R) : outcome (list R) :=
  ofor 0 ny_out (fun d j => ofor 0 nx_out (fun d i =>
    let l := j * nx_out + i in
    do v <- oget d l ;
    do m <- oget mask l ;
    if rlt 0 v && reqb m 0 then
      do iout <- oget imap l ; do jout <- oget jmap l ;
      do t <- oget d (jout * nx_out + iout) ;
      do d <- oset d (jout * nx_out + iout) (t + v)%R ;
      oset d l 0%R
    else Ok d) d) data_out.
Definition divide_step (n : Z) (area : list R) (data_out : list R) : outcome (list R) :=
  ofor 0 n (fun d l => do v <- oget d l ; do a <- oget area l ; oset d l (v / a)%R) data_out.
Definition process_data (nx_in nx_out ny_out n_ext : Z) (xg : list xcell) (data_in mask : list R)
    (imap jmap : list Z) (area : list R) : outcome (list R) :=
  let d := repeat 0%R (Z.to_nat (nx_out * ny_out)) in
  do d <- remap_step nx_in nx_out xg data_in d ;
  do d <- move_step nx_out ny_out mask imap jmap d ;
  do d <- divide_step (nx_out * ny_out) area d ;
  if n_ext >? 0 then
    ofor 0 (ny_out - n_ext) (fun t j => ofor 0 nx_out (fun t i =>
      do v <- oget d ((j + n_ext) * nx_out + i) ; oset t (j * nx_out + i) v) t)
      (repeat 0%R (Z.to_nat (nx_out * (ny_out - n_ext))))
  else Ok d.
