(** * Model of the vertical interpolation of fregrid: src/fre-grid/fregrid_util.c

    Doubles are real numbers.  vgrid_in->nz and vgrid_out->nz are the lengths of the lists of levels. *)
From Coq Require Import Reals.
From Verif Require Import Base M_Interp.
Open Scope Z_scope.

(** EPSLN10, line 37 *)
Definition EPSLN10 : R := (1 / 10 ^ 10)%R.
(** Lines 764-766: for(kstart=0; kstart<nk2; kstart++) if(z_out[kstart] >= z_in[0]) break *)
Fixpoint scan_start (fuel : nat) (zo : list R) (z0 : R) (k : Z) : outcome Z :=
  if k <? zlen zo then
    do z <- oget zo k ;
    if rle z0 z then Ok k else match fuel with O => Err 0 | S fuel => scan_start fuel zo z0 (k + 1) end
  else Ok k.
(** Lines 767-769: for(kend=nk2-1; kend>=0; kend--) if(z_out[kend] <= z_in[nk1-1]) break *)
Fixpoint scan_end (fuel : nat) (zo : list R) (z1 : R) (k : Z) : outcome Z :=
  if 0 <=? k then
    do z <- oget zo k ;
    if rle z z1 then Ok k else match fuel with O => Err 0 | S fuel => scan_end fuel zo z1 (k - 1) end
  else Ok k.
(** Lines 781-786: the levels agree *)
Definition same_levels (zi zo : list R) : bool :=
  (zlen zi =? zlen zo) && forallb (fun '(a, b) => negb (rlt EPSLN10 (Rabs (b - a)))) (combine zi zo).
(** setup_vertical_interp, lines 756-787: (kstart, kend, need_interp) *)
Definition setup_vertical (zi zo : list R) : outcome (Z * Z * bool) :=
  do z0 <- oget zi 0 ;
  do ks <- scan_start (length zo) zo z0 0 ;
  do z1 <- oget zi (zlen zi - 1) ;
  do ke <- scan_end (length zo) zo z1 (zlen zo - 1) ;
  Ok (ks, ke, negb (same_levels zi zo)).
(** The [len] elements from position [start]: a pointer into an array with the number of elements used *)
Definition window (start len : Z) (l : list R) : list R := firstn (Z.to_nat len) (skipn (Z.to_nat start) l).
(** do_vertical_interp, lines 789-821, for a field with a vertical axis on the part nx x ny of one tile.
    [fd]: what malloc leaves in the new array. *)
Definition do_vertical (nx ny : Z) (zi zo : list R) (fd : R) (data : list R) : outcome (list R) :=
  do r <- setup_vertical zi zo ;
  let '(ks, ke, need) := r in
  if negb need then Ok data else
  let nk1 := zlen zi in let nk2 := zlen zo in
  do tmp <- ofor 0 (nx * ny * nk1) (fun t i => do v <- oget data i ; Ok (t ++ [v])) [] ;
  let data := if nk1 =? nk2 then data else repeat fd (Z.to_nat (nx * ny * nk2)) in
  do data <- ofor 0 ks (fun d k => ofor 0 (nx * ny) (fun d i => do v <- oget tmp i ; oset d (k * nx * ny + i) v) d) data ;
  do data <- ofor ke (nk2 - ke) (fun d k => ofor 0 (nx * ny) (fun d i => do v <- oget tmp ((nk1 - 1) * nx * ny + i) ; oset d (k * nx * ny + i) v) d) data ;
  let nk := ke - ks + 1 in
  if nk <=? 0 then
    (* linear_vertical_interp with nk2 = 0: only the tests of interp.c 373-374, which read z_out[kstart] and z_out[kstart-1] *)
    do a <- oget zi 0 ; do z <- oget zo ks ;
    if rlt z a then Err 2 else
    do a <- oget zi (nk1 - 1) ; do z <- oget zo (ks + nk - 1) ;
    if rlt a z then Err 2 else Ok data
  else
    let w := ks * nx * ny in
    do part <- linear_vertical_interp nx ny nk1 nk zi (window ks nk zo) tmp (window w (nk * nx * ny) data) ;
    Ok (firstn (Z.to_nat w) data ++ part ++ skipn (Z.to_nat (w + nk * nx * ny)) data).
