(** * Model of src/river-regrid/river_regrid.c: river network on one or several tiles

    A field is a list of tiles, each tile a row-major array.  Fields with a halo have
    (nx+2)*(ny+2) elements per tile, the others nx*ny.  Doubles are real numbers.  The
    boundary condition code [opcode] is represented by its three bits. *)
From Coq Require Import Reals.
From Verif Require Import Base M_Interp M_Runoff M_QsortIndex.
Open Scope Z_scope.

(** data[n][k] *)
Definition mget {A} (data : list (list A)) (n k : Z) : outcome A := do t <- oget data n ; oget t k.
Definition mset {A} (data : list (list A)) (n k : Z) (v : A) : outcome (list (list A)) :=
  do t <- oget data n ; do t <- oset t k v ; oset data n t.

(** for(n=0; n<ntiles; n++) for(j=1; j<=ny; j++) for(i=1; i<=nx; i++) *)
Definition for_cells {S} (ntiles nx ny : Z) (f : S -> Z -> Z -> Z -> outcome S) (s : S) : outcome S :=
  ofor 0 ntiles (fun s n => ofor 1 ny (fun s j => ofor 1 nx (fun s i => f s n j i) s) s) s.

Record opcode := { x_cyclic : bool; y_cyclic : bool; cubic : bool }.

(** data[n1][k1] = data[n2][k2] *)
Definition copy {A} (data : list (list A)) (n1 k1 n2 k2 : Z) : outcome (list (list A)) :=
  do v <- mget data n2 k2 ; mset data n1 k1 v.

(** update_halo_double, river_regrid.c:776-830.  Lines 791 runs [i] up to ny, not nx.
    update_halo_int (832-854) converts to double, calls this and converts back, which is the
    identity for int; it is this same function at type Z. *)
Definition update_halo {A} (ntiles : Z) (data : list (list A)) (nx ny : Z) (op : opcode) : outcome (list (list A)) :=
  let nxp1 := nx + 1 in let nyp1 := ny + 1 in let nxp2 := nx + 2 in
  do data <- (if x_cyclic op then
    ofor 1 ny (fun d j =>
      do d <- copy d 0 (j * nxp2) 0 (j * nxp2 + nx) ;
      copy d 0 (j * nxp2 + nxp1) 0 (j * nxp2 + 1)) data else Ok data) ;
  do data <- (if y_cyclic op then
    ofor 1 ny (fun d i =>
      do d <- copy d 0 i 0 (ny * nxp2 + i) ;
      copy d 0 (nyp1 * nxp2 + i) 0 (nxp2 + i)) data else Ok data) ;
  do data <- (if x_cyclic op && y_cyclic op then
    do d <- copy data 0 0 0 (ny * nxp2) ;
    do d <- copy d 0 nxp1 0 (ny * nxp2 + 1) ;
    do d <- copy d 0 (nyp1 * nxp2 + nxp1) 0 (nxp2 + 1) ;
    copy d 0 (nyp1 * nxp2) 0 (nxp2 + nx) else Ok data) ;
  if cubic op then
    ofor 0 ntiles (fun d n =>
      if negb (n mod 2 =? 0) then
        let tw := (n + 5) mod ntiles in let te := (n + 2) mod ntiles in
        let ts := (n + 4) mod ntiles in let tn := (n + 1) mod ntiles in
        do d <- ofor 1 ny (fun d j =>
          do d <- copy d n (j * nxp2) tw (j * nxp2 + nx) ;
          copy d n (j * nxp2 + nxp1) te (nxp2 + (nxp1 - j))) d ;
        ofor 1 nx (fun d i =>
          do d <- copy d n i ts ((nyp1 - i) * nxp2 + nx) ;
          copy d n (nyp1 * nxp2 + i) tn (nxp2 + i)) d
      else
        let tw := (n + 4) mod ntiles in let te := (n + 1) mod ntiles in
        let ts := (n + 5) mod ntiles in let tn := (n + 2) mod ntiles in
        do d <- ofor 1 ny (fun d j =>
          do d <- copy d n (j * nxp2) tw (ny * nxp2 + nxp1 - j) ;
          copy d n (j * nxp2 + nxp1) te (j * nxp2 + 1)) d ;
        ofor 1 nx (fun d i =>
          do d <- copy d n i ts (ny * nxp2 + i) ;
          copy d n (nyp1 * nxp2 + i) tn ((nyp1 - i) * nxp2 + 1)) d) data
  else Ok data.

(** ** calc_tocell, river_regrid.c:880-982 *)
Definition out_flow : list Z := [8; 4; 2; 16; -1; 1; 32; 64; 128].
Definition out_dir : list Z := [3; 2; 1; 4; -1; 0; 5; 6; 7].
(** for(joff..3) for(ioff..3), the centre skipped *)
Definition for_ring {S} (f : S -> Z -> Z -> outcome S) (s : S) : outcome S :=
  ofor 0 3 (fun s joff => ofor 0 3 (fun s ioff =>
    if (ioff =? 1) && (joff =? 1) then Ok s else f s joff ioff) s) s.
(** Lines 911-960: the neighbour chosen for a full land cell (tval, iget, jget).
    [large] is LARGE_VALUE (1e20) and [cutoff] is suba_cutoff. *)
Definition choose (large cutoff subA_missing : R) (subA : list (list R)) (nxp2 n jm1 im1 : Z) (subA_me : R)
    : outcome (R * Z * Z) :=
  let start := ((-999)%R, -1, -1) in
  if rlt cutoff subA_me then
    for_ring (fun st joff ioff =>
      let '(tval, iget, jget) := st in
      do s <- mget subA n ((jm1 + joff) * nxp2 + (im1 + ioff)) ;
      if rlt subA_me s then
        if reqb tval (-999) then Ok (if rlt tval s then (s, ioff, joff) else st)
        else if rlt tval large then Ok (if rlt tval s && rlt s large then (s, ioff, joff) else st)
        else Ok (s, ioff, joff)
      else Ok st) start
  else
    for_ring (fun st joff ioff =>
      let '(tval, iget, jget) := st in
      do s <- mget subA n ((jm1 + joff) * nxp2 + (im1 + ioff)) ;
      if negb (reqb s subA_missing) then Ok (if rle tval s then (s, ioff, joff) else st) else Ok st) start.
(** The cells, then the halo updates.  The test pow(2,dir) != tocell (line 966) raises [Err 1]. *)
Definition calc_tocell (ntiles nx ny : Z) (op : opcode) (large cutoff subA_missing : R)
    (landfrac subA : list (list R)) (tocell dir : list (list Z)) : outcome (list (list Z) * list (list Z)) :=
  let nxp2 := nx + 2 in
  do '(tocell, dir) <- for_cells ntiles nx ny (fun st n j i =>
    let '(tocell, dir) := st in
    let jm1 := j - 1 in let im1 := i - 1 in
    do lf <- mget landfrac n (jm1 * nx + im1) ;
    if reqb lf 0 then Ok (tocell, dir)
    else if rlt lf 1 then do t <- mset tocell n (j * nxp2 + i) 0 ; Ok (t, dir)
    else
      do me <- mget subA n (j * nxp2 + i) ;
      do '(tval, iget, jget) <- choose large cutoff subA_missing subA nxp2 n jm1 im1 me ;
      if (0 <=? iget) && (0 <=? jget) then
        if rlt me tval then
          do fl <- oget out_flow (jget * 3 + iget) ;
          do dr <- oget out_dir (jget * 3 + iget) ;
          do t <- mset tocell n (j * nxp2 + i) fl ;
          do d <- mset dir n (j * nxp2 + i) dr ;
          if negb (2 ^ dr =? fl) then Err 1 else Ok (t, d)
        else do t <- mset tocell n (j * nxp2 + i) 0 ; Ok (t, dir)
      else do t <- mset tocell n (j * nxp2 + i) 0 ; Ok (t, dir)) (tocell, dir) ;
  do tocell <- update_halo ntiles tocell nx ny op ;
  do dir <- update_halo ntiles dir nx ny op ;
  Ok (tocell, dir).

(** ** calc_river_data, river_regrid.c:991-1172 (celllength is not modelled) *)
Definition di : list Z := [1; 1; 0; -1; -1; -1; 0; 1].
Definition dj : list Z := [0; -1; -1; -1; 0; 1; 1; 1].
(** Lines 1064-1087: outlets *)
Definition coast (ntiles nx ny tocell_missing : Z) (tocell dir basin travel last_point : list (list Z))
    : outcome (Z * list (list Z) * list (list Z) * list (list Z)) :=
  let nxp2 := nx + 2 in
  for_cells ntiles nx ny (fun st n j i =>
    let '(cur, basin, travel, last) := st in
    do t <- mget tocell n (j * nxp2 + i) ;
    if t =? 0 then
      do basin <- mset basin n (j * nxp2 + i) (cur + 1) ;
      do travel <- mset travel n (j * nxp2 + i) 0 ;
      do last <- mset last n ((j - 1) * nx + i - 1) 1 ;
      Ok (cur + 1, basin, travel, last)
    else if t >? 0 then
      do dr <- mget dir n (j * nxp2 + i) ;
      do dx <- oget di dr ; do dy <- oget dj dr ;
      do td <- mget tocell n ((j + dy) * nxp2 + (i + dx)) ;
      if td =? tocell_missing then
        do basin <- mset basin n (j * nxp2 + i) (cur + 1) ;
        do travel <- mset travel n (j * nxp2 + i) 1 ;
        do last <- mset last n ((j - 1) * nx + i - 1) 1 ;
        Ok (cur + 1, basin, travel, last)
      else Ok (cur, basin, travel, last)
    else Ok (cur, basin, travel, last)) (0, basin, travel, last_point).
(** Lines 1097-1114: one sweep; mpp_error of line 1106 is [Err 2] *)
Definition sweep (ntiles nx ny basin_missing cur_travel : Z) (dir basin travel : list (list Z))
    : outcome (bool * list (list Z) * list (list Z)) :=
  let nxp2 := nx + 2 in
  for_cells ntiles nx ny (fun st n j i =>
    let '(not_done, basin, travel) := st in
    do dr <- mget dir n (j * nxp2 + i) ;
    do b <- mget basin n (j * nxp2 + i) ;
    if (0 <=? dr) && (b =? basin_missing) then
      do dx <- oget di dr ; do dy <- oget dj dr ;
      let k := (j + dy) * nxp2 + (i + dx) in
      do td <- mget travel n k ;
      if td =? cur_travel then
        do bd <- mget basin n k ;
        if bd =? basin_missing then Err 2
        else
          do basin <- mset basin n (j * nxp2 + i) bd ;
          do travel <- mset travel n (j * nxp2 + i) (cur_travel + 1) ;
          Ok (true, basin, travel)
      else Ok st
    else Ok st) (false, basin, travel).
(** Lines 1093-1119: the while loop; the fuel is never used up (theorem C44) *)
Fixpoint grow (fuel : nat) (ntiles nx ny basin_missing : Z) (op : opcode) (cur_travel : Z)
    (dir basin travel : list (list Z)) : outcome (list (list Z) * list (list Z)) :=
  match fuel with
  | O => Err 99
  | S f =>
    do '(not_done, basin, travel) <- sweep ntiles nx ny basin_missing cur_travel dir basin travel ;
    do basin <- update_halo ntiles basin nx ny op ;
    do travel <- update_halo ntiles travel nx ny op ;
    if not_done then grow f ntiles nx ny basin_missing op (cur_travel + 1) dir basin travel
    else Ok (basin, travel)
  end.
Definition max_cells (ntiles nx ny : Z) (data : list (list Z)) : outcome Z :=
  for_cells ntiles nx ny (fun m n j i => do v <- mget data n (j * (nx + 2) + i) ; Ok (Z.max m v)) (-1).
(** Lines 1138-1156: direction of a neighbour as seen from this tile *)
Definition seen_dir (op : opcode) (nx ny n jj ii dir : Z) : Z :=
  if cubic op then
    if ii =? 0 then (if n mod 2 =? 0 then (dir + 2) mod 8 else dir)
    else if ii =? nx + 1 then (if n mod 2 =? 1 then (dir + 2) mod 8 else dir)
    else if jj =? 0 then (if n mod 2 =? 1 then (dir + 6) mod 8 else dir)
    else if jj =? ny + 1 then (if n mod 2 =? 0 then (dir + 6) mod 8 else dir)
    else dir
  else dir.
(** Lines 1131-1162: one level of the accumulation *)
Definition level (ntiles nx ny : Z) (op : opcode) (travelnow : Z) (dir travel : list (list Z))
    (cellarea subA : list (list R)) : outcome (list (list R)) :=
  let nxp2 := nx + 2 in
  for_cells ntiles nx ny (fun subA n j i =>
    let jm1 := j - 1 in let im1 := i - 1 in
    do t <- mget travel n (j * nxp2 + i) ;
    if t =? travelnow then
      do a <- mget cellarea n (jm1 * nx + im1) ;
      do subA <- mset subA n (j * nxp2 + i) a ;
      for_ring (fun subA joff ioff =>
        let jj := jm1 + joff in let ii := im1 + ioff in
        do dr <- mget dir n (jj * nxp2 + ii) ;
        if 0 <=? dr then
          let dr := seen_dir op nx ny n jj ii dr in
          do dx <- oget di dr ; do dy <- oget dj dr ;
          if (ii + dx =? i) && (jj + dy =? j) then
            do s <- mget subA n (j * nxp2 + i) ;
            do u <- mget subA n (jj * nxp2 + ii) ;
            mset subA n (j * nxp2 + i) (s + u)%R
          else Ok subA
        else Ok subA) subA
    else Ok subA) subA.
(** Lines 1130-1164: travelnow = maxtravel, ..., 0 *)
Definition accumulate_area (ntiles nx ny : Z) (op : opcode) (maxtravel : Z) (dir travel : list (list Z))
    (cellarea subA : list (list R)) : outcome (list (list R)) :=
  ofor 0 (maxtravel + 1) (fun subA k =>
    do subA <- level ntiles nx ny op (maxtravel - k) dir travel cellarea subA ;
    update_halo ntiles subA nx ny op) subA.
(** The whole function.  [fuel] bounds the while loop. *)
Definition calc_river_data (fuel : nat) (ntiles nx ny : Z) (op : opcode) (tocell_missing basin_missing : Z) (subA_missing : R)
    (tocell dir basin travel last_point : list (list Z)) (cellarea : list (list R))
    : outcome (list (list Z) * list (list Z) * list (list Z) * list (list R)) :=
  let subA := repeat (repeat subA_missing (Z.to_nat ((nx + 2) * (ny + 2)))) (Z.to_nat ntiles) in
  do '(_, basin, travel, last_point) <- coast ntiles nx ny tocell_missing tocell dir basin travel last_point ;
  do basin <- update_halo ntiles basin nx ny op ;
  do travel <- update_halo ntiles travel nx ny op ;
  do '(basin, travel) <- grow fuel ntiles nx ny basin_missing op 0 dir basin travel ;
  do maxtravel <- max_cells ntiles nx ny travel ;
  do subA <- accumulate_area ntiles nx ny op maxtravel dir travel cellarea subA ;
  Ok (basin, travel, last_point, subA).

(** ** sort_basin, river_regrid.c:1298-1376.  mpp_error calls: [Err 3] (1344), [Err 4] (1351),
    [Err 5] (1358), [Err 6] (1365). *)
Definition sort_basin (ntiles nx ny basin_missing : Z) (subA_missing : R)
    (basin last_point : list (list Z)) (subA : list (list R)) : outcome (list (list Z)) :=
  let nxp2 := nx + 2 in
  do maxbasin <- max_cells ntiles nx ny basin ;
  let tmp := basin in
  let maxsuba := repeat subA_missing (Z.to_nat maxbasin) in
  let indx := zseq 0 maxbasin in
  let rank := repeat (-1) (Z.to_nat maxbasin) in
  do maxsuba <- for_cells ntiles nx ny (fun ms n j i =>
    do lp <- mget last_point n ((j - 1) * nx + i - 1) ;
    if negb (lp =? 0) then
      do b <- mget tmp n (j * nxp2 + i) ;
      if (maxbasin <? b) || (b <? 1) then Err 3
      else do s <- mget subA n (j * nxp2 + i) ; oset ms (b - 1) s
    else Ok ms) maxsuba ;
  do _ <- ofor 0 maxbasin (fun u n => do s <- oget maxsuba n ; if reqb s subA_missing then Err 4 else Ok u) tt ;
  do '(_, indx) <- qsort_index (Z.to_nat maxbasin) maxsuba 0 (maxbasin - 1) indx ;
  do rank <- ofor 0 maxbasin (fun rank n => do k <- oget indx n ; oset rank k n) rank ;
  do _ <- ofor 0 maxbasin (fun u n => do r <- oget rank n ; if r <? 0 then Err 5 else Ok u) tt ;
  for_cells ntiles nx ny (fun basin n j i =>
    do b <- mget tmp n (j * nxp2 + i) ;
    if b =? basin_missing then Ok basin
    else if (maxbasin <? b) || (b <? 1) then Err 6
    else do r <- oget rank (b - 1) ; mset basin n (j * nxp2 + i) (maxbasin - r)) basin.
