(** * make-topog/topog.c: smoothing of the topography and its adjustment to the vertical grid

    Depths are real numbers (rounding is not modelled).  Reading or writing outside an array is
    [UB].  The global field that mpp_global_field_all_double assembles on every processor is the
    input [tmp] of the model; [isc..iec] x [jsc..jec] is the part of the grid this processor owns.
    Printing and malloc/free are not modelled. *)
From Verif Require Import Base M_Interp M_Runoff.
Local Open Scope Z_scope.

(** mosaic_util.h 34-35: the macros min and max, on doubles and on ints. *)
Definition rmin (a b : R) : R := if rlt a b then a else b.
Definition rmax (a b : R) : R := if rlt b a then a else b.
Definition imin (a b : Z) : Z := if a <? b then a else b.
Definition imax (a b : Z) : Z := if b <? a then a else b.

(** topog.c 763-805: min4_double, max4_double and max4_int. *)
Definition min4_double (d1 d2 d3 d4 : R) : R := rmin (rmin d1 d2) (rmin d3 d4).
Definition max4_double (d1 d2 d3 d4 : R) : R := rmax (rmax d1 d2) (rmax d3 d4).
Definition min4_int (d1 d2 d3 d4 : Z) : Z := imin (imin d1 d2) (imin d3 d4).
Definition max4_int (d1 d2 d3 d4 : Z) : Z := imax (imax d1 d2) (imax d3 d4).

(** ** filter_topo, topog.c 687-761 *)

(** topog.c 709-717. *)
Definition filter_weights : list R :=
  [1/16; 1/8; 1/16; 1/8; 1/4; 1/8; 1/16; 1/8; 1/16]%R.

(** topog.c 733-742: the sum over the nine points.  The sum is accumulated in s[j*nxg+i]; the
    model uses a scalar for it. *)
Definition nine_points (nxg : Z) (rmask depth_global : list R) (j i : Z) : outcome R :=
  ofor (-1) 3 (fun acc ip => ofor (-1) 3 (fun acc jp =>
    let m := (ip + 1) * 3 + jp + 1 in
    do r <- oget rmask ((j + jp) * nxg + i + ip) ;
    do w <- oget filter_weights m ;
    if reqb r 0 then do d <- oget depth_global (j * nxg + i) ; Ok (acc + d * w)%R
    else do d <- oget depth_global ((j + jp) * nxg + i + ip) ; Ok (acc + d * w)%R) acc) 0%R.

(** topog.c 731-747: one point of one pass. *)
Definition filter_point (nxg : Z) (allow : bool) (rmask depth_global s : list R) (j i : Z) : outcome (list R) :=
  do d_old <- oget depth_global (j * nxg + i) ;
  do v <- nine_points nxg rmask depth_global j i ;
  let v := if negb allow && rlt d_old v then d_old else v in
  do r <- oget rmask (j * nxg + i) ;
  oset s (j * nxg + i) (v * r)%R.

(** topog.c 728-752: one pass; the state is (s, depth_global). *)
Definition filter_pass (nxg nyg : Z) (allow : bool) (rmask : list R) (st : list R * list R) : outcome (list R * list R) :=
  let '(s, dg) := st in
  do s <- ofor 1 (nyg - 2) (fun s j => ofor 1 (nxg - 2) (fun s i => filter_point nxg allow rmask dg s j i) s) s ;
  do dg <- ofor 0 (nxg * nyg) (fun dg i => do v <- oget s i ; oset dg i v) dg ;
  Ok (s, dg).

(** topog.c 720-726: the mask and the initial values of s. *)
Definition filter_mask (nxg nyg : Z) (depth_global : list R) : outcome (list R * list R) :=
  ofor 0 (nxg * nyg) (fun st i =>
    let '(s, rmask) := st in
    do d <- oget depth_global i ;
    do s <- oset s i d ;
    do rmask <- oset rmask i (if reqb d 0 then 0 else 1)%R ;
    Ok (s, rmask)) (alloc (nxg * nyg), alloc (nxg * nyg)).

(** topog.c 687-761.  [tmp] is the global field; the result is the local array [depth]. *)
Definition filter_topo (nxg nyg is ie js je num_pass : Z) (allow : bool) (tmp : list R) : outcome (list R) :=
  do sm <- filter_mask nxg nyg tmp ;
  let '(s, rmask) := sm in
  do st <- ofor 1 num_pass (fun st _ => filter_pass nxg nyg allow rmask st) (s, tmp) ;
  let '(_, dg) := st in
  let nx := ie - is + 1 in
  let ny := je - js + 1 in
  (* 755-759: pos counts the elements written, so pos = (j-js)*nx + i-is *)
  do r <- ofor js ny (fun st j => ofor is nx (fun st i =>
    let '(depth, pos) := st in
    do v <- oget dg (j * nxg + i) ;
    do depth <- oset depth pos v ;
    Ok (depth, pos + 1)) st) (alloc (nx * ny), 0) ;
  Ok (fst r).

(** ** process_topo, topog.c 551-671 *)

(** The arrays ht and kmt. *)
Definition hk : Type := list R * list Z.

(** topog.c 574-580: a grid with a halo of one cell, land outside. *)
Definition with_halo (ni nj : Z) (tmp : list R) : outcome hk :=
  let nip := ni + 2 in
  let njp := nj + 2 in
  do ht <- ofor 1 nj (fun ht j => ofor 1 ni (fun ht i =>
    do v <- oget tmp ((j - 1) * ni + i - 1) ; oset ht (j * nip + i) v) ht) (alloc (nip * njp)) ;
  Ok (ht, repeat (-1) (Z.to_nat (nip * njp))).

(** topog.c 582-606: the number of levels of a cell. *)
Definition level_cell (nip nk : Z) (zw : list R) (min_thickness : R) (st : hk) (j i : Z) : outcome hk :=
  let '(ht, kmt) := st in
  do h <- oget ht (j * nip + i) ;
  if rlt 0 h then
    do k <- nearest_index h zw nk ;
    do kmt <- oset kmt (j * nip + i) k ;
    do z <- oget zw k ;
    if rlt z h then
      if rlt (h - z) min_thickness then
        do ht <- oset ht (j * nip + i) z ; Ok (ht, kmt)
      else if k =? nk - 1 then
        do ht <- oset ht (j * nip + i) z ; Ok (ht, kmt)
      else
        do kmt <- oset kmt (j * nip + i) (k + 1) ; Ok (ht, kmt)
    else Ok (ht, kmt)
  else Ok (ht, kmt).

(** topog.c 608-613: full cells. *)
Definition full_cell_step (nip : Z) (zw : list R) (st : hk) (j i : Z) : outcome hk :=
  let '(ht, kmt) := st in
  do h <- oget ht (j * nip + i) ;
  if rlt 0 h then
    do k <- oget kmt (j * nip + i) ;
    do z <- oget zw k ;
    do ht <- oset ht (j * nip + i) z ; Ok (ht, kmt)
  else Ok (ht, kmt).

(** topog.c 615-623: flat bottom. *)
Definition flat_bottom_step (nip nk : Z) (zw : list R) (st : hk) (j i : Z) : outcome hk :=
  let '(ht, kmt) := st in
  do h <- oget ht (j * nip + i) ;
  if rlt 0 h then
    do z <- oget zw (nk - 1) ;
    do ht <- oset ht (j * nip + i) z ;
    do kmt <- oset kmt (j * nip + i) (nk - 1) ;
    Ok (ht, kmt)
  else Ok (ht, kmt).

(** The loop nest "for(j=1; j<=nj; j++) for(i=1; i<=ni; i++)". *)
Definition for_cells (ni nj : Z) (f : hk -> Z -> Z -> outcome hk) (st : hk) : outcome hk :=
  ofor 1 nj (fun st j => ofor 1 ni (fun st i => f st j i) st) st.

(** a[d] = a[s] on both arrays. *)
Definition copy_cell (st : hk) (d s : Z) : outcome hk :=
  let '(ht, kmt) := st in
  do k <- oget kmt s ;
  do kmt <- oset kmt d k ;
  do h <- oget ht s ;
  do ht <- oset ht d h ;
  Ok (ht, kmt).

(** topog.c 625-641: the halo rows. *)
Definition fill_y (ni nj : Z) (tripolar cyclic_y : bool) (st : hk) : outcome hk :=
  let nip := ni + 2 in
  if tripolar then
    ofor 1 ni (fun st i => copy_cell st ((nj + 1) * nip + i) (nj * nip + (ni - i + 1))) st
  else if cyclic_y then
    ofor 1 ni (fun st i =>
      do st <- copy_cell st i (nj * nip + i) ;
      copy_cell st ((nj + 1) * nip + i) (nip + i)) st
  else Ok st.

(** topog.c 643-650: the halo columns. *)
Definition fill_x (ni nj : Z) (cyclic_x : bool) (st : hk) : outcome hk :=
  let nip := ni + 2 in
  if cyclic_x then
    ofor 0 (nj + 2) (fun st j =>
      do st <- copy_cell st (j * nip) (j * nip + ni) ;
      copy_cell st (j * nip + ni + 1) (j * nip + 1)) st
  else Ok st.

(** topog.c 810-815. *)
Definition hmin (ni : Z) (ht : list R) (i j : Z) : outcome R :=
  let nip := ni + 2 in
  do a <- oget ht (j * nip + i) ; do b <- oget ht (j * nip + i + 1) ;
  do c <- oget ht ((j + 1) * nip + i) ; do d <- oget ht ((j + 1) * nip + i + 1) ;
  Ok (min4_double a b c d).

(** topog.c 820-825.  The C function calls min4_double on the ints, which is exact. *)
Definition kmin (ni : Z) (kmt : list Z) (i j : Z) : outcome Z :=
  let nip := ni + 2 in
  do a <- oget kmt (j * nip + i) ; do b <- oget kmt (j * nip + i + 1) ;
  do c <- oget kmt ((j + 1) * nip + i) ; do d <- oget kmt ((j + 1) * nip + i + 1) ;
  Ok (min4_int a b c d).

(** topog.c 851-864. *)
Definition isolated_cell (ni : Z) (dont_change_landmask : bool) (st : hk) (j i : Z) : outcome hk :=
  let nip := ni + 2 in
  let '(ht, kmt) := st in
  do k1 <- kmin ni kmt i j ; do k2 <- kmin ni kmt (i - 1) j ;
  do k3 <- kmin ni kmt i (j - 1) ; do k4 <- kmin ni kmt (i - 1) (j - 1) ;
  let k := max4_int k1 k2 k3 k4 in
  if (0 <=? k) || negb dont_change_landmask then
    do k0 <- oget kmt (j * nip + i) ;
    if negb (k0 =? k) then
      do h1 <- hmin ni ht i j ; do h2 <- hmin ni ht (i - 1) j ;
      do h3 <- hmin ni ht i (j - 1) ; do h4 <- hmin ni ht (i - 1) (j - 1) ;
      do ht <- oset ht (j * nip + i) (max4_double h1 h2 h3 h4) ;
      do kmt <- oset kmt (j * nip + i) k ;
      Ok (ht, kmt)
    else Ok (ht, kmt)
  else Ok (ht, kmt).

(** topog.c 829-875. *)
Definition remove_isolated_cells (ni nj : Z) (tripolar fill_isolated dont_change_landmask : bool) (st : hk) : outcome hk :=
  let nj_max := if tripolar then nj - 1 else nj in
  if fill_isolated then for_cells ni nj_max (isolated_cell ni dont_change_landmask) st else Ok st.

(** topog.c 654-658: the part of this processor. *)
Definition copy_local (ni isc iec jsc jec : Z) (st : hk) : outcome hk :=
  let nip := ni + 2 in
  let nxc := iec - isc + 1 in
  let nyc := jec - jsc + 1 in
  let '(ht, kmt) := st in
  ofor jsc nyc (fun st j => ofor isc nxc (fun st i =>
    let '(depth, levels) := st in
    do h <- oget ht ((j + 1) * nip + i + 1) ;
    do depth <- oset depth ((j - jsc) * nxc + i - isc) h ;
    do k <- oget kmt ((j + 1) * nip + i + 1) ;
    do levels <- oset levels ((j - jsc) * nxc + i - isc) k ;
    Ok (depth, levels)) st) (alloc (nxc * nyc), repeat 0 (Z.to_nat (nxc * nyc))).

(** topog.c 888-894. *)
Definition cell_minimum (nk : Z) (zw : list R) (min_thickness fraction : R) : outcome (list R) :=
  if reqb fraction 0 then
    ofor 0 nk (fun p k => do z <- oget zw 0 ; oset p k (rmin 50 z)) (alloc nk)
  else
    do z0 <- oget zw 0 ;
    do p <- oset (alloc nk) 0 (fraction * z0)%R ;
    ofor 1 (nk - 1) (fun p k =>
      do z <- oget zw k ; do z' <- oget zw (k - 1) ;
      oset p k (rmax (fraction * (z - z')) min_thickness)) p.

(** topog.c 902-912 and 915-933. *)
Definition restrict_cell (ni : Z) (zw p : list R) (open_thin : bool) (st : hk) (j i : Z) : outcome hk :=
  let '(ht, kmt) := st in
  do k <- oget kmt (j * ni + i) ;
  if 0 <? k then
    do h <- oget ht (j * ni + i) ;
    do z <- oget zw (k - 1) ;
    do pk <- oget p k ;
    if rlt (h - z) pk then
      if open_thin then
        do ht <- oset ht (j * ni + i) (z + pk)%R ; Ok (ht, kmt)
      else
        let tmp1 := (h - z)%R in
        let tmp2 := (z + pk - h)%R in
        if rlt tmp1 tmp2 then
          do kmt <- oset kmt (j * ni + i) (k - 1) ;
          do ht <- oset ht (j * ni + i) z ; Ok (ht, kmt)
        else
          do ht <- oset ht (j * ni + i) (z + pk)%R ; Ok (ht, kmt)
    else Ok (ht, kmt)
  else Ok (ht, kmt).

(** The loop nest "for(j=0; j<nj; j++) for(i=0; i<ni; i++)". *)
Definition for_local (ni nj : Z) (f : hk -> Z -> Z -> outcome hk) (st : hk) : outcome hk :=
  ofor 0 nj (fun st j => ofor 0 ni (fun st i => f st j i) st) st.

(** topog.c 878-942. *)
Definition restrict_partial_cells (ni nj nk : Z) (zw : list R) (min_thickness : R) (open_thin : bool)
    (fraction : R) (st : hk) : outcome hk :=
  do p <- cell_minimum nk zw min_thickness fraction ;
  for_local ni nj (restrict_cell ni zw p open_thin) st.

(** topog.c 1013-1041. *)
Definition shallow_cell (nx : Z) (zw : list R) (round_shallow deepen_shallow fill_shallow : bool) (kmt_min_local : Z)
    (st : hk) (j i : Z) : outcome hk :=
  let l := j * nx + i in
  let '(depth, kmt) := st in
  do d <- oget depth l ;
  do k <- oget kmt l ;
  if rlt 0 d && (k <? kmt_min_local) then
    do st <-
      (if round_shallow || (negb deepen_shallow && negb fill_shallow) then
         do a <- oget zw k ; do b <- oget zw kmt_min_local ;
         if rlt a (1/2 * b) then
           do depth <- oset depth l 0%R ; do kmt <- oset kmt l (-1) ; Ok (depth, kmt)
         else
           do depth <- oset depth l b ; do kmt <- oset kmt l kmt_min_local ; Ok (depth, kmt)
       else Ok (depth, kmt)) ;
    do st <-
      (if fill_shallow then
         let '(depth, kmt) := st in
         do depth <- oset depth l 0%R ; do kmt <- oset kmt l (-1) ; Ok (depth, kmt)
       else Ok st) ;
    if deepen_shallow then
      let '(depth, kmt) := st in
      do b <- oget zw kmt_min_local ;
      do depth <- oset depth l b ; do kmt <- oset kmt l kmt_min_local ; Ok (depth, kmt)
    else Ok st
  else Ok (depth, kmt).

(** topog.c 987-1050.  [Err 1], [Err 2] are the two calls of mpp_error. *)
Definition enforce_min_depth (nx ny nk : Z) (zw : list R) (round_shallow deepen_shallow fill_shallow : bool)
    (kmt_min : Z) (st : hk) : outcome hk :=
  if nk <? kmt_min then Err 1
  else
    let kmt_min_local := kmt_min - 1 in
    let count := (if round_shallow then 1 else 0) + (if fill_shallow then 1 else 0) + (if deepen_shallow then 1 else 0) in
    if 1 <? count then Err 2
    else for_local nx ny (shallow_cell nx zw round_shallow deepen_shallow fill_shallow kmt_min_local) st.

(** The options of make_topog that process_topo uses (topog.c 551-556). *)
Record options := {
  o_tripolar : bool; o_cyclic_x : bool; o_cyclic_y : bool; o_full : bool; o_flat : bool;
  o_adjust : bool; o_fill_isolated : bool; o_min_thickness : R; o_open_thin : bool; o_fraction : R;
  o_round : bool; o_deepen : bool; o_fill : bool; o_keep_mask : bool; o_kmt_min : Z }.

(** topog.c 660-665. *)
Definition adjust_local (nxc nyc nk : Z) (zw : list R) (o : options) (st : hk) : outcome hk :=
  if o_adjust o then
    do st <- restrict_partial_cells nxc nyc nk zw (o_min_thickness o) (o_open_thin o) (o_fraction o) st ;
    enforce_min_depth nxc nyc nk zw (o_round o) (o_deepen o) (o_fill o) (o_kmt_min o) st
  else Ok st.

(** topog.c 551-671.  The result is the local (depth, num_levels). *)
Definition process_topo (ni nj nk : Z) (zw : list R) (o : options) (isc iec jsc jec : Z) (tmp : list R) : outcome hk :=
  let nip := ni + 2 in
  let nxc := iec - isc + 1 in
  let nyc := jec - jsc + 1 in
  do st <- with_halo ni nj tmp ;
  do st <- for_cells ni nj (level_cell nip nk zw (o_min_thickness o)) st ;
  do st <- (if o_full o then for_cells ni nj (full_cell_step nip zw) st else Ok st) ;
  do st <- (if o_flat o then for_cells ni nj (flat_bottom_step nip nk zw) st else Ok st) ;
  do st <- fill_y ni nj (o_tripolar o) (o_cyclic_y o) st ;
  do st <- fill_x ni nj (o_cyclic_x o) st ;
  do st <- (if o_adjust o then remove_isolated_cells ni nj (o_tripolar o) (o_fill_isolated o) (o_keep_mask o) st else Ok st) ;
  do st <- copy_local ni isc iec jsc jec st ;
  do st <- adjust_local nxc nyc nk zw o st ;
  let '(depth, levels) := st in
  do levels <- ofor 0 (nxc * nyc) (fun l i => do k <- oget l i ; oset l i (k + 1)) levels ;
  Ok (depth, levels).
