(** * Model of the 2-D decomposition and of the gather of distributed fields
    lib/libfrencutils/mpp_domain.c *)
From Verif Require Import Base M_Extent.

(** Error codes *)
Definition E_not_on_domain : Z := 10. (* mpp_domain.c:349, 399, 472, 645 *)

(** The fields of [domain2D] (mpp_domain.h) that are the same on every
    processor; the fields describing the own processor are computed from them
    (mpp_domain.c:216-227) by the functions below. *)
Record dom2d := Dom2d {
  d_isc : list Z; d_iec : list Z; d_jsc : list Z; d_jec : list Z;
  d_xhalo : Z; d_yhalo : Z; d_nxg : Z; d_nyg : Z }.

(** mpp_domain.c:191-235, [mpp_define_domain2d] (and [mpp_define_domain_1d],
    167-183: allocate two arrays of [ndivs] and call [mpp_compute_extent]).
    Fresh [malloc] memory is modelled by zeros. *)
Definition mpp_define_domain2d (ni nj l0 l1 xhalo yhalo : Z) : outcome dom2d :=
  let fresh n := repeat 0 (Z.to_nat n) in
  do '(bx, ex) <- mpp_compute_extent ni l0 (fresh l0) (fresh l0) ;
  do '(by_, ey) <- mpp_compute_extent nj l1 (fresh l1) (fresh l1) ;
  do '(isc, iec, jsc, jec, _) <-
    (* mpp_domain.c:204-213 *)
    ofor 0 l1 (fun st j =>
      ofor 0 l0 (fun '(isc, iec, jsc, jec, n) i =>
        do b <- oget bx i ; do isc <- oset isc n (b + xhalo) ;
        do e <- oget ex i ; do iec <- oset iec n (e + xhalo) ;
        do b <- oget by_ j ; do jsc <- oset jsc n (b + yhalo) ;
        do e <- oget ey j ; do jec <- oset jec n (e + yhalo) ;
        Ok (isc, iec, jsc, jec, n + 1)) st)
      (fresh (l0 * l1), fresh (l0 * l1), fresh (l0 * l1), fresh (l0 * l1), 0) ;
  Ok (Dom2d isc iec jsc jec xhalo yhalo ni nj).

(** mpp_domain.c:216-227: the fields of the own processor [pe]. *)
Definition own (d : dom2d) (pe : Z) : outcome (Z * Z * Z * Z) :=
  do isc <- oget (d_isc d) pe ; do iec <- oget (d_iec d) pe ;
  do jsc <- oget (d_jsc d) pe ; do jec <- oget (d_jec d) pe ;
  Ok (isc, iec, jsc, jec).

(** mpp_domain.c:326-352, [mpp_get_shift]. *)
Definition mpp_get_shift (nxc nyc nxd nyd sizex sizey : Z) : outcome (Z * Z) :=
  let is a b := (sizex =? a) && (sizey =? b) in
  if is nxc nyc || is nxd nyd then Ok (0, 0)
  else if is (nxc + 1) nyc || is (nxd + 1) nyd then Ok (1, 0)
  else if is nxc (nyc + 1) || is nxd (nyd + 1) then Ok (0, 1)
  else if is (nxc + 1) (nyc + 1) || is (nxd + 1) (nyd + 1) then Ok (1, 1)
  else Err E_not_on_domain.

Section Gather.
  Context {A : Type}.

  (** mpp_domain.c:640-642 (and 391-393, 467-469 with [sizez] = 1): pack the
      compute part of a local array on the data domain.  The destination is a
      fresh buffer filled from its start, hence the packed list is grown at its
      end. *)
  Definition pack_data_domain (ldata : list A) (sizez is js nx ny isd jsd nxd nyd : Z) : outcome (list A) :=
    ofor 0 sizez (fun b k =>
      ofor js ny (fun b j =>
        ofor is nx (fun b i =>
          do v <- oget ldata (k * nxd * nyd + (j - jsd) * nxd + (i - isd)) ;
          Ok (b ++ [v])) b) b) [].

  (** mpp_domain.c:629-647 (3-D; 366-400 and 460-474 are the same with
      [sizez] = 1): the shift of processor [pe] and the buffer it sends. *)
  Definition send_buffer (d : dom2d) (pe sizex sizey sizez : Z) (ldata : list A)
    : outcome (Z * Z * list A) :=
    do '(isc, iec, jsc, jec) <- own d pe ;
    let nxd0 := iec + d_xhalo d - (isc - d_xhalo d) + 1 in
    let nyd0 := jec + d_yhalo d - (jsc - d_yhalo d) + 1 in
    do '(ishift, jshift) <- mpp_get_shift (iec - isc + 1) (jec - jsc + 1) nxd0 nyd0 sizex sizey ;
    let nxc := iec + ishift - isc + 1 in
    let nyc := jec + jshift - jsc + 1 in
    let nxd := nxd0 + ishift in
    let nyd := nyd0 + jshift in
    if (sizex =? nxc) && (sizey =? nyc) then
      do b <- ofor 0 (nxc * nyc * sizez) (fun b i => do v <- oget ldata i ; Ok (b ++ [v])) [] ;
      Ok (ishift, jshift, b)
    else if (sizex =? nxd) && (sizey =? nyd) then
      do b <- pack_data_domain ldata sizez isc jsc nxc nyc (isc - d_xhalo d) (jsc - d_yhalo d) nxd nyd ;
      Ok (ishift, jshift, b)
    else Err E_not_on_domain.

  (** mpp_domain.c:673-680 (and 415-421, 500-505 with [sizez] = 1): placement of
      one processor's buffer into the global array. *)
  Definition place (isc nx jsc ny sizez nxg nyg : Z) (buf : list A) (gdata : list A) : outcome (list A) :=
    do '(g, _) <-
      ofor 0 sizez (fun st k =>
        ofor jsc ny (fun st j =>
          ofor isc nx (fun '(g, n) i =>
            do g <- (do v <- oget buf n ; oset g (k * nxg * nyg + j * nxg + i) v) ;
            Ok (g, n + 1)) st) st) (gdata, 0) ;
    Ok g.

  (** A processor's contribution: array sizes and local array. *)
  Definition local : Type := (Z * Z * list A).

  (** mpp_domain.c:600-698, [mpp_global_field_double_3D], on the root processor
      [me]: receive every processor's buffer in rank order and place it.  A
      message whose length is not the expected [recv_size] is undefined.  The
      root's own data (653-666) takes the same path through a buffer.
      [nyg] is [domain.nyg + ishift], as in line 622. *)
  Definition global_field_root_3D (d : dom2d) (npes me sizez : Z) (loc : list local) (gdata : list A)
    : outcome (list A) :=
    do '(ishift, jshift, _) <- (do '(a, b, l) <- oget loc me ; send_buffer d me a b sizez l) ;
    let nxg := d_nxg d + ishift in
    let nyg := d_nyg d + ishift in
    ofor 0 npes (fun g p =>
      do '(sx, sy, ldata) <- oget loc p ;
      do '(_, _, buf) <- send_buffer d p sx sy sizez ldata ;
      do '(isc, iec, jsc, jec) <- own d p ;
      let nx := iec - isc + 1 + ishift in
      let ny := jec - jsc + 1 + jshift in
      if zlen buf =? nx * ny * sizez then place isc nx jsc ny sizez nxg nyg buf g else UB) gdata.

  (** mpp_domain.c:441-513 [mpp_global_field_double] on the root, 520-592
      [mpp_global_field_int], and 359-433 [mpp_global_field_all_double] on any
      processor [me] when npes > 1: the 2-D gather.  [place] is used with
      sizez = 1, where its index k*nxg*nyg+j*nxg+i is j*nxg+i. *)
  Definition global_field_2D (d : dom2d) (npes me : Z) (loc : list local) (gdata : list A)
    : outcome (list A) :=
    do '(ishift, jshift, _) <- (do '(a, b, l) <- oget loc me ; send_buffer d me a b 1 l) ;
    let nxg := d_nxg d + ishift in
    ofor 0 npes (fun g p =>
      do '(sx, sy, ldata) <- oget loc p ;
      do '(_, _, buf) <- send_buffer d p sx sy 1 ldata ;
      do '(isc, iec, jsc, jec) <- own d p ;
      let nx := iec - isc + 1 + ishift in
      let ny := jec - jsc + 1 + jshift in
      if zlen buf =? nx * ny * 1 then place isc nx jsc ny 1 nxg 0 buf g else UB) gdata.

  (** mpp_domain.c:359-433, [mpp_global_field_all_double] including the
      single-processor shortcut of lines 382-385 and 390-395. *)
  Definition global_field_all (d : dom2d) (npes me : Z) (loc : list local) (gdata : list A)
    : outcome (list A) :=
    if npes =? 1 then
      do '(sx, sy, l) <- oget loc me ;
      do '(_, _, buf) <- send_buffer d me sx sy 1 l ;
      ofor 0 (zlen buf) (fun g n => do v <- oget buf n ; oset g n v) gdata
    else global_field_2D d npes me loc gdata.

  (** mpp_domain.c:704-774, [mpp_gather_field_double] (778-914 are the int and
      root variants): the local arrays one after the other in rank order. *)
  Definition gather_field (locs : list (list A)) (gdata : list A) : outcome (list A) :=
    do '(g, _) <- ofold (fun st l =>
        ofor 0 (zlen l) (fun '(g, n) i =>
          do g <- (do v <- oget l i ; oset g n v) ; Ok (g, n + 1)) st) locs (gdata, 0) ;
    Ok g.
End Gather.
