(** * Model of check_mask's ocean mask, src/check-mask/check_mask.c

    [wet] holds for each grid point whether its wet value exceeds 0.5 (check_mask.c:644
    only compares with 0.5).  One call of [mask_table] is one iteration of the loop over
    processor counts (check_mask.c:620-796), which starts each layout afresh. *)
From Verif Require Import Base M_Extent.

Record bctype := MkBc { cyclic_x : bool; cyclic_y : bool; tripolar : bool }.

(** check_mask.c:566-614: the wet mask surrounded by the global halo. *)
Definition build_wet (nx ny halo : Z) (bc : bctype) (wet_in : list bool) : outcome (list bool) :=
  let nxd := nx + 2 * halo in let nyd := ny + 2 * halo in
  let wet := repeat false (Z.to_nat (nxd * nyd)) in
  (* 569-573 *)
  do wet <- ofor 0 ny (fun wet j => ofor 0 nx (fun wet i =>
      do v <- oget wet_in (j * nx + i) ; oset wet ((j + halo) * nxd + (i + halo)) v) wet) wet ;
  (* 576-589 *)
  do wet <- (if cyclic_x bc then
     ofor 0 ny (fun wet j =>
       do wet <- ofor 0 halo (fun wet i => do v <- oget wet ((j + halo) * nxd + (nx + halo - 1 - i)) ; oset wet ((j + halo) * nxd + i) v) wet ;
       ofor 0 halo (fun wet i => do v <- oget wet ((j + halo) * nxd + (halo + i)) ; oset wet ((j + halo) * nxd + (nx + halo + i)) v) wet) wet
     else Ok wet) ;
  (* 591-604 *)
  do wet <- (if cyclic_y bc then
     ofor 0 nx (fun wet i =>
       do wet <- ofor 0 halo (fun wet j => do v <- oget wet ((ny + halo - 1 - j) * nxd + (i + halo)) ; oset wet (j * nxd + (i + halo)) v) wet ;
       ofor 0 halo (fun wet j => do v <- oget wet ((halo + j) * nxd + (i + halo)) ; oset wet ((ny + halo + j) * nxd + (i + halo)) v) wet) wet
     else Ok wet) ;
  (* 606-612 *)
  if tripolar bc then
    ofor 0 nxd (fun wet i => ofor 0 halo (fun wet j =>
      do v <- oget wet ((ny + halo - 1 - j) * nxd + (nxd - 1 - i)) ; oset wet ((ny + halo + j) * nxd + i) v) wet) wet
  else Ok wet.

(** check_mask.c:656-661: is some point of the box wet?  The jump out of the two loops
    is the early stop. *)
Definition any_wet (wet : list bool) (nxd isd ied jsd jed : Z) : outcome bool :=
  ofor jsd (jed - jsd + 1) (fun found jj => ofor isd (ied - isd + 1) (fun (found : bool) ii =>
     if found then Ok true else oget wet (jj * nxd + ii)) found) false.

(** check_mask.c:648-662: the masks of the domains, 1 for a domain that is used. *)
Definition domain_masks (wet : list bool) (nxd halo lx ly : Z) (ibegin iend jbegin jend : list Z) : outcome (list Z) :=
  ofor 0 ly (fun mask j =>
    do jb <- oget jbegin j ; do je <- oget jend j ;
    ofor 0 lx (fun mask i =>
      do ib <- oget ibegin i ; do ie <- oget iend i ;
      do w <- any_wet wet nxd (ib - halo) (ie + halo) (jb - halo) (je + halo) ;
      if (w : bool) then oset mask (j * lx + i) 1 else Ok mask) mask)
    (repeat 0 (Z.to_nat (lx * ly))).

(** check_mask.c:703-706 *)
Definition count_masked (mask : list Z) (n : Z) : outcome Z :=
  ofor 0 n (fun nmask i => do m <- oget mask i ; Ok (if m =? 0 then nmask + 1 else nmask)) 0.

(** check_mask.c:710-719: the list of 2*nmask numbers. *)
Definition make_list (mask : list Z) (nmask lx ly : Z) : outcome (list Z) :=
  do '(l, _) <- ofor 0 ly (fun st j => ofor 0 lx (fun '(l, n) i =>
     do m <- oget mask (j * lx + i) ;
     if m =? 0 then do l <- oset l (2 * n) (i + 1) ; do l <- oset l (2 * n + 1) (j + 1) ; Ok (l, n + 1) else Ok (l, n)) st)
     (repeat 0 (Z.to_nat (2 * nmask)), 0) ;
  Ok l.

(** check_mask.c:775-789: the table file: the number, the layout, one line per masked
    domain. *)
Record table := MkTable { t_nmask : Z; t_layout : Z * Z; t_lines : list (Z * Z) }.
Definition write_table (nmask lx ly : Z) (l : list Z) : outcome table :=
  do lines <- ofor 0 nmask (fun out n => do a <- oget l (2 * n) ; do b <- oget l (2 * n + 1) ; Ok (out ++ [(a, b)])) [] ;
  Ok (MkTable nmask (lx, ly) lines).

(** ** Open boundaries, check_mask.c:664-700 *)
Inductive dir := West | East | South | North.
Record obc := MkObc { o_dir : dir; o_is : Z; o_ie : Z; o_js : Z; o_je : Z }.

(** The test of one boundary on one domain: the value stored is the boundary's number
    [no]. *)
Definition obc_step (nx ny halo : Z) (isc iec jsc jec : Z) (err : Z) (no : Z) (b : obc) : Z :=
  let isd := isc - halo in let ied := iec + halo in let jsd := jsc - halo in let jed := jec + halo in
  let on_domain := existsb (fun jj => existsb (fun ii => (jj <=? o_js b) && (jj <=? o_je b) && (o_is b <=? ii) && (ii <=? o_ie b)) (zseq isd (ied - isd + 1))) (zseq jsd (jed - jsd + 1)) in
  if negb on_domain then err else
  match o_dir b with
  | West => let err := if negb (0 =? isc) && (o_is b - isc <? 0) then no else err in if ied - o_is b <=? halo then no else err
  | East => let err := if negb (nx - 1 =? iec) && (iec - o_is b <? 0) then no else err in if o_is b - isd <=? halo then no else err
  | South => let err := if negb (0 =? jsc) && (o_js b - jsc <? 0) then no else err in if jec - o_js b <=? halo then no else err
  | North => let err := if negb (ny - 1 =? jec) && (jec - o_js b <? 0) then no else err in if o_js b - jsc <=? halo then no else err
  end.
Fixpoint obc_domain (nx ny halo isc iec jsc jec : Z) (bs : list obc) (no err : Z) : Z :=
  match bs with [] => err | b :: bs => obc_domain nx ny halo isc iec jsc jec bs (no + 1) (obc_step nx ny halo isc iec jsc jec err no b) end.
(** check_mask.c:640-700: the array obc_error. *)
Definition obc_errors (nx ny halo lx ly : Z) (ibegin iend jbegin jend : list Z) (bs : list obc) : outcome (list Z) :=
  ofor 0 ly (fun err j =>
    do jb <- oget jbegin j ; do je <- oget jend j ;
    ofor 0 lx (fun err i =>
      do ib <- oget ibegin i ; do ie <- oget iend i ;
      do e <- oget err (j * lx + i) ;
      oset err (j * lx + i) (obc_domain nx ny halo ib ie jb je bs 0 e)) err)
    (repeat 0 (Z.to_nat (lx * ly))).
(** check_mask.c:721-727 *)
Definition count_obc (err : list Z) (n : Z) : outcome Z :=
  ofor 0 n (fun c i => do e <- oget err i ; Ok (if e =? 0 then c + 1 else c)) 0.

(** What one layout produces: the table (none if the layout is skipped or nothing is
    masked) and whether the note "OBC at halos is not allowed yet" is printed. *)
Record report := MkReport { r_table : option table; r_obc_note : bool }.

(** check_mask.c:620-796.  [arr] stands for the four extent arrays of max_pe elements.
    The error count [nerror] is the one left by the previous layout: it is only set
    under [show_valid_only], and the report is only made when it is 0. *)
Definition mask_table (nx ny halo : Z) (bc : bctype) (wet_in : list bool) (lx ly : Z) (arr : list Z) (show_valid_only : bool) (bs : list obc) : outcome report :=
  do wet <- build_wet nx ny halo bc wet_in ;
  if (lx >? nx) || (ly >? ny) then Ok (MkReport None false) else
  do '(ib, ie) <- mpp_compute_extent nx lx arr arr ;
  do '(jb, je) <- mpp_compute_extent ny ly arr arr ;
  let ib := map (Z.add halo) ib in let ie := map (Z.add halo) ie in
  let jb := map (Z.add halo) jb in let je := map (Z.add halo) je in
  do mask <- domain_masks wet (nx + 2 * halo) halo lx ly ib ie jb je ;
  do err <- obc_errors nx ny halo lx ly ib ie jb je bs ;
  do nmask <- count_masked mask (lx * ly) ;
  if nmask >? 0 then
    do l <- make_list mask nmask lx ly ;
    do nerror <- (if show_valid_only && (0 <? zlen bs) then count_obc err (lx * ly) else Ok 0) ;
    if nerror >? 0 then Ok (MkReport None false)
    else do t <- write_table nmask lx ly l ; Ok (MkReport (Some t) ((0 <? zlen bs) && (nerror >? 0)))
  else Ok (MkReport None false).
