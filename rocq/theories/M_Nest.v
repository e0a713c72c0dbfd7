(** Model of the nested grids of make_hgrid: src/make-hgrid/create_gnomonic_cubic_grid.c.  Real
    numbers for double arithmetic. *)
From Coq Require Import Reals ZArith List Bool.
From Verif Require Import Base M_Interp M_Matrix.
Import ListNotations.
Open Scope R_scope.

(** EPSLN5, EPSLN8: create_gnomonic_cubic_grid.c:59-61 *)
Definition EPSLN5 : R := 1 / 100000.
Definition EPSLN8 : R := 1 / 100000000.

(** spherical_linear_interpolation, create_gnomonic_cubic_grid.c:2140-2186.  Division by
    sin(omega) = 0 is [UB]. *)
Definition slerp (beta : R) (p1 p2 : R * R) : outcome (R * R) :=
  if rlt (Rabs (fst p1 - fst p2)) EPSLN8 && rlt (Rabs (snd p1 - snd p2)) EPSLN8 then Ok p1 else
  match latlon2xyz (fst p1) (snd p1), latlon2xyz (fst p2) (snd p2) with
  | [a0; a1; a2], [b0; b1; b2] =>
      let dd := sqrt (a0 * a0 + a1 * a1 + a2 * a2) in
      let a0 := a0 / dd in let a1 := a1 / dd in let a2 := a2 / dd in
      let dd := sqrt (b0 * b0 + b1 * b1 + b2 * b2) in
      let b0 := b0 / dd in let b1 := b1 / dd in let b2 := b2 / dd in
      let alpha := 1 - beta in
      let omega := acos (a0 * b0 + a1 * b1 + a2 * b2) in
      if rlt (Rabs omega) EPSLN5 then Err 1 else
      if Req_EM_T (sin omega) 0 then UB else
      let e a b := (sin (beta * omega) * b + sin (alpha * omega) * a) / sin omega in
      xyz2latlon [e a0 b0; e a1 b1; e a2 b2]
  | _, _ => UB
  end.

(** index_an_gr, create_gnomonic_cubic_grid.c:2196-2212 *)
Definition index_an_gr (jcf p_npi icf max_ni max_nj : Z) (is_gr : bool) : outcome Z :=
  do jcf <- (if (max_nj <? jcf)%Z then if is_gr then Ok max_nj else Err 2 else Ok jcf) ;
  do icf <- (if (max_ni <? icf)%Z then if is_gr then Ok max_ni else Err 3 else Ok icf) ;
  Ok (jcf * p_npi + icf)%Z.

(** The body of the loops of setup_aligned_nest, 2262-2312: the point stored in xc[j*npi+i],
    yc[j*npi+i].  [get]: the point of the parent with a given index. *)
Definition nest_point (get : Z -> outcome (R * R)) (parent_ni parent_nj refine_ratio istart jstart : Z)
    (is_gr : bool) (j i : Z) : outcome (R * R) :=
  let parent_npi := (parent_ni + 1)%Z in
  let jc := (jstart - 1 + j / refine_ratio)%Z in let jmod := (j mod refine_ratio)%Z in
  let ic := (istart - 1 + i / refine_ratio)%Z in let imod := (i mod refine_ratio)%Z in
  do '(q1, q2) <-
    (if (jmod =? 0)%Z then
      do idx <- index_an_gr jc parent_npi ic parent_ni parent_nj is_gr ;
      do idx_pi <- index_an_gr jc parent_npi (ic + 1) parent_ni parent_nj is_gr ;
      do q1 <- get idx ; do q2 <- get idx_pi ; Ok (q1, q2)
    else
      do idx <- index_an_gr jc parent_npi ic parent_ni parent_nj is_gr ;
      do idx_pi <- index_an_gr jc parent_npi (ic + 1) parent_ni parent_nj is_gr ;
      do idx_pj <- index_an_gr (jc + 1) parent_npi ic parent_ni parent_nj is_gr ;
      do idx_pjpi <- index_an_gr (jc + 1) parent_npi (ic + 1) parent_ni parent_nj is_gr ;
      do t1 <- get idx ; do t2 <- get idx_pj ;
      do q1 <- slerp (IZR jmod / IZR refine_ratio) t1 t2 ;
      do t1 <- get idx_pi ; do t2 <- get idx_pjpi ;
      do q2 <- slerp (IZR jmod / IZR refine_ratio) t1 t2 ;
      Ok (q1, q2)) ;
  do t <- (if (imod =? 0)%Z then Ok q1 else slerp (IZR imod / IZR refine_ratio) q1 q2) ;
  let x := fst t in
  let x := if rlt (2 * PI) x then x - 2 * PI else x in
  let x := if rlt x 0 then x + 2 * PI else x in
  Ok (x, snd t).

Definition pair_at (xy : list R * list R) (n : Z) : outcome (R * R) :=
  do x <- oget (fst xy) n ; do y <- oget (snd xy) n ; Ok (x, y).

(** setup_aligned_nest, create_gnomonic_cubic_grid.c:2230-2324, called with parent_xc = a + po,
    xc = a' + o.  For a global refinement the parent is in another array ([other], line 437), for
    a nest in the same array as the result (line 452).  The three stores into xc[j*npi+i] are
    one. *)
Definition setup_aligned_nest (parent_ni parent_nj : Z) (other : option (list R * list R)) (po halo refine_ratio istart iend jstart jend : Z)
    (xy : list R * list R) (o : Z) (is_gr : bool) : outcome (list R * list R) :=
  if ((jstart - halo <? 1) || (istart - halo <? 1) || (parent_nj <? jend + halo) || (parent_ni <? iend + halo))%Z then Err 4 else
  if (refine_ratio =? 0)%Z then UB else
  let npi := ((iend - istart + 1) * refine_ratio + 1)%Z in let npj := ((jend - jstart + 1) * refine_ratio + 1)%Z in
  ofor 0 npj (fun xy j => ofor 0 npi (fun xy i =>
    let parent := match other with Some p => p | None => xy end in
    do '(x, y) <- nest_point (fun n => pair_at parent (po + n)) parent_ni parent_nj refine_ratio istart jstart is_gr j i ;
    do xc <- oset (fst xy) (o + (j * npi + i)) x ; do yc <- oset (snd xy) (o + (j * npi + i)) y ; Ok (xc, yc)) xy) xy.

(** One entry of --parent_tile, --refine_ratio, --istart_nest, --iend_nest, --jstart_nest and
    --jend_nest *)
Record nest := { parent_tile : Z; ratio : Z; is_nest : Z; ie_nest : Z; js_nest : Z; je_nest : Z }.

(** create_gnomonic_cubic_grid.c:186-213: istart, iend, jstart, jend, and ni_nest, nj_nest,
    ni_parent, nj_parent.  [before]: (ni_nest, nj_nest) of the nests before; those of later
    nests are still 0. *)
Definition parity_ok (n : nest) : bool :=
  ((Z.rem (is_nest n + 1) 2 =? 0) && (Z.rem (ie_nest n) 2 =? 0) && (Z.rem (js_nest n + 1) 2 =? 0) && (Z.rem (je_nest n) 2 =? 0))%Z.
Definition istart (n : nest) : Z := Z.quot (is_nest n + 1) 2.
Definition iend (n : nest) : Z := Z.quot (ie_nest n) 2.
Definition jstart (n : nest) : Z := Z.quot (js_nest n + 1) 2.
Definition jend (n : nest) : Z := Z.quot (je_nest n) 2.
Definition nest_size (n : nest) : Z * Z := ((iend n - istart n + 1) * ratio n, (jend n - jstart n + 1) * ratio n)%Z.
Definition parent_size (ni : Z) (nests : list nest) (k : Z) (n : nest) : outcome (Z * Z) :=
  if (parent_tile n <=? 6)%Z then Ok (ni, ni) else
  let p := (parent_tile n - 7)%Z in
  do m <- oget nests p ; Ok (if (p <=? k)%Z then nest_size m else (0, 0)%Z).

(** tile_offset, create_gnomonic_cubic_grid.c:308-330: where tile [t] (from 0) starts *)
Definition tile_sizes (ni : Z) (nests : list nest) : list (Z * Z) := repeat (ni, ni) 6 ++ map nest_size nests.
Fixpoint offset (sizes : list (Z * Z)) (t : nat) : Z :=
  match t, sizes with
  | S t', (a, b) :: sizes' => ((a + 1) * (b + 1) + offset sizes' t')%Z
  | _, _ => 0%Z
  end.
Definition tile_offset (ni : Z) (nests : list nest) (t : Z) : Z := offset (tile_sizes ni nests) (Z.to_nat t).

(** create_gnomonic_cubic_grid.c:441-460, after the checks of 186-213; xc and yc have room for
    all tiles and hold the six global ones *)
Definition setup_nests (ni halo : Z) (nests : list nest) (xy : list R * list R) : outcome (list R * list R) :=
  if negb (forallb parity_ok nests) then Err 5 else
  ofor 0 (zlen nests) (fun xy k =>
    do n <- oget nests k ;
    do '(pi, pj) <- parent_size ni nests k n ;
    if (parent_tile n <? 1)%Z then UB else
    setup_aligned_nest pi pj None (tile_offset ni nests (parent_tile n - 1)) halo (ratio n)
      (istart n) (iend n) (jstart n) (jend n) xy (tile_offset ni nests (6 + k)) false) xy.

(** create_gnomonic_cubic_grid.c:416-440: --parent_tile 0, all six tiles of [ni] cells refined;
    [junk]: what the new arrays hold *)
Definition global_refinement (ni refine_ratio : Z) (coarse junk : list R * list R) : outcome (list R * list R) :=
  let ni' := (ni * refine_ratio)%Z in
  ofor 0 6 (fun xy n =>
    setup_aligned_nest ni ni (Some coarse) ((ni + 1) * (ni + 1) * n) 0 refine_ratio 1 ni 1 ni xy ((ni' + 1) * (ni' + 1) * n) true) junk.
