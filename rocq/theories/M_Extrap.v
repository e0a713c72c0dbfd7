(** * Model of the extrapolation of fregrid: src/fre-grid/fregrid_util.c, do_extrapolate

    Doubles are real numbers.  The numbers printed for every level (line 2784) are part of the result. *)
From Coq Require Import Reals.
From Verif Require Import Base M_Interp M_Vert.
Open Scope Z_scope.

(** REL_COEF, MAX_ITER, lines 38-39 *)
Definition REL_COEF : R := (9 / 10)%R.
Definition MAX_ITER : nat := Z.to_nat 4000.
(** Lines 2683-2690: dxu, dxt of the coordinates lon (and dyu, dyt of lat) *)
Definition spacing (n : Z) (x : list R) : outcome (list R * list R) :=
  do u <- ofor 0 (n - 1) (fun u j => do a <- oget x (j + 1) ; do b <- oget x j ; oset u j (a - b)%R) (alloc n) ;
  do v <- oget u (n - 2) ; do u <- oset u (n - 1) v ;
  do t <- ofor 1 (n - 1) (fun t j => do a <- oget u j ; do b <- oget u (j - 1) ; oset t j (1 / 2 * (a + b))%R) (alloc n) ;
  do v <- oget t 1 ; do t <- oset t 0 v ;
  Ok (u, t).
(** Lines 2696-2720: the coefficients (cfw, cfe, cfs, cfn) of all cells *)
Definition coefficients (ni nj : Z) (lon lat : list R) : outcome (list (R * R * R * R)) :=
  do y <- spacing nj lat ; let '(dyu, dyt) := y in
  do x <- spacing ni lon ; let '(dxu, dxt) := x in
  ofor 0 nj (fun cf j =>
    do l <- oget lat j ;
    do latp <- (if j =? nj - 1 then do m <- oget lat (j - 1) ; Ok (l + 1 / 2 * (l - m))%R
                else do p <- oget lat (j + 1) ; Ok (1 / 2 * (l + p))%R) ;
    do latm <- (if j =? 0 then do p <- oget lat (j + 1) ; Ok (l - 1 / 2 * (p - l))%R
                else do m <- oget lat (j - 1) ; Ok (1 / 2 * (l + m))%R) ;
    let csj := cos latp in let csm := cos latm in let cstr := (1 / cos l)%R in
    ofor 0 ni (fun cf i =>
      do t <- oget dyt j ; do u <- oget dyu j ; do um <- oget dyu (Z.max (j - 1) 0) ;
      do tx <- oget dxt i ; do ux <- oget dxu i ; do uxm <- oget dxu (Z.max (i - 1) 0) ;
      let n := (csj * cstr / (t * u))%R in let s := (csm * cstr / (t * um))%R in
      let e := (cstr * cstr / (ux * tx))%R in let w := (cstr * cstr / (uxm * tx))%R in
      let c := (1 / (n + s + e + w))%R in
      Ok (cf ++ [(w * c, e * c, s * c, n * c)%R])) cf) [].
(** fill_boundaries, lines 2802-2812 *)
Definition fill_boundaries (ni nj : Z) (cyclic : bool) (d : list R) : outcome (list R) :=
  if cyclic then
    ofor 1 nj (fun d j =>
      do v <- oget d (j * (ni + 2) + ni) ; do d <- oset d (j * (ni + 2)) v ;
      do v <- oget d (j * (ni + 2) + 1) ; oset d (j * (ni + 2) + ni + 1) v) d
  else Ok d.
(** One pass, lines 2752-2768: the new array and resmax *)
Definition pass (ni nj : Z) (cf : list (R * R * R * R)) (sor tmp : list R) : outcome (list R * R) :=
  do res <- ofor 0 nj (fun res j => ofor 0 ni (fun res i =>
    do c <- oget cf (j * ni + i) ; let '(cw, ce, cs, cn) := c in
    do t2 <- oget tmp ((j + 1) * (ni + 2) + i + 1) ;
    do t3 <- oget tmp ((j + 1) * (ni + 2) + i) ; do t4 <- oget tmp ((j + 1) * (ni + 2) + i + 2) ;
    do t5 <- oget tmp (j * (ni + 2) + i + 1) ; do t6 <- oget tmp ((j + 2) * (ni + 2) + i + 1) ;
    Ok (res ++ [cw * t3 + ce * t4 + cs * t5 + cn * t6 - t2]%R)) res) [] ;
  ofor 0 nj (fun st j => ofor 0 ni (fun '(tmp, resmax) i =>
    do r <- oget res (j * ni + i) ; do s <- oget sor (j * ni + i) ;
    let r := (r * s)%R in
    do t <- oget tmp ((j + 1) * (ni + 2) + i + 1) ;
    do tmp <- oset tmp ((j + 1) * (ni + 2) + i + 1) (t + r)%R ;
    Ok (tmp, Rmax (Rabs r) resmax)) st) (tmp, 0%R).
(** The iteration, lines 2750-2782, from iteration [n] with [rest] iterations left: the array, and the number of
    the last iteration and its resmax as printed in line 2784 *)
Fixpoint iterate (ni nj : Z) (cf : list (R * R * R * R)) (sor : list R) (cyclic : bool) (stop : R) (n : Z) (rest : nat) (tmp : list R) : outcome (list R * (Z * R)) :=
  match rest with
  | O => Ok (tmp, (n, 0%R))
  | S rest =>
    do r <- pass ni nj cf sor tmp ; let '(tmp, resmax) := r in
    if rle resmax stop || (n =? Z.of_nat MAX_ITER - 1) then Ok (tmp, (n, resmax))
    else do tmp <- fill_boundaries ni nj cyclic tmp ; iterate ni nj cf sor cyclic stop (n + 1) rest tmp
  end.
(** One level, lines 2734-2782 *)
Definition level (ni nj : Z) (cf : list (R * R * R * R)) (cyclic : bool) (missing stop : R) (k : Z) (data tmp : list R) : outcome (list R * (Z * R)) :=
  do r <- ofor 0 nj (fun st j => ofor 0 ni (fun '(tmp, sor) i =>
    do d <- oget data (k * ni * nj + j * ni + i) ;
    if rle (Rabs (d - missing)) EPSLN10 then Ok (tmp, sor ++ [REL_COEF])
    else do tmp <- oset tmp ((j + 1) * (ni + 2) + i + 1) d ; Ok (tmp, sor ++ [0%R])) st) (tmp, []) ;
  let '(tmp, sor) := r in
  do tmp <- fill_boundaries ni nj cyclic tmp ;
  iterate ni nj cf sor cyclic stop 0 MAX_ITER tmp.
(** do_extrapolate, lines 2662-2799: the extrapolated data and what is printed for every level.  The array tmp is
    set to 0 (2726); lines 2728-2732 store 0 in some of its elements again and are left out. *)
Definition do_extrapolate (ni nj nk : Z) (lon lat : list R) (data : list R) (cyclic : bool) (missing stop : R) : outcome (list R * list (Z * R)) :=
  do cf <- coefficients ni nj lon lat ;
  do r <- ofor 0 nk (fun '(tmp, out, rep) k =>
    do l <- level ni nj cf cyclic missing stop k data tmp ; let '(tmp, printed) := l in
    do out <- ofor 0 nj (fun out j => ofor 0 ni (fun out i =>
      do v <- oget tmp ((j + 1) * (ni + 2) + i + 1) ; Ok (out ++ [v])) out) out ;
    Ok (tmp, out, rep ++ [printed])) (alloc ((ni + 2) * (nj + 2)), [], []) ;
  let '(_, out, rep) := r in Ok (out, rep).
