(** * Model of the longitude routines of tool_util.c and river_regrid.c *)
From Coq Require Import Reals.
From Verif Require Import Base M_Interp M_Clip.
Open Scope Z_scope.

(** const double SMALL, tool_util.c:36 *)
Definition SMALL : R := (1 / 10000)%R.
(** lon_in_range, tool_util.c:343-365, over the reals; the loop of lines 354-362 has [fuel]
    turns, [Err 99] means that they were not enough *)
Fixpoint lir_loop (fuel : nat) (x strt : R) : outcome R :=
  match fuel with
  | O => Err 99
  | S fuel =>
      if rlt x strt then lir_loop fuel (x + 360)%R strt
      else if rlt (strt + 360) x then lir_loop fuel (x - 360)%R strt
      else Ok x
  end.
Definition lon_in_range (fuel : nat) (lon strt : R) : outcome R :=
  if rlt (Rabs (lon - strt)) SMALL then Ok strt
  else if rlt (Rabs (lon - (strt + 360))) SMALL then Ok strt
  else lir_loop fuel lon strt.

(** adjust_lon, river_regrid.c:856-874: four vertices *)
Definition adjust_lon (x : list R) (tlon : R) : outcome (list R) :=
  do x0 <- oget x 0 ;
  do st <- ofor 1 3 (fun st i => let '(x, x_sum) := st in
    do a <- oget x i ; do b <- oget x (i - 1) ;
    let dx := (a - b)%R in
    let dx := if rlt dx (- PI) then (dx + 2 * PI)%R else if rlt PI dx then (dx - 2 * PI)%R else dx in
    do x <- oset x i (b + dx)%R ;
    Ok (x, (x_sum + (b + dx))%R)) (x, x0) ;
  let '(x, x_sum) := st in
  let dx := (x_sum / 4 - tlon)%R in
  Ok (if rlt dx (- PI) then map (fun v => v + 2 * PI)%R x else if rlt PI dx then map (fun v => v - 2 * PI)%R x else x).

(** lon_fix, tool_util.c:372-434.  The pairing of pole vertices (380-397, with vtx_delete and
    vtx_insert, 441-467) and the longitudes of the pairs (401-411) are those of fix_lon in
    mosaic_util.c with other constants (degrees), see [M_Clip].  The sum starts with x[1]
    (line 415); with a single vertex left that element is outside the polygon. *)
Definition lon_fix (A : arith) (cap : Z) (l : list (pt A)) (tlon : num A) : outcome (list (pt A)) :=
  do l <- pair_poles A (2 * length l + 2) cap l 0 ;
  do l <- ofor 0 (zlen l) (pole_lon A) l ;
  if zlen l =? 0 then Ok [] else
  do p1 <- oget l 1 ;
  do st <- ofor (S := (list (pt A) * num A)%type) 1 (zlen l - 1) (fun '(l, x_sum) i =>
    do p <- oget l i ; do m <- oget l (i - 1) ;
    let dx := nsub A (fst p) (fst m) in
    let dx := if nlt A dx (nsub A (nzero A) (npi A)) then nadd A dx (ntpi A) else if nlt A (npi A) dx then nsub A dx (ntpi A) else dx in
    let x := nadd A (fst m) dx in
    do l <- oset l i (x, snd p) ;
    Ok (l, nadd A x_sum x)) (l, fst p1) ;
  let '(l, x_sum) := st in
  let dx := nsub A (ndiv A x_sum (nofint A (zlen l))) tlon in
  if nlt A dx (nsub A (nzero A) (npi A)) then Ok (map (fun p => (nadd A (fst p) (ntpi A), snd p)) l)
  else if nlt A (npi A) dx then Ok (map (fun p => (nsub A (fst p) (ntpi A), snd p)) l) else Ok l.
(** The constants of tool_util.c: degrees, SMALL *)
Definition DA : arith := MkArith R Rplus Rminus Rmult Rdiv
  (fun a b => if Rle_dec a b then true else false) (fun a b => if Req_EM_T a b then true else false) Rabs 90%R 180%R 360%R SMALL 0%R 0%R IZR.
