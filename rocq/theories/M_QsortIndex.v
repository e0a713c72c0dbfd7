(** * Model of qsort_index, src/river-regrid/river_regrid.c:1538-1576

    Doubles are real numbers.  The recursion and the loops carry fuel; running out of it is
    reported as [Err 99], which the theorems exclude. *)
From Coq Require Import Reals.
From Verif Require Import Base M_Interp.
Open Scope Z_scope.

(** swap(x[p], x[q], tmp), river_regrid.c:1537 *)
Definition swap {A} (x : list A) (p q : Z) : outcome (list A) :=
  do a <- oget x p ; do b <- oget x q ; do x <- oset x p b ; oset x q a.

(** The inner while loop, river_regrid.c:1555-1558: new value of r *)
Fixpoint qi_down (fuel : nat) (array : list R) (pivot : R) (l r : Z) : outcome Z :=
  if l <? r then
    do v <- oget array r ;
    if rle pivot v then
      match fuel with O => Err 99 | S f => qi_down f array pivot l (r - 1) end
    else Ok r
  else Ok r.

(** The outer while loop, river_regrid.c:1551-1562 *)
Fixpoint qi_part (fuel : nat) (array : list R) (rank : list Z) (pivot : R) (l r : Z)
    : outcome (list R * list Z * Z * Z) :=
  if l <? r then
    match fuel with
    | O => Err 99
    | S f =>
      do v <- oget array l ;
      if rle v pivot then qi_part f array rank pivot (l + 1) r
      else
        do r <- qi_down (Z.to_nat (r - l)) array pivot l r ;
        do array <- swap array l r ; do rank <- swap rank l r ;
        qi_part f array rank pivot l r
    end
  else Ok (array, rank, l, r).

Fixpoint qsort_index (fuel : nat) (array : list R) (start end_ : Z) (rank : list Z)
    : outcome (list R * list Z) :=
  if end_ >? start then
    match fuel with
    | O => Err 99
    | S f =>
      let pivot_index := start + (end_ - start) / 2 in
      do array <- swap array start pivot_index ;
      do rank <- swap rank start pivot_index ;
      do pivot <- oget array start ;
      do '(array, rank, l, r) <- qi_part (Z.to_nat (2 * (end_ - start) + 1)) array rank pivot (start + 1) end_ ;
      do last <- oget array end_ ;
      if negb (l =? end_) || rlt pivot last then
        let l := l - 1 in
        do array <- swap array start l ; do rank <- swap rank start l ;
        do '(array, rank) <- qsort_index f array start l rank ;
        qsort_index f array r end_ rank
      else
        do array <- swap array start l ; do rank <- swap rank start l ;
        qsort_index f array start (l - 1) rank
    end
  else Ok (array, rank).
