(** * Vocabulary for C80 and C81 *)
From Verif Require Import Base M_GridBound Spec_GridBound.
From Verif Require Export Spec_Interp.
Local Open Scope R_scope.

(** Degrees as radians; the radius of the earth in metres. *)
Definition rad (d : R) : R := d * PI / 180.
Definition earth : R := 6371000.
(** The sum of an array. *)
Definition total (l : list R) : R := fold_right Rplus 0 l.

(** What the user has to give for one axis: at least two increasing bounds and a positive number of
    cells between each two, even if a centre is asked for. *)
Definition axis_ok (nb : Z) (bnds : list R) (npts : list Z) (c : center) : Prop :=
  (2 <= nb)%Z /\ zlen bnds = nb /\ zlen npts = (nb - 1)%Z /\ increasing bnds /\ (forall p, In p npts -> (0 < p)%Z)
  /\ c <> C_other /\ (c <> C_none -> forall p, In p npts -> (p mod 2 = 0)%Z).
(** The positions [g] of the n + 1 grid lines of one axis. *)
Definition lines (g : list R) (n : Z) (first last : R) : Prop :=
  zlen g = (n + 1)%Z /\ increasing g /\ at_ g 0 = first /\ at_ g n = last.

(** The array [a] holds [ni] columns and [nj] rows, row by row, with [v j i] in row j, column i. *)
Definition table (a : list R) (nj ni : Z) (v : Z -> Z -> R) : Prop :=
  zlen a = (nj * ni)%Z /\ forall j i, (0 <= j < nj)%Z -> (0 <= i < ni)%Z -> at_ a (j * ni + i) = v j i.

(** The axes of a tripolar grid: the longitudes [xs] go once round from [start], with a grid line
    opposite of it; the latitudes [ys] increase, and only the last may be (nearly) the pole.
    [fuel] bounds the number of turns between [start] and zero. *)
Definition tripolar_axes (start : R) (nx ny : Z) (xs ys : list R) (fuel : nat) : Prop :=
  lines xs nx start (start + 360) /\ (exists h, (0 <= h <= nx)%Z /\ at_ xs h = start + 180)
  /\ zlen ys = (ny + 1)%Z /\ (0 < ny)%Z /\ increasing ys /\ -90 <= at_ ys 0 /\ (forall j, (0 <= j <= ny)%Z -> at_ ys j <= 90 - 1 / 10000 \/ at_ ys j = 90)
  /\ -360 <= start /\ Rabs start <= 360 * INR fuel.
(** The longitudes are mirrored at [start] + 180. *)
Definition symmetric (start : R) (nx : Z) (xs : list R) : Prop := forall i, (0 <= i <= nx)%Z -> at_ xs i + at_ xs (nx - i) = 2 * start + 360.
