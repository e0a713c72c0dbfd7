(** * Vocabulary for the extrapolation of fregrid (C62) *)
From Coq Require Import Reals.
From Verif Require Import Base M_Interp Spec_Interp.
Local Open Scope R_scope.

(** Cell centres of a latitude-longitude grid in radians: increasing, at least two in each direction, between the
    poles, with the outer edges of the first and last rows not beyond the poles. *)
Definition lonlat_grid (lon lat : list R) : Prop :=
  (2 <= zlen lon)%Z /\ (2 <= zlen lat)%Z /\ increasing lon /\ increasing lat
  /\ (forall j, (0 <= j < zlen lat)%Z -> - (PI / 2) < at_ lat j < PI / 2)
  /\ - (PI / 2) <= at_ lat 0 - (at_ lat 1 - at_ lat 0) / 2
  /\ at_ lat (zlen lat - 1) + (at_ lat (zlen lat - 1) - at_ lat (zlen lat - 2)) / 2 <= PI / 2.

(** The value of cell (i, j) of level k. *)
Definition cell (ni nj : Z) (d : list R) (k i j : Z) : R := at_ d (k * (ni * nj) + (j * ni + i)).
(** A value is missing if it is the missing value up to 1e-10. *)
Definition is_missing (missing v : R) : Prop := Rabs (v - missing) <= 1 / 10 ^ 10.

(** Distance between points k and k + 1; the distance at an end of the grid is used beyond it. *)
Definition gap (x : list R) (k : Z) : R := let m := Z.max 0 (Z.min k (zlen x - 2)) in at_ x (m + 1) - at_ x m.
(** Width of cell k (the first cell is taken as wide as the second). *)
Definition width (x : list R) (k : Z) : R := let m := Z.max 1 k in (gap x (m - 1) + gap x m) / 2.
(** Weights of the west, east, south and north neighbours in Laplace's equation on the sphere. *)
Definition w_west (lon lat : list R) (i j : Z) : R := 1 / (cos (at_ lat j)) ^ 2 / (gap lon (i - 1) * width lon i).
Definition w_east (lon lat : list R) (i j : Z) : R := 1 / (cos (at_ lat j)) ^ 2 / (gap lon i * width lon i).
Definition w_south (lat : list R) (j : Z) : R := cos (at_ lat j - gap lat (j - 1) / 2) / cos (at_ lat j) / (gap lat (j - 1) * width lat j).
Definition w_north (lat : list R) (j : Z) : R := cos (at_ lat j + gap lat j / 2) / cos (at_ lat j) / (gap lat j * width lat j).
(** The field [F] beyond the grid: periodic in i on a cyclic grid, otherwise 0. *)
Definition around (ni nj : Z) (cyclic : bool) (F : Z -> Z -> R) (i j : Z) : R :=
  if ((j <? 0) || (nj <=? j))%Z%bool then 0
  else if ((0 <=? i) && (i <? ni))%Z%bool then F i j
  else if cyclic then F (i mod ni)%Z j else 0.
(** The weighted mean of the four neighbours. *)
Definition neighbour_mean (lon lat : list R) (cyclic : bool) (F : Z -> Z -> R) (i j : Z) : R :=
  let N := around (zlen lon) (zlen lat) cyclic F in
  (w_west lon lat i j * N (i - 1)%Z j + w_east lon lat i j * N (i + 1)%Z j + w_south lat j * N i (j - 1)%Z + w_north lat j * N i (j + 1)%Z)
  / (w_west lon lat i j + w_east lon lat i j + w_south lat j + w_north lat j).
