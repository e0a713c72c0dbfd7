(** * Vocabulary for C23 and C24 *)
From Verif Require Import Base M_CheckMask.

(** Equal coordinates, or equal up to a multiple of the period. *)
Definition same (cyclic : bool) (n a b : Z) : Prop := a = b \/ (cyclic = true /\ (n | a - b)).

(** The point (x, y), possibly outside the grid, is the grid point (x', y') on a grid
    with these boundaries.  Beyond the tripolar fold a row is read backwards. *)
Definition stands (bc : bctype) (nx ny x y x' y' : Z) : Prop :=
  0 <= x' < nx /\ 0 <= y' < ny /\
  ((same (cyclic_x bc) nx x x' /\ same (cyclic_y bc) ny y y')
   \/ (tripolar bc = true /\ ny <= y /\ y' = 2 * ny - 1 - y /\ same (cyclic_x bc) nx (nx - 1 - x) x')).

(** The domain [ib..ie] x [jb..je] extended by the halo has a wet point. *)
Definition has_water (nx ny halo : Z) (bc : bctype) (wet : list bool) (ib ie jb je : Z) : Prop :=
  exists x y x' y', ib - halo <= x <= ie + halo /\ jb - halo <= y <= je + halo /\
    stands bc nx ny x y x' y' /\ zget wet (y' * nx + x') = Some true.

(** Every division of [n] points is at least [halo] wide. *)
Definition wide (n ndivs halo : Z) : Prop := 0 <= halo <= 1 \/ 0 <= halo < n / ndivs.
