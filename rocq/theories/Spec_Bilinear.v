(** Bilinear interpolation and averaging over a finer grid. *)
From Coq Require Import Reals ZArith List.
From Verif Require Import Base Spec_Gnomonic Spec_Schmidt.
Import ListNotations.
Open Scope R_scope.

Definition norm (v : vec) : R := sqrt (dot v v).

(** The four cells around a point, in the order of the weights. *)
Definition corner (m : Z) : Z * Z :=
  match m with 0 => (0, 0) | 1 => (0, 1) | 2 => (1, 1) | _ => (1, 0) end%Z.
(** The position of cell (i, j), 0 <= i <= nx+1, 0 <= j <= ny+1, in an array of a tile with a
    halo of one cell; the corners of the halo are no cells of the cubed sphere. *)
Definition pos (nx i j : Z) : Z := (j * (nx + 2) + i)%Z.
Definition no_cell (nx ny i j : Z) : Prop := (i = 0 \/ i = nx + 1)%Z /\ (j = 0 \/ j = ny + 1)%Z.

(** The corners of the cell of centres with lower left corner (ic, jc); its sides; near the corner of
    a tile it is a triangle. *)
Definition is_cell (nx ny ic jc m : Z) : Prop := ~ no_cell nx ny (ic + fst (corner m)) (jc + snd (corner m)).
Definition side (nx ny ic jc a b : Z) : Prop :=
  (0 <= a < 4 /\ 0 <= b < 4 /\ a <> b)%Z /\ is_cell nx ny ic jc a /\ is_cell nx ny ic jc b
  /\ ((b = (a + 1) mod 4 \/ a = (b + 1) mod 4)%Z \/ exists k, (0 <= k < 4)%Z /\ ~ is_cell nx ny ic jc k).
(** The distance of p from the great circle through u and v is d, up to 1e-14. *)
Definition from_circle (u v p : vec) : R := Rabs (dot (cross u v) p) / norm (cross u v).
Definition distance (u v p : vec) (d : R) : Prop :=
  0 <= d <= PI / 2 /\ Rabs (sin d - from_circle u v p) <= 1 / 100000000000000.
(** Four corners: the weight of each is proportional to the product of the distances from the two
    sides it does not lie on; three corners: to the distance from the opposite side. *)
Definition bilinear (nx ny ic jc : Z) (v : Z -> vec) (p : vec) (w : Z -> R) : Prop :=
  exists S, 0 < S /\ ((forall m, (0 <= m < 4)%Z -> is_cell nx ny ic jc m) -> exists D,
     (forall m, (0 <= m < 4)%Z -> distance (v m) (v ((m + 1) mod 4)%Z) p (D m))
     /\ forall m, (0 <= m < 4)%Z -> w m * S = D ((m + 1) mod 4)%Z * D ((m + 2) mod 4)%Z)
  /\ (forall k, (0 <= k < 4)%Z -> ~ is_cell nx ny ic jc k -> w k = 0 /\ exists D,
     forall a b m, (0 <= a < 4 /\ 0 <= b < 4 /\ 0 <= m < 4 /\ a <> b /\ a <> m /\ b <> m /\ a <> k /\ b <> k /\ m <> k)%Z ->
     distance (v a) (v b) p (D m) /\ w m * S = D m).

Definition weighted (w d : Z -> R) : R := w 0%Z * d 0%Z + w 1%Z * d 1%Z + w 2%Z * d 2%Z + w 3%Z * d 3%Z.
(** Weights of a mean. *)
Definition mean_weights (w : Z -> R) : Prop :=
  (forall m, (0 <= m < 4)%Z -> 0 <= w m) /\ w 0%Z + w 1%Z + w 2%Z + w 3%Z = 1.

(** The cell found for point n: its lower left corner and its tile. *)
Definition found (index : list Z) (n ic jc l : Z) : Prop :=
  zget index (3 * n) = Some ic /\ zget index (3 * n + 1) = Some jc /\ zget index (3 * n + 2) = Some l.

(** What the values of the four cells around a point give. *)
Definition interpolated (has_missing : bool) (missing : R) (fill : bool) (w d : Z -> R) (x : R) : Prop :=
  (has_missing = false \/ (forall m, (0 <= m < 4)%Z -> d m <> missing) -> x = weighted w d)
  /\ (has_missing = true -> (exists m, (0 <= m < 4)%Z /\ d m = missing) ->
      if fill then exists m, (0 <= m < 4)%Z /\ x = d m /\ (forall k, (0 <= k < 4)%Z -> w k <= w m) else x = missing).

(** Vectors with eastward and northward parts u and v; [unit_at a k e]: the array a has e at k. *)
Definition vec_of (u v : R) (lon lat : vec) : vec := plus (scale u lon) (scale v lat).
Definition comp (m : Z) (a : vec) : R := let '(x, y, z) := a in match m with 0%Z => x | 1%Z => y | _ => z end.
Definition unit_at (a : list R) (k : Z) (e : vec) : Prop := forall m, (0 <= m < 3)%Z -> zget a (3 * k + m) = Some (comp m e).
Definition weighted_vec (w : Z -> R) (a : Z -> vec) : vec :=
  plus (plus (plus (scale (w 0%Z) (a 0%Z)) (scale (w 1%Z) (a 1%Z))) (scale (w 2%Z) (a 2%Z))) (scale (w 3%Z) (a 3%Z)).

(** Twice as coarse a grid, without the poles: the mean over a point of the finer grid and half
    of its neighbours, east and west (periodic) and north and south, with the cosine of the
    latitude as the area. [v j i], [y j] : values and latitudes of the finer grid. *)
Definition mean_x (nx : Z) (v : Z -> Z -> R) (j i : Z) : R :=
  (v j ((i - 1) mod nx)%Z / 2 + v j i + v j ((i + 1) mod nx)%Z / 2) / 2.
Definition mean_area (nx : Z) (y : Z -> R) (v : Z -> Z -> R) (j i : Z) : R :=
  (cos (y (j - 1)%Z) / 2 * mean_x nx v (j - 1) i + cos (y j) * mean_x nx v j i + cos (y (j + 1)%Z) / 2 * mean_x nx v (j + 1) i)
  / (cos (y (j - 1)%Z) / 2 + cos (y j) + cos (y (j + 1)%Z) / 2).
