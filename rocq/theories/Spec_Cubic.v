(** The cubed sphere: six square tiles glued along twelve edges. *)
From Coq Require Import ZArith List.
From Verif Require Import Base.
Import ListNotations.
Open Scope Z_scope.

Inductive side := South | North | West | East.

(** Six tiles, each stored row after row, [h] rows of [w] values. *)
Definition tile_value {A} (h w : Z) (a : list A) (t j i : Z) : option A :=
  if (0 <=? t) && (t <? 6) && (0 <=? j) && (j <? h) && (0 <=? i) && (i <? w)
  then zget a (t * (h * w) + j * w + i) else None.

(** Six tiles of [n] by [n] cells: the [k]-th point of a side, counted from the lower left
    corner of the tile (0 <= k <= n), and the length of its [k]-th piece (0 <= k < n). *)
Definition side_point {A} (n : Z) (x : list A) (t : Z) (s : side) (k : Z) : option A :=
  match s with
  | South => tile_value (n + 1) (n + 1) x t 0 k
  | North => tile_value (n + 1) (n + 1) x t n k
  | West => tile_value (n + 1) (n + 1) x t k 0
  | East => tile_value (n + 1) (n + 1) x t k n
  end.
Definition side_length {A} (n : Z) (dx dy : list A) (t : Z) (s : side) (k : Z) : option A :=
  match s with
  | South => tile_value (n + 1) n dx t 0 k
  | North => tile_value (n + 1) n dx t n k
  | West => tile_value n (n + 1) dy t k 0
  | East => tile_value n (n + 1) dy t k n
  end.

(** The twelve edges of the cube (tiles numbered from 0): which sides are the same edge, and
    whether they run in opposite directions. *)
Definition cube_edges : list (Z * side * Z * side * bool) :=
  [ (0, East, 1, West, false); (0, North, 2, West, true); (0, West, 4, North, true);
    (0, South, 5, North, false); (1, North, 2, South, false); (1, East, 3, South, true);
    (1, South, 5, East, true); (2, East, 3, West, false); (2, North, 4, West, true);
    (3, North, 4, South, false); (3, East, 5, South, true); (4, East, 5, West, false) ].

(** Side [s] of tile [t] is one of the two sides of edge [e]. *)
Definition has_side (e : Z * side * Z * side * bool) (t : Z) (s : side) : Prop :=
  let '(t1, s1, t2, s2, _) := e in (t1, s1) = (t, s) \/ (t2, s2) = (t, s).
