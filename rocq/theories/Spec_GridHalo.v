(** What surrounds a tile of the cubed sphere. *)
From Coq Require Import ZArith List Bool.
From Verif Require Import Base.
From Verif Require Export Spec_Cubic.
Import ListNotations.
Open Scope Z_scope.

(** Quantities of a tile of [n] by [n] cells: at the corners of the cells (longitudes), at
    their sides along x (dx) and along y (dy), and in the cells (areas). *)
Inductive quantity := Corners | XSides | YSides | Cells.
Definition rows (q : quantity) (n : Z) : Z := match q with Corners | XSides => n + 1 | _ => n end.
Definition cols (q : quantity) (n : Z) : Z := match q with Corners | YSides => n + 1 | _ => n end.

(** Side [s] of tile [t] is side [s'] of tile [t']; [r]: in opposite directions. *)
Definition neighbour (t : Z) (s : side) (t' : Z) (s' : side) (r : bool) : Prop :=
  In (t, s, t', s', r) cube_edges \/ In (t', s', t, s, r) cube_edges.

(** Between a west or east side and a south or north side x and y are exchanged, and sides
    along x become sides along y. *)
Definition across (s : side) : bool := match s with West | East => true | _ => false end.
Definition turned (s s' : side) : bool := xorb (across s) (across s').
Definition seen (s s' : side) (q : quantity) : quantity :=
  match q with XSides => if turned s s' then YSides else XSides | YSides => if turned s s' then XSides else YSides | _ => q end.

(** How many values of [q] lie along side [s], and how many lie on the side itself, one after
    the other from the side inwards: corners and the sides that run along [s] lie on it. *)
Definition along (q : quantity) (n : Z) (s : side) : Z := if across s then rows q n else cols q n.
Definition on_it (q : quantity) (s : side) : Z := if across s then cols q 0 else rows q 0.

(** The [k]-th value of [q] of tile [t] beside side [s], the first one that is not on it. *)
Definition beside {A} (q : quantity) (n : Z) (a : list A) (t : Z) (s : side) (k : Z) : option A :=
  let h := rows q n in let w := cols q n in let d := on_it q s in
  match s with
  | South => tile_value h w a t d k
  | North => tile_value h w a t (h - 1 - d) k
  | West => tile_value h w a t k d
  | East => tile_value h w a t k (w - 1 - d)
  end.

(** The value at row [j], column [i] of an array with a halo of one, -1 <= j <= h, -1 <= i <= w,
    and the [k]-th value beyond side [s]. *)
Definition padded {A} (q : quantity) (n : Z) (a : list A) (j i : Z) : option A := zget a ((j + 1) * (cols q n + 2) + (i + 1)).
Definition beyond {A} (q : quantity) (n : Z) (a : list A) (s : side) (k : Z) : option A :=
  match s with
  | South => padded q n a (-1) k
  | North => padded q n a (rows q n) k
  | West => padded q n a k (-1)
  | East => padded q n a k (cols q n)
  end.
