(** Nested grids: dividing the cells of a parent grid. *)
From Coq Require Import Reals ZArith.
From Verif Require Import Base Spec_Gnomonic Spec_Schmidt.
Open Scope R_scope.

(** A point: longitude and latitude in radians. *)
Definition point : Type := (R * R)%type.
Definition at_ (p : point) : vec := unit (fst p) (snd p).

(** The angle between two directions, and the direction [w] that divides the arc from [u] to [v]
    in the ratio beta : 1 - beta (C87_divides: there is only one). *)
Definition angle (u v : vec) : R := acos (dot u v).
Definition divides (beta : R) (u v w : vec) : Prop :=
  dot w w = 1 /\ angle u w = beta * angle u v /\ angle w v = (1 - beta) * angle u v.

(** [p] is the longitude and latitude of [w]; very close to the poles the longitude is 0. *)
Definition located (p : point) (w : vec) : Prop :=
  0 <= fst p < 2 * PI /\ - (PI / 2) <= snd p <= PI / 2 /\
  let '(x, y, z) := w in z = sin (snd p) /\ (at_ p = w \/ (fst p = 0 /\ Rabs x + Rabs y < 1 / 10000000000)).

Definition close (p q : point) : Prop := Rabs (fst p - fst q) < 1 / 100000000 /\ Rabs (snd p - snd q) < 1 / 100000000.
Definition between (beta : R) (p q p' : point) : Prop :=
  (close p q /\ p' = p) \/ (~ close p q /\ exists w, divides beta (at_ p) (at_ q) w /\ located p' w).

(** The points of a parent grid are [parent j i]; those of its refinement by [r] have indices
    from 0 in both directions, [r] to a cell of the parent.  First along the lines
    i = constant of the parent, ... *)
Definition on_line (parent : Z -> Z -> point) (r jj c : Z) (q : point) : Prop :=
  let j := (jj / r)%Z in
  if (jj mod r =? 0)%Z then q = parent j c
  else between (IZR (jj mod r) / IZR r) (parent j c) (parent (j + 1)%Z c) q.
(** ... then between them. *)
Definition refined (parent : Z -> Z -> point) (r jj ii : Z) (p : point) : Prop :=
  let i := (ii / r)%Z in
  if (ii mod r =? 0)%Z then on_line parent r jj i p
  else exists q1 q2, on_line parent r jj i q1 /\ on_line parent r jj (i + 1) q2
    /\ between (IZR (ii mod r) / IZR r) q1 q2 p.

(** The points of a tile stored at [o] in two arrays, with [ni] cells to a row. *)
Definition stored (xy : list R * list R) (o ni j i : Z) (p : point) : Prop :=
  zget (fst xy) (o + (j * (ni + 1) + i)) = Some (fst p) /\ zget (snd xy) (o + (j * (ni + 1) + i)) = Some (snd p).
Definition is_tile (xy : list R * list R) (o ni nj : Z) (f : Z -> Z -> point) : Prop :=
  forall j i, (0 <= j <= nj)%Z -> (0 <= i <= ni)%Z -> stored xy o ni j i (f j i).
(** Longitudes from 0 to 360 degrees. *)
Definition in_turn (nj ni : Z) (f : Z -> Z -> point) : Prop :=
  forall j i, (0 <= j <= nj)%Z -> (0 <= i <= ni)%Z -> 0 <= fst (f j i) <= 2 * PI.

(** The sides of a tile with [n] cells in each direction, and two tiles that have a side in
    common, run through in the same or in the opposite direction. *)
Inductive side := West | East | South | North.
Definition on_side (n : Z) (s : side) (f : Z -> Z -> point) (k : Z) : point :=
  match s with West => f k 0%Z | East => f k n | South => f 0%Z k | North => f n k end.
Definition share (n : Z) (f : Z -> Z -> point) (s : side) (g : Z -> Z -> point) (s' : side) (opposite : bool) : Prop :=
  forall k, (0 <= k <= n)%Z -> on_side n s f k = on_side n s' g (if opposite then n - k else k)%Z.
