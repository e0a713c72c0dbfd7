(** The equal-distance gnomonic cubed sphere: directions through the points of a grid on the
    faces of a cube. *)
From Coq Require Import Reals ZArith.
From Verif Require Import Base.
Open Scope R_scope.

(** The point with longitude [lon] and latitude [lat] lies in the direction (x, y, z). *)
Definition toward (lon lat : R) (v : R * R * R) : Prop :=
  let '(x, y, z) := v in
  exists r, 0 < r /\ x = r * (cos lat * cos lon) /\ y = r * (cos lat * sin lon) /\ z = r * sin lat.

(** The points (a, b), -1 <= a, b <= 1, of the six faces of the cube with corners
    (+-1, +-1, +-1). *)
Definition face (t : Z) (a b : R) : R * R * R :=
  match t with
  | 0%Z => (1, a, b)
  | 1%Z => (- a, 1, b)
  | 2%Z => (- a, - b, 1)
  | 3%Z => (- 1, - b, - a)
  | 4%Z => (b, - 1, - a)
  | _ => (b, a, - 1)
  end.

(** The half angle of an edge of the cube, seen from its centre, and the [k]-th of the points
    0 .. n that divide an edge into [n] equal angles (see C83_spacing). *)
Definition half_edge : R := asin (1 / sqrt 3).
Definition grad (n k : Z) : R := sqrt 2 * tan (half_edge * (2 * IZR k / IZR n - 1)).

Definition dot (u v : R * R * R) : R :=
  let '(x, y, z) := u in let '(x', y', z') := v in x * x' + y * y' + z * z'.
Definition scale (k : R) (v : R * R * R) : R * R * R :=
  let '(x, y, z) := v in (k * x, k * y, k * z).

(** By how much the grid is turned to the west: 10 degrees, unless --shift_fac is (nearly) zero
    or negative or the grid is transformed anyway. *)
Definition west_shift (turn : bool) (shift_fac : R) : R :=
  if turn then if Rlt_dec (1 / 10000) shift_fac then PI / 18 else 0 else 0.
