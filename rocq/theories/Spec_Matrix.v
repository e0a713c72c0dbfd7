(** * Vocabulary for C55 and C56: vectors and 3x3 matrices, independent of the model *)
From Coq Require Import Reals.
From Verif Require Import Base.
Open Scope R_scope.

(** Vectors in space *)
Definition vec3 : Type := (R * R * R)%type.
Definition dot (a b : vec3) : R := let '(x, y, z) := a in let '(x', y', z') := b in x * x' + y * y' + z * z'.
Definition cross (a b : vec3) : vec3 := let '(x, y, z) := a in let '(x', y', z') := b in (y * z' - z * y', z * x' - x * z', x * y' - y * x').
Definition vplus (a b : vec3) : vec3 := let '(x, y, z) := a in let '(x', y', z') := b in (x + x', y + y', z + z').
Definition vminus (a b : vec3) : vec3 := let '(x, y, z) := a in let '(x', y', z') := b in (x - x', y - y', z - z').
Definition vscale (k : R) (a : vec3) : vec3 := let '(x, y, z) := a in (k * x, k * y, k * z).
Definition norm (a : vec3) : R := sqrt (dot a a).
Definition lst (a : vec3) : list R := let '(x, y, z) := a in [x; y; z].

(** Matrices of three rows, as entries *)
Definition mat3 : Type := nat -> nat -> R.
Definition entries (M : mat3) : list R := [M 0 0; M 0 1; M 0 2; M 1 0; M 1 1; M 1 2; M 2 0; M 2 1; M 2 2]%nat.
Definition mprod (A B : mat3) : mat3 := fun i j => A i 0%nat * B 0%nat j + A i 1%nat * B 1%nat j + A i 2%nat * B 2%nat j.
Definition ident : mat3 := fun i j => if Nat.eqb i j then 1 else 0.
(** Equality of the nine entries *)
Definition same (A B : mat3) : Prop := forall i j, (i < 3)%nat -> (j < 3)%nat -> A i j = B i j.
(** Determinant: the volume spanned by the rows *)
Definition row (M : mat3) (i : nat) : vec3 := (M i 0%nat, M i 1%nat, M i 2%nat).
Definition volume (M : mat3) : R := dot (row M 0) (cross (row M 1) (row M 2)).

(** A point of the unit sphere by longitude and latitude *)
Definition sphere (lon lat : R) : vec3 := (cos lat * cos lon, cos lat * sin lon, sin lat).

(** The point that the rotation of C55 takes to the north pole *)
Definition pre : vec3 := (- sqrt (1 / 2), 1 / 2, 1 / 2).
