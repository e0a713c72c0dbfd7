(** Domains of a cubed sphere and the land in and beside them (C89). *)
From Coq Require Import ZArith List.
From Verif Require Import Base.
From Verif Require Export Spec_GridHalo.
Import ListNotations.
Open Scope Z_scope.

(** The [k]-th cell just outside and just inside side [s] of a tile of [n] by [n] cells. *)
Definition outside (n : Z) (s : side) (k : Z) : Z * Z :=
  match s with South => (-1, k) | North => (n, k) | West => (k, -1) | East => (k, n) end.
Definition inside (n : Z) (s : side) (k : Z) : Z * Z :=
  match s with South => (0, k) | North => (n - 1, k) | West => (k, 0) | East => (k, n - 1) end.

(** Row [j], column [i] of tile [t], in the tile or just beyond one of its sides, is cell
    (j', i') of tile [t']. *)
Definition stands_for (n t j i t' j' i' : Z) : Prop :=
  (t' = t /\ j' = j /\ i' = i /\ 0 <= j < n /\ 0 <= i < n)
  \/ exists s s' r k, neighbour t s t' s' r /\ 0 <= k < n /\ (j, i) = outside n s k
     /\ (j', i') = inside n s' (if r then n - 1 - k else k).

Definition is_land (n : Z) (land : list (list bool)) (t j i : Z) : Prop :=
  exists d, zget land t = Some d /\ zget d (j * n + i) = Some true.

(** Columns [ib..ie], rows [jb..je] of tile [t] and the cells round them have land. *)
Definition has_land (n : Z) (land : list (list bool)) (t ib ie jb je : Z) : Prop :=
  exists j i t' j' i', jb - 1 <= j <= je + 1 /\ ib - 1 <= i <= ie + 1
    /\ stands_for n t j i t' j' i' /\ is_land n land t' j' i'.
