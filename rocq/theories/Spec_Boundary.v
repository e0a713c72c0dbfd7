(** The boundaries of a grid of one tile (C91). *)
From Coq Require Import ZArith List.
From Verif Require Import Base M_Contact.
Open Scope Z_scope.

Inductive boundary := CyclicX | CyclicY | FoldedNorth.
Definition boundary_eqb (a b : boundary) : bool :=
  match a, b with CyclicX, CyclicX | CyclicY, CyclicY | FoldedNorth, FoldedNorth => true | _, _ => false end.

(** The contact of a tile of [nx] by [ny] model cells, 2 [nx] by 2 [ny] supergrid cells, with
    itself: its west and east side are the same, its south and north side, or the two halves of
    its north side. *)
Definition contact_of (nx ny : Z) (b : boundary) (k : contact) : Prop :=
  k_tile1 k = 0 /\ k_tile2 k = 0 /\
  match b with
  | CyclicX => k_is1 k = k_ie1 k /\ k_is2 k = k_ie2 k /\ (k_is1 k = 1 /\ k_is2 k = 2 * nx \/ k_is1 k = 2 * nx /\ k_is2 k = 1)
     /\ k_js1 k = 1 /\ k_je1 k = 2 * ny /\ k_js2 k = 1 /\ k_je2 k = 2 * ny
  | CyclicY => k_js1 k = k_je1 k /\ k_js2 k = k_je2 k /\ (k_js1 k = 1 /\ k_js2 k = 2 * ny \/ k_js1 k = 2 * ny /\ k_js2 k = 1)
     /\ k_is1 k = 1 /\ k_ie1 k = 2 * nx /\ k_is2 k = 1 /\ k_ie2 k = 2 * nx
  | FoldedNorth => k_js1 k = 2 * ny /\ k_je1 k = 2 * ny /\ k_js2 k = 2 * ny /\ k_je2 k = 2 * ny
     /\ k_is1 k = 1 /\ k_ie1 k = nx /\ k_is2 k = 2 * nx /\ k_ie2 k = nx + 1
  end.
