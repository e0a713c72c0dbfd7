(** * Vocabulary for the halo exchange (C64) *)
From Coq Require Import Reals.
From Verif Require Import Base M_Mhalo.
From Verif Require Export Spec_Interp.
Local Open Scope Z_scope.

Definition size_of (G : list (Z * Z)) (n : Z) : Z * Z := nth (Z.to_nat n) G (0, 0).

(** The end [e] lies on side [d] of a tile of nx by ny cells and is at least two cells long. *)
Definition on_side (nx ny : Z) (d : dirn) (e : cend) : Prop :=
  match d with
  | WEST => e_is e = 0 /\ e_ie e = 0 /\ e_js e <> e_je e /\ 0 <= e_js e < ny /\ 0 <= e_je e < ny
  | EAST => 2 <= nx /\ e_is e = nx - 1 /\ e_ie e = nx - 1 /\ e_js e <> e_je e /\ 0 <= e_js e < ny /\ 0 <= e_je e < ny
  | SOUTH => e_js e = 0 /\ e_je e = 0 /\ e_is e <> e_ie e /\ 0 <= e_is e < nx /\ 0 <= e_ie e < nx
  | NORTH => 2 <= ny /\ e_js e = ny - 1 /\ e_je e = ny - 1 /\ e_is e <> e_ie e /\ 0 <= e_is e < nx /\ 0 <= e_ie e < nx
  end.
(** Points of the grid: cells ([sh] = 0) or cell corners ([sh] = 1).  Number of points of an end and the s-th point
    when walking from its start to its end. *)
Definition points (sh : Z) (e : cend) : Z := Z.abs (e_ie e - e_is e) + Z.abs (e_je e - e_js e) + 1 + sh.
Definition along (sh a b s : Z) : Z := if a <? b then a + s else a + sh - s.
Definition point (sh nx ny : Z) (d : dirn) (e : cend) (s : Z) : Z * Z :=
  match d with
  | WEST => (0, along sh (e_js e) (e_je e) s)
  | EAST => (nx - 1 + sh, along sh (e_js e) (e_je e) s)
  | SOUTH => (along sh (e_is e) (e_ie e) s, 0)
  | NORTH => (along sh (e_is e) (e_ie e) s, ny - 1 + sh)
  end.
(** Moving a point of side [d] out of the tile or into it by [h]. *)
Definition outward (h : Z) (d : dirn) (p : Z * Z) : Z * Z :=
  match d with
  | WEST => (fst p - h, snd p) | EAST => (fst p + h, snd p)
  | SOUTH => (fst p, snd p - h) | NORTH => (fst p, snd p + h)
  end.
Definition inward (h : Z) (d : dirn) (p : Z * Z) : Z * Z := outward (- h) d p.
(** The end runs counter-clockwise round its tile. *)
Definition counterclockwise (d : dirn) (e : cend) : Prop :=
  match d with WEST => e_je e < e_js e | EAST => e_js e < e_je e | SOUTH => e_is e < e_ie e | NORTH => e_ie e < e_is e end.

(** Value at point (i, j), level k, of a field with a halo of one, -1 <= i <= nx + sh, -1 <= j <= ny + sh. *)
Definition val (sh nx ny : Z) (f : list R) (k : Z) (p : Z * Z) : R :=
  at_ f (k * ((nx + sh + 2) * (ny + sh + 2)) + (snd p + 1) * (nx + sh + 2) + (fst p + 1)).
Definition field_of (D : list (list R)) (n : Z) : list R := nth (Z.to_nat n) D [].
Definition fits (sh nz : Z) (G : list (Z * Z)) (D : list (list R)) : Prop :=
  zlen D = zlen G /\ forall n, 0 <= n < zlen G -> 1 <= fst (size_of G n) /\ 1 <= snd (size_of G n)
    /\ zlen (field_of D n) = nz * ((fst (size_of G n) + sh + 2) * (snd (size_of G n) + sh + 2)).

(** An end together with its side. *)
Definition lies (G : list (Z * Z)) (x : dirn * cend) : Prop :=
  0 <= e_tile (snd x) < zlen G /\ on_side (fst (size_of G (e_tile (snd x)))) (snd (size_of G (e_tile (snd x)))) (fst x) (snd x).
(** Sides that may meet: not west with west, east with east, or south with south. *)
Definition handled (d d2 : dirn) : Prop :=
  match d, d2 with WEST, WEST => False | EAST, EAST => False | SOUTH, SOUTH => False | _, _ => True end.
(** The two ends are equally long and glued as neighbouring pieces of one surface: one of them runs counter-clockwise,
    the other clockwise. *)
Definition glued (G : list (Z * Z)) (x y : dirn * cend) : Prop :=
  lies G x /\ lies G y /\ points 0 (snd x) = points 0 (snd y)
  /\ (counterclockwise (fst x) (snd x) <-> ~ counterclockwise (fst y) (snd y)).
(** The tile sizes the code mixes up agree. *)
Definition same_depth (G : list (Z * Z)) (x y : dirn * cend) : Prop :=
  match fst y with
  | EAST => fst (size_of G (e_tile (snd x))) = fst (size_of G (e_tile (snd y)))
  | NORTH => snd (size_of G (e_tile (snd x))) = snd (size_of G (e_tile (snd y)))
  | _ => True
  end.
(** The halo points next to an end. *)
Definition halo_point (sh : Z) (G : list (Z * Z)) (x : dirn * cend) (s : Z) : Z * Z :=
  outward 1 (fst x) (point sh (fst (size_of G (e_tile (snd x)))) (snd (size_of G (e_tile (snd x)))) (fst x) (snd x) s).
(** The points that fill them. *)
Definition inner_point (sh : Z) (G : list (Z * Z)) (x : dirn * cend) (s : Z) : Z * Z :=
  inward sh (fst x) (point sh (fst (size_of G (e_tile (snd x)))) (snd (size_of G (e_tile (snd x)))) (fst x) (snd x) s).
Definition apart (sh : Z) (G : list (Z * Z)) (x y : dirn * cend) : Prop :=
  e_tile (snd x) = e_tile (snd y) -> forall s t, 0 <= s < points sh (snd x) -> 0 <= t < points sh (snd y) -> halo_point sh G x s <> halo_point sh G y t.
