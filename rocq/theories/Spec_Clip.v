(** * Vocabulary for the clipping properties: plane geometry over the real numbers *)
From Coq Require Export Reals.
From Coq Require Import List Sorted.
From Verif Require Import Base M_Clip.
Local Open Scope R_scope.

(** Exact real arithmetic for the clipping code. *)
Definition RA : arith := MkArith R Rplus Rminus Rmult Rdiv
  (fun a b => if Rle_dec a b then true else false) (fun a b => if Req_EM_T a b then true else false) Rabs
  (PI / 2) PI (2 * PI) (1 / 1000000) (1 / 10000000000) 0 IZR.

Notation point := (R * R)%type.

(** [v] lies on the segment from [a] to [b]. *)
Definition between (a b v : point) : Prop :=
  exists t, 0 <= t <= 1 /\ v = (fst a + t * (fst b - fst a), snd a + t * (snd b - snd a)).

(** [v] is in every closed half-plane that contains all of [P] (the convex hull). *)
Definition in_hull (P : list point) (v : point) : Prop :=
  forall a b c, (forall p, In p P -> a * fst p + b * snd p <= c) -> a * fst v + b * snd v <= c.

Definition in_box (x0 y0 x1 y1 : R) (p : point) : Prop := x0 <= fst p <= x1 /\ y0 <= snd p <= y1.

(** A functional on directed edges that is antisymmetric and additive along straight
    segments (for instance the line integral that gives an area). *)
Definition edge_integral (phi : point -> point -> R) : Prop :=
  (forall a b, phi a b = - phi b a) /\ (forall a b v, between a b v -> phi a b = phi a v + phi v b).

(** Its sum along a path, and around a closed polygon. *)
Fixpoint along (phi : point -> point -> R) (a : point) (l : list point) : R :=
  match l with [] => 0 | b :: l => phi a b + along phi b l end.
Definition around (phi : point -> point -> R) (P : list point) : R :=
  match P with [] => 0 | p :: _ => along phi (last P p) P end.

(** The sum of [f] over the intervals of consecutive members of a list of edges. *)
Fixpoint over_cells (f : R -> R -> R) (xs : list R) : R :=
  match xs with a :: ((b :: _) as t) => f a b + over_cells f t | _ => 0 end.
(** Increasing edges (at least two) covering the values [vs]. *)
Definition edges_cover (xs : list R) (vs : list R) : Prop :=
  (2 <= length xs)%nat /\ StronglySorted Rlt xs /\ forall v, In v vs -> hd 0 xs <= v <= last xs 0.
