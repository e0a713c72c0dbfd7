(** * Vocabulary for the interpolation properties (C30 - C33) *)
From Coq Require Export Reals.
From Verif Require Import Base M_Interp.
Local Open Scope R_scope.

(** Element [i] of an array (0 outside). *)
Definition at_ (g : list R) (i : Z) : R := nth (Z.to_nat i) g 0.

Definition nondecreasing (g : list R) : Prop := forall i j, (0 <= i <= j)%Z -> (j < zlen g)%Z -> at_ g i <= at_ g j.
Definition increasing (g : list R) : Prop := forall i j, (0 <= i < j)%Z -> (j < zlen g)%Z -> at_ g i < at_ g j.

(** [v] lies between [a] and [b] (in either order). *)
Definition betw (a b v : R) : Prop := a <= v <= b \/ b <= v <= a.

(** Sum of a function over a list. *)
Definition rsum {A} (f : A -> R) (l : list A) : R := fold_right (fun c s => f c + s) 0 l.

(** The exchange cell [c] covers cell [n] of the target grid / reads cell [n] of the source grid. *)
Definition target (nx : Z) (c : xcell) : Z := (x_j2 c * nx + x_i2 c)%Z.
Definition source (nx : Z) (c : xcell) : Z := (x_j1 c * nx + x_i1 c)%Z.
(** The exchange cells that cover target cell [n], and the covered area. *)
Definition covering (nx : Z) (xg : list xcell) (n : Z) : list xcell := filter (fun c => Z.eqb (target nx c) n) xg.
Definition covered_area (nx : Z) (xg : list xcell) (n : Z) : R := rsum x_area (covering nx xg n).
(** Indices inside both grids and positive areas. *)
Definition wf_xgrid (nxs nys nxd nyd : Z) (xg : list xcell) : Prop :=
  forall c, In c xg -> (0 <= x_i1 c < nxs /\ 0 <= x_j1 c < nys /\ 0 <= x_i2 c < nxd /\ 0 <= x_j2 c < nyd)%Z /\ 0 < x_area c.
