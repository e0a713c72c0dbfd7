(** * Specification vocabulary for 2-D decompositions and gathers *)
From Verif Require Import Base M_Domain2D.

(** Processor [p] owns the rectangle [isc..iec] x [jsc..jec]. *)
Definition owns (d : dom2d) (p isc iec jsc jec : Z) : Prop :=
  zget (d_isc d) p = Some isc /\ zget (d_iec d) p = Some iec
  /\ zget (d_jsc d) p = Some jsc /\ zget (d_jec d) p = Some jec.

(** [l] is the row-major nz x ny x nx array holding the part of the global
    field [F] (indexed level, row, column) that starts at row [js], column [is]. *)
Definition patch {A} (F : Z -> Z -> Z -> A) (is nx js ny nz : Z) (l : list A) : Prop :=
  zlen l = nx * ny * nz
  /\ forall k j i, 0 <= k < nz -> 0 <= j < ny -> 0 <= i < nx ->
       zget l ((k * ny + j) * nx + i) = Some (F k (js + j) (is + i)).

(** Every processor holds its rectangle of the field [F], extended by
    [ishift]/[jshift] (0 for cell centres, 1 for corners) at the upper ends. *)
Definition distributed {A} (d : dom2d) (npes ishift jshift nz : Z) (F : Z -> Z -> Z -> A)
    (loc : list (Z * Z * list A)) : Prop :=
  forall p, 0 <= p < npes -> exists isc iec jsc jec l,
    owns d p isc iec jsc jec
    /\ zget loc p = Some (iec - isc + 1 + ishift, jec - jsc + 1 + jshift, l)
    /\ patch F isc (iec - isc + 1 + ishift) jsc (jec - jsc + 1 + jshift) nz l.
