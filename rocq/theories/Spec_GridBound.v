(** * Vocabulary for C34 *)
From Verif Require Import Base.

(** Sum of the first [i] numbers of cells. *)
Definition zsum (l : list Z) : Z := fold_right Z.add 0 l.
Definition before (npts : list Z) (i : Z) : Z := zsum (firstn (Z.to_nat i) npts).
