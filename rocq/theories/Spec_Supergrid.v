(** * Vocabulary: entries of a two-dimensional array *)
From Verif Require Import Base.
(** Entry (row j, column i) of an array with [w] columns *)
Definition entry {V} (g : list V) (w j i : Z) : option V := zget g (j * w + i).
(** [p] occurs in [s] *)
Definition occurs (p s : list Z) : Prop := exists a b, s = a ++ p ++ b.
