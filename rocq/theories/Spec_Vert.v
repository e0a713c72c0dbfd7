(** * Vocabulary for the vertical interpolation of fregrid (C61) *)
From Verif Require Import Base M_Interp Spec_Interp.
Local Open Scope R_scope.

(** [v] is the value at depth [z] of a column with value [col m] at level [m] of the levels [zi]: the first
    value above the levels, the last below, and linear between two levels. *)
Definition column_value (zi : list R) (col : Z -> R) (z v : R) : Prop :=
  (z <= at_ zi 0 -> v = col 0%Z)
  /\ (at_ zi (zlen zi - 1) <= z -> v = col (zlen zi - 1)%Z)
  /\ forall m, (0 <= m < zlen zi - 1)%Z -> at_ zi m <= z <= at_ zi (m + 1) ->
       v = col m + (z - at_ zi m) / (at_ zi (m + 1) - at_ zi m) * (col (m + 1)%Z - col m).
(** All levels agree within 1e-10. *)
Definition agree (zi zo : list R) : Prop :=
  zlen zi = zlen zo /\ forall k, (0 <= k < zlen zi)%Z -> Rabs (at_ zo k - at_ zi k) <= 1 / 10 ^ 10.
