(** * Vocabulary for C20 and C21 *)
From Verif Require Import Base.
From Coq Require Import Sorting.Sorted.

(** Position [a] of the index list comes before position [b]: its index is smaller, or
    equal and [a] is earlier. *)
Definition before (idx : list Z) (a b : Z) : Prop :=
  exists va vb, zget idx a = Some va /\ zget idx b = Some vb /\ (va < vb \/ (va = vb /\ a < b)).

(** [r] lists exactly the positions of the non-negative indices, in stable sorted
    order (in particular each of them once). *)
Definition ranking (idx r : list Z) : Prop :=
  (forall q, In q r <-> exists v, zget idx q = Some v /\ 0 <= v) /\ StronglySorted (before idx) r.
