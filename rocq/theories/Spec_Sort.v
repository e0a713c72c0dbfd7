(** * Vocabulary for in-place sorting with an index array (C42, C43) *)
From Coq Require Import Reals.
From Verif Require Import Base Spec_Interp.
Open Scope Z_scope.

(** [f] is a one-to-one rearrangement of the integers that moves only positions s..e. *)
Definition rearranges (s e : Z) (f : Z -> Z) : Prop :=
  (forall i, ~ (s <= i <= e) -> f i = i) /\ exists g, forall i, g (f i) = i /\ f (g i) = i.
(** Positions s..e are in non-decreasing order. *)
Definition sorted_on (s e : Z) (a : list R) : Prop := forall i j, s <= i -> i <= j -> j <= e -> (at_ a i <= at_ a j)%R.
(** [idx] lists 0..n-1, each once. *)
Definition index_perm (n : Z) (idx : list Z) : Prop :=
  zlen idx = n /\ (forall k, 0 <= k < n -> exists i, 0 <= i < n /\ zget idx i = Some k) /\
  (forall i, 0 <= i < n -> exists k, 0 <= k < n /\ zget idx i = Some k) /\
  (forall i j k, zget idx i = Some k -> zget idx j = Some k -> i = j).
