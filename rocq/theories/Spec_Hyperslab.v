(** * Specification vocabulary: row-major arrays and hyperslabs of any rank *)
From Verif Require Import Base.

(** Position of the element with index vector [idx] in a row-major array of
    shape [dims] (last index fastest). *)
Fixpoint rowmajor (dims idx : list Z) (acc : Z) : Z :=
  match dims, idx with
  | d :: dims', i :: idx' => rowmajor dims' idx' (acc * d + i)
  | _, _ => acc
  end.
Definition pos (dims idx : list Z) : Z := rowmajor dims idx 0.

(** [idx] is a valid index vector of an array of shape [dims]. *)
Definition valid (dims idx : list Z) : Prop := Forall2 (fun d i => 0 <= i < d) dims idx.

(** Number of elements of an array of shape [dims]. *)
Definition size (dims : list Z) : Z := fold_right Z.mul 1 dims.

(** Componentwise sum of index vectors. *)
Fixpoint vadd (a b : list Z) : list Z :=
  match a, b with x :: a', y :: b' => x + y :: vadd a' b' | _, _ => [] end.

(** The block [start, start+count) fits into shape [dims]. *)
Inductive block_in : list Z -> list Z -> list Z -> Prop :=
| bi_nil : block_in [] [] []
| bi_cons : forall d s c dims start count,
    0 <= s -> 0 <= c -> s + c <= d -> block_in dims start count ->
    block_in (d :: dims) (s :: start) (c :: count).

(** [out] is the block [start, start+count) of the row-major array [a] of shape
    [dims], itself in row-major order, and [out] has exactly the size of the block
    up to trailing elements [rest] that are left as in [before]. *)
Definition is_block {A} (dims start count : list Z) (a before out : list A) : Prop :=
  zlen out = zlen before
  /\ (forall idx, valid count idx -> zget out (pos count idx) = zget a (pos dims (vadd start idx)))
  /\ (forall p, size count <= p -> zget out p = zget before p).
