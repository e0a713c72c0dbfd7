(** * Vocabulary for C54 *)
From Coq Require Import Reals.
From Verif Require Import Base Spec_Interp.
Local Open Scope R_scope.
(** [turns i] full turns (of [period]) added to vertex i unroll the polygon with the [n] longitudes
    [lon]: the first vertex stays, every vertex is moved by at most one turn, and
    neighbouring vertices then are less than half a turn apart *)
Definition unrolls (period : R) (n : Z) (lon : Z -> R) (turns : Z -> Z) : Prop :=
  turns 0%Z = 0%Z /\ (forall i, (0 <= i < n)%Z -> (-1 <= turns i <= 1)%Z) /\
  forall i, (1 <= i < n)%Z -> Rabs ((lon i + period * IZR (turns i)) - (lon (i - 1)%Z + period * IZR (turns (i - 1)%Z))) < period / 2.
(** The mean of [f 0], ..., [f (n-1)] *)
Definition mean_of (n : Z) (f : Z -> R) : R := rsum f (zseq 0 n) / IZR n.
(** A common shift by [s] turns, at most one, that brings a polygon whose mean is [m] near
    [tlon]: none if it is within half a turn, and within half a turn after the shift if
    it was within one and a half *)
Definition recentres (period m tlon : R) (s : Z) : Prop :=
  (-1 <= s <= 1)%Z /\ (Rabs (m - tlon) <= period / 2 -> s = 0%Z) /\
  (Rabs (m - tlon) <= 3 * (period / 2) -> Rabs (m + period * IZR s - tlon) <= period / 2).
