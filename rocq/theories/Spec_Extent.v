(** * Specification vocabulary for 1-D decompositions (independent of the model) *)
From Verif Require Import Base.

(** [b] and [e] are the first and last point of division [j]. *)
Definition division (ib ie : list Z) (j b e : Z) : Prop :=
  zget ib j = Some b /\ zget ie j = Some e.

(** The [ndivs] divisions are non-empty intervals, in order, contiguous, the
    first starts at 0, the last ends at [npts-1], and every point belongs to
    exactly one of them. *)
Definition tiles (npts ndivs : Z) (ib ie : list Z) : Prop :=
  (forall j, 0 <= j < ndivs -> exists b e, division ib ie j b e /\ 0 <= b <= e /\ e < npts)
  /\ (exists e, division ib ie 0 0 e)
  /\ (exists b, division ib ie (ndivs - 1) b (npts - 1))
  /\ (forall j b e b' e', 0 <= j -> j + 1 < ndivs ->
        division ib ie j b e -> division ib ie (j + 1) b' e' -> b' = e + 1)
  /\ (forall x, 0 <= x < npts ->
        exists! j, 0 <= j < ndivs /\ exists b e, division ib ie j b e /\ b <= x <= e).

(** The sizes for which the documentation promises a mirror-symmetric
    decomposition (mpp_domain.c:88-99): same parity, or an odd number of
    divisions of an even number of points with fewer than npts/2 divisions. *)
Definition mirror_class (npts ndivs : Z) : Prop :=
  npts mod 2 = ndivs mod 2 \/ (ndivs mod 2 = 1 /\ npts mod 2 = 0 /\ ndivs < npts / 2).
