(** * Vocabulary for runoff remapping (C40, C41) *)
From Coq Require Import Reals.
From Verif Require Import Base M_Interp Spec_Interp.
Open Scope Z_scope.

(** Straight-line distance between two points of the unit sphere *)
Definition chord (lon1 lat1 lon2 lat2 : R) : R :=
  sqrt ((cos lat1 * cos lon1 - cos lat2 * cos lon2) ^ 2 + (cos lat1 * sin lon1 - cos lat2 * sin lon2) ^ 2
        + (sin lat1 - sin lat2) ^ 2)%R.
(** Cell [n] is ocean / land. *)
Definition ocean (mask : list R) (n : Z) : Prop := at_ mask n <> 0%R.
Definition land (mask : list R) (n : Z) : Prop := at_ mask n = 0%R.

(** [n] is the ocean point nearest to (plon,plat), the first one in scan order if
    several are equally near. *)
Definition nearest_ocean (N : Z) (mask lon lat : list R) (plon plat : R) (n : Z) : Prop :=
  0 <= n < N /\ ocean mask n /\
  (forall m, 0 <= m < N -> ocean mask m -> (chord plon plat (at_ lon n) (at_ lat n) <= chord plon plat (at_ lon m) (at_ lat m))%R) /\
  (forall m, 0 <= m < n -> ocean mask m -> (chord plon plat (at_ lon n) (at_ lat n) < chord plon plat (at_ lon m) (at_ lat m))%R).

(** What the exchange grid brings to output cell [l] *)
Definition arriving (nx_in nx_out : Z) (xg : list xcell) (data_in : list R) (l : Z) : R :=
  rsum (fun c => at_ data_in (source nx_in c) * x_area c)%R (covering nx_out xg l).
(** Indices of the exchange grid are inside both grids. *)
Definition xg_inside (nxs nys nxd nyd : Z) (xg : list xcell) : Prop :=
  forall c, In c xg -> 0 <= x_i1 c < nxs /\ 0 <= x_j1 c < nys /\ 0 <= x_i2 c < nxd /\ 0 <= x_j2 c < nyd.
(** Every land cell has a target, an ocean cell of the grid. *)
Definition targets_ok (nx ny : Z) (mask : list R) (imap jmap : list Z) : Prop :=
  forall l, 0 <= l < nx * ny -> land mask l ->
    exists i j, zget imap l = Some i /\ zget jmap l = Some j /\ 0 <= i < nx /\ 0 <= j < ny /\ ocean mask (j * nx + i).
