(** * Vocabulary for the regridding of vector fields (C63) *)
From Coq Require Import Reals.
From Verif Require Import Base M_Fregrid M_Vector.
From Verif Require Export Spec_Interp.
Local Open Scope R_scope.

(** Eastward and northward components of the vector with components (x, y) along axes turned by the angle with cosine
    [c] and sine [s]. *)
Definition east (c s x y : R) : R := x * c - y * s.
Definition north (c s x y : R) : R := x * s + y * c.

Definition no_vtile : vtile := MkVtile 0 0 (MkRot [] [] false) [] [].
Definition vsrc (T : list vtile) (c : xc) : vtile := nth (Z.to_nat (x_t c)) T no_vtile.
(** The number of the input cell and of the output cell of an exchange cell. *)
Definition vfrom (T : list vtile) (c : xc) : Z := (x_j c * v_nx (vsrc T c) + x_i c)%Z.
Definition vto (o : vout) (c : xc) : Z := (x_jo c * w_nx o + x_io c)%Z.
(** Components in the input. *)
Definition in_u (T : list vtile) (c : xc) : R := at_ (v_u (vsrc T c)) (vfrom T c).
Definition in_v (T : list vtile) (c : xc) : R := at_ (v_v (vsrc T c)) (vfrom T c).
Definition in_east (T : list vtile) (c : xc) : R := east (at_ (r_cos (v_rot (vsrc T c))) (vfrom T c)) (at_ (r_sin (v_rot (vsrc T c))) (vfrom T c)) (in_u T c) (in_v T c).
Definition in_north (T : list vtile) (c : xc) : R := north (at_ (r_cos (v_rot (vsrc T c))) (vfrom T c)) (at_ (r_sin (v_rot (vsrc T c))) (vfrom T c)) (in_u T c) (in_v T c).
(** The exchange cells over output cell [n] with both components valid. *)
Definition vused (missing : R) (T : list vtile) (o : vout) (n : Z) : list xc :=
  filter (fun c => (vto o c =? n)%Z && (if Req_EM_T (in_u T c) missing then false else if Req_EM_T (in_v T c) missing then false else true)) (w_xgrid o).
(** Area-weighted mean. *)
Definition vmean (f : xc -> R) (l : list xc) : R := rsum (fun c => x_a c * f c) l / rsum x_a l.

(** The angles are those of [n] cells; the switch is only off if no cell is turned. *)
Definition wf_rotation (r : rotation) (n : Z) : Prop :=
  zlen (r_cos r) = n /\ zlen (r_sin r) = n
  /\ (forall i, (0 <= i < n)%Z -> at_ (r_cos r) i ^ 2 + at_ (r_sin r) i ^ 2 = 1)
  /\ (r_on r = false -> forall i, (0 <= i < n)%Z -> at_ (r_cos r) i = 1 /\ at_ (r_sin r) i = 0).
Definition wf_vtile (t : vtile) : Prop :=
  (0 <= v_nx t)%Z /\ (0 <= v_ny t)%Z /\ zlen (v_u t) = (v_nx t * v_ny t)%Z /\ zlen (v_v t) = (v_nx t * v_ny t)%Z /\ wf_rotation (v_rot t) (v_nx t * v_ny t).
Definition wf_vout (T : list vtile) (o : vout) : Prop :=
  (0 <= w_nx o)%Z /\ (0 <= w_ny o)%Z /\ wf_rotation (w_rot o) (w_nx o * w_ny o)
  /\ forall c, In c (w_xgrid o) -> (0 <= x_t c < zlen T)%Z /\ (0 <= x_i c < v_nx (vsrc T c))%Z /\ (0 <= x_j c < v_ny (vsrc T c))%Z
       /\ (0 <= x_io c < w_nx o)%Z /\ (0 <= x_jo c < w_ny o)%Z /\ 0 < x_a c.
(** The missing value is larger in size than every valid vector. *)
Definition smaller (missing : R) (t : vtile) : Prop :=
  forall i, (0 <= i < v_nx t * v_ny t)%Z -> at_ (v_u t) i <> missing -> at_ (v_v t) i <> missing -> Rabs (at_ (v_u t) i) + Rabs (at_ (v_v t) i) < Rabs missing.
