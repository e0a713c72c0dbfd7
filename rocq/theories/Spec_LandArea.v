(** Land of the exchange grid in and beside a domain (C90). *)
From Coq Require Import String Reals.
From Verif Require Import Base Str M_LandDomain Spec_Interp Spec_Supergrid Spec_LandDomain Spec_LandMask.
Open Scope list_scope. Open Scope Z_scope.

(** The paths of the exchange files tell their faces: <mosaic>_tile<n> occurs in the path just
    for the file's own face. *)
Definition paths_tell (d : land_input) (dir : str) (owner : str * list lcell -> Z) : Prop :=
  forall f, In f (d_files d) -> forall face, 0 <= face < 6 ->
    (occurs (d_mosaic d ++ chars "_tile" ++ print_int 0 (face + 1)) (dir ++ chars "/" ++ fst f) <-> owner f = face).

(** Columns [ib..ie], rows [jb..je] of face [t] or the cells round them have a positive area of
    exchange cells. *)
Definition has_land_area (d : land_input) owner (t ib ie jb je : Z) : Prop :=
  exists j i t' j' i', jb - 1 <= j <= je + 1 /\ ib - 1 <= i <= ie + 1
    /\ stands_for (d_nx d) t j i t' j' i' /\ Spec_LandDomain.is_land d owner t' (j' * d_nx d + i').
