(** The Schmidt transformation: stretching from the south pole, and turning the south pole to
    a target. *)
From Coq Require Import Reals.
From Verif Require Import Spec_Gnomonic.
Open Scope R_scope.

Definition vec : Type := (R * R * R)%type.
Definition plus (u v : vec) : vec := let '(x, y, z) := u in let '(x', y', z') := v in (x + x', y + y', z + z').
Definition cross (u v : vec) : vec :=
  let '(x, y, z) := u in let '(x', y', z') := v in (y * z' - z * y', z * x' - x * z', x * y' - y * x').

(** The unit vector to a longitude and latitude, and those to the east and north there. *)
Definition unit (lon lat : R) : vec := (cos lat * cos lon, cos lat * sin lon, sin lat).
Definition east (lon lat : R) : vec := (- sin lon, cos lon, 0).
Definition north (lon lat : R) : vec := (- sin lat * cos lon, - sin lat * sin lon, cos lat).

(** [lat'] is the latitude [lat] stretched by [c]: half the distance from the south pole has
    its tangent divided by [c] (C84_stretch puts it in terms of this tangent). *)
Definition stretched_lat (c lat lat' : R) : Prop :=
  - (PI / 2) <= lat' <= PI / 2
  /\ (1 + sin lat') * (c * c * (1 - sin lat)) = (1 + sin lat) * (1 - sin lat').

(** The turn that takes the south pole to a target; [up] is 1 or -1, and says whether the
    meridian 0 arrives there from the north or from the south. *)
Definition turn (up lon_p lat_p : R) (v : vec) : vec :=
  let '(x, y, z) := v in
  plus (scale (up * x) (north lon_p lat_p))
    (plus (scale (up * y) (east lon_p lat_p)) (scale (- z) (unit lon_p lat_p))).
