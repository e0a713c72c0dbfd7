(** * Specification of the interpolation to pressure levels

    A column is a list over the levels, the top level first; levels are counted from 1. *)
From Coq Require Export Reals.
From Verif Require Export Base.
Open Scope Z_scope.

(** The value at level k *)
Definition lv (l : list R) (k : Z) : R := nth (Z.to_nat (k - 1)) l 0%R.

(** Pressures at the boundaries of [nlev] layers: from the top down, strictly increasing, not negative *)
Definition good_half (nlev : Z) (ph : list R) : Prop :=
  1 <= nlev /\ zlen ph = nlev + 1 /\ (0 <= lv ph 1)%R /\ forall k, 1 <= k <= nlev -> (lv ph k < lv ph (k + 1))%R.

(** One pressure for each layer, inside the layer *)
Definition inside (nlev : Z) (ph pf : list R) : Prop :=
  zlen pf = nlev /\ forall k, 1 <= k <= nlev -> (lv ph k < lv pf k < lv ph (k + 1))%R.

(** [v] at pressure [p] lies on the straight line, in the logarithm of pressure, through
    the values at levels k and k+1 *)
Definition on_line (pf data : list R) (k : Z) (p v : R) : Prop :=
  ((v - lv data k) * (ln (lv pf (k + 1)) - ln (lv pf k)) = (lv data (k + 1) - lv data k) * (ln p - ln (lv pf k)))%R.

(** The value wanted at pressure [p], when the levels 1 ... kbot hold data.  Between levels: the line
    through both.  Above the first and below the last: the line through the first (last) two levels,
    followed for at most half the distance of these. *)
Definition interpolated (pf data : list R) (kbot : Z) (p v : R) : Prop :=
  (forall k, 1 <= k < kbot -> (lv pf k <= p <= lv pf (k + 1))%R -> on_line pf data k p v) /\
  ((p < lv pf 1)%R -> exists p', (0 < p')%R /\ on_line pf data 1 p' v /\
     ln p' = Rmax (ln p) (ln (lv pf 1) - (ln (lv pf 2) - ln (lv pf 1)) / 2))%R /\
  ((lv pf kbot < p)%R -> exists p', (0 < p')%R /\ on_line pf data (kbot - 1) p' v /\
     ln p' = Rmin (ln p) (ln (lv pf kbot) + (ln (lv pf kbot) - ln (lv pf (kbot - 1))) / 2))%R.

(** A column of [nlev] values that is missing exactly below level [kb] *)
Definition valid_to (nlev : Z) (missing : R) (col : list R) (kb : Z) : Prop :=
  zlen col = nlev /\ 0 <= kb <= nlev /\ forall k, 1 <= k <= nlev -> (lv col k = missing <-> kb < k).

(** Gas constant of dry air, gravity, lapse rate; virtual temperature *)
Definition Rd : R := 287.04.
Definition grav : R := 9.80.
Definition lapse : R := 0.0065.
Definition virtual (t q : R) : R := (t * (1 + (461.50 - 287.04) / 287.04 * q))%R.

(** The heights [z] of the levels are in hydrostatic balance with the virtual temperature of the layers,
    from the surface up *)
Definition hydrostatic (nlev : Z) (zsurf : R) (temp sphum ph pf z : list R) : Prop :=
  let tv k := virtual (lv temp k) (lv sphum k) in
  zlen z = nlev /\
  (grav * (lv z nlev - zsurf) = Rd * tv nlev * (ln (lv ph (nlev + 1)) - ln (lv pf nlev)))%R /\
  forall k, 1 <= k < nlev ->
    (grav * (lv z k - lv z (k + 1)) =
     Rd * (tv (k + 1)%Z * (ln (lv pf (k + 1)) - ln (lv ph (k + 1))) + tv k * (ln (lv ph (k + 1)) - ln (lv pf k))))%R.

(** [rh] is the relative humidity of air of humidity [q] at pressure [p], with saturation vapour pressure [es] *)
Definition rel_hum (es q p rh : R) : Prop := (q / (1 - q) = 287.04 / 461.50 * es / (p - es) * rh)%R.

(** Pressure at sea level (hPa) below a point at height [z] with surface pressure [ps], when the temperature
    changes with the lapse rate down from a level of pressure [p] and temperature [t] *)
Definition reduced (ps z t p v : R) : Prop :=
  let ts := (t * Rpower (p / ps) (- (Rd * lapse / grav)))%R in
  (100 * v = ps * Rpower (1 + lapse * z / ts) (grav / (Rd * lapse)))%R.

(** A column for which the sea level pressure makes sense: pressures, temperatures of the levels down to
    [kbot], which stay positive when continued with the lapse rate to sea level *)
Definition slp_column_ok (nlev kbot : Z) (z : R) (ph pf temp : list R) : Prop :=
  good_half nlev ph /\ inside nlev ph pf /\ zlen temp = nlev /\ 1 <= kbot <= nlev /\
  forall k, 1 <= k <= kbot -> (0 < lv temp k /\ 0 < lv temp k + lapse * z)%R.

(** The sea level pressure of a column: the surface pressure where the surface is at sea level, elsewhere reduced
    with the temperature of the first level (from the top) with more than 0.8 of the surface pressure *)
Definition sea_level (kbot : Z) (z : R) (ph pf temp : list R) (v : R) : Prop :=
  let ps := lv ph (kbot + 1) in
  ((Rabs z <= 0.0001)%R -> 100 * v = ps)%R /\
  ((0.0001 < Rabs z)%R -> exists k, 1 <= k <= kbot /\ (0.8 * ps < lv pf k)%R /\
     (forall j, 1 <= j < k -> (lv pf j <= 0.8 * ps)%R) /\
     reduced ps z (lv temp k) (lv pf k) v).
