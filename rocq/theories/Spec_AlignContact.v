(** * Vocabulary for contacts between tiles (C39) *)
From Coq Require Import Reals.
From Verif Require Import Base Spec_Interp M_AlignContact.
Open Scope Z_scope.

(** Two coordinates are equal (to 1e-10), possibly up to the period [p]. *)
Definition same_coord (p a b : R) : Prop :=
  (Rabs (a - b) < / 10000000000)%R \/ (Rabs (Rabs (a - b) - p) < / 10000000000)%R.

(** Point [i1] of the first edge and point [i2] of the second are the same place. *)
Definition meets (x1 y1 x2 y2 : list R) (px py : R) (i1 i2 : Z) : Prop :=
  same_coord px (at_ x1 i1) (at_ x2 i2) /\ same_coord py (at_ y1 i1) (at_ y2 i2).

(** The cells s..e (from one) of an edge lie between its points p and q (from zero), in
    the direction from p to q. *)
Definition cells_between (p q s e : Z) : Prop := (p < q /\ s = p + 1 /\ e = q) \/ (q < p /\ s = p /\ e = q + 1).

(** Lexicographic order of index pairs *)
Definition before2 (a b c d : Z) : Prop := a < c \/ (a = c /\ b < d).

(** Edges of a tile with nx by ny points: the number of points, and where point [k] is. *)
Definition edge_size (e : edge) (nx ny : Z) : Z := match e with West | East => ny | _ => nx end.
Definition edge_point (e : edge) (nx ny k : Z) : Z :=
  match e with West => k * nx | East => k * nx + nx - 1 | South => k | North => (ny - 1) * nx + k end.
(** The tile's cells along an edge: ranges of i and j (from one). *)
Definition edge_cells (e : edge) (nx ny s t is ie js je : Z) : Prop :=
  match e with
  | West => is = 1 /\ ie = 1 /\ js = s /\ je = t
  | East => is = nx - 1 /\ ie = nx - 1 /\ js = s /\ je = t
  | South => is = s /\ ie = t /\ js = 1 /\ je = 1
  | North => is = s /\ ie = t /\ js = ny - 1 /\ je = ny - 1
  end.
Definition tile_meets (e1 e2 : edge) (nx1 ny1 nx2 ny2 : Z) (x1 y1 x2 y2 : list R) (px py : R) (i1 i2 : Z) : Prop :=
  same_coord px (at_ x1 (edge_point e1 nx1 ny1 i1)) (at_ x2 (edge_point e2 nx2 ny2 i2)) /\
  same_coord py (at_ y1 (edge_point e1 nx1 ny1 i1)) (at_ y2 (edge_point e2 nx2 ny2 i2)).

(** The pairs of edges that make_solo_mosaic looks at (see its comment at
    make_solo_mosaic.c:219-221) with the periods it allows there. *)
Definition considered (same_tile : bool) (periodx periody : R) : list (edge * edge * R * R) :=
  if same_tile then [(East, West, periodx, 0%R); (South, North, 0%R, periody)]
  else [(East, West, periodx, 0%R); (East, South, 0%R, 0%R); (South, North, 0%R, periody); (South, East, 0%R, 0%R);
        (West, East, periodx, 0%R); (West, North, 0%R, 0%R); (North, South, 0%R, periody); (North, West, 0%R, 0%R)].

(** The points that meet are matched one to one along n cells, forwards (s=1) or
    backwards (s=-1), from point [a] and point [b] on. *)
Definition matched (n1 n2 : Z) (M : Z -> Z -> Prop) (a b n s : Z) : Prop :=
  forall i1 i2, 0 <= i1 < n1 -> 0 <= i2 < n2 -> (M i1 i2 <-> exists k, 0 <= k <= n /\ i1 = a + k /\ i2 = b + s * k).

(** Fold of the northern edge: point i and point nx-1-i *)
Definition fold_same (x y : list R) (nx i : Z) : Prop :=
  (Rabs (at_ y i - at_ y (nx - 1 - i)) <= / 10000000)%R /\
  ((Rabs (at_ x i - at_ x (nx - 1 - i)) <= / 10000000)%R \/
   (Rabs (Rabs (at_ x i - at_ x (nx - 1 - i)) - 360) <= / 10000000)%R).
Definition fold_opposite (x y : list R) (nx i : Z) : Prop :=
  (Rabs (at_ y i - at_ y (nx - 1 - i)) <= / 10000000)%R /\
  (Rabs (Rabs (at_ x i - at_ x (nx - 1 - i)) - 180) < / 10000000)%R.

From Verif Require Import M_Contact.
(** The contact [k] runs along edge [e1] of the first tile from point p1 to point q1 and
    along edge [e2] of the second tile from point p2 to point q2. *)
Definition contact_along (e1 e2 : edge) (nx1 ny1 nx2 ny2 : Z) (k : contact) (p1 q1 p2 q2 : Z) : Prop :=
  exists s1 t1 s2 t2, cells_between p1 q1 s1 t1 /\ cells_between p2 q2 s2 t2 /\
    edge_cells e1 nx1 ny1 s1 t1 (k_is1 k) (k_ie1 k) (k_js1 k) (k_je1 k) /\
    edge_cells e2 nx2 ny2 s2 t2 (k_is2 k) (k_ie2 k) (k_js2 k) (k_je2 k).
