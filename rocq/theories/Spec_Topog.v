(** * Vocabulary for make_topog: smoothing, levels, neighbours *)
From Verif Require Import Base Grid2 M_Interp M_Topog Spec_Interp.
Local Open Scope R_scope.

(** ** Smoothing *)

(** A cell is ocean for the filter if its depth is not 0. *)
Definition wet (D : Z -> Z -> R) (x y : Z) : bool := if Req_EM_T (D x y) 0 then false else true.

(** Away from the border of the nx x ny grid. *)
Definition inside (nx ny x y : Z) : bool :=
  ((1 <=? x) && (x <? nx - 1) && (1 <=? y) && (y <? ny - 1))%Z.

(** One pass of the two-dimensional Shapiro filter, weights 1/4 for the cell itself, 1/8 for the four
    side neighbours and 1/16 for the four corner neighbours; a land neighbour counts with the depth of
    the cell itself.  [M] says which cells are ocean. *)
Definition shapiro (M : Z -> Z -> bool) (D : Z -> Z -> R) (x y : Z) : R :=
  let nb dx dy := if M (x + dx)%Z (y + dy)%Z then D (x + dx)%Z (y + dy)%Z else D x y in
  1/4 * D x y
  + 1/8 * (nb 1%Z 0%Z + nb (-1)%Z 0%Z + nb 0%Z 1%Z + nb 0%Z (-1)%Z)
  + 1/16 * (nb 1%Z 1%Z + nb 1%Z (-1)%Z + nb (-1)%Z 1%Z + nb (-1)%Z (-1)%Z).

(** A pass changes the ocean cells away from the border, and only makes them shallower unless
    deepening is allowed. *)
Definition smooth (nx ny : Z) (allow : bool) (M : Z -> Z -> bool) (D : Z -> Z -> R) (x y : Z) : R :=
  if inside nx ny x y && M x y then
    let v := shapiro M D x y in if allow then v else Rmin v (D x y)
  else D x y.

Definition smoothed (nx ny : Z) (allow : bool) (n : nat) (D : Z -> Z -> R) : Z -> Z -> R :=
  Nat.iter n (smooth nx ny allow (wet D)) D.

(** ** Levels *)

(** [zw] holds the depths of the bottoms of the model layers.  A column of depth [h] has [n] layers: none
    if it is land, else the layer that contains the depth is the last one. *)
Definition layers (zw : list R) (h : R) (n : Z) : Prop :=
  (h <= 0 /\ n = 0%Z)
  \/ (0 < h /\ (1 <= n <= zlen zw)%Z /\ ((1 < n)%Z -> at_ zw (n - 2) < h) /\ h <= at_ zw (n - 1)).

(** The smallest thickness allowed for the bottom layer of a column of [n] >= 2 layers. *)
Definition thin_limit (zw : list R) (min_thickness fraction : R) (n : Z) : R :=
  if Req_EM_T fraction 0 then Rmin 50 (at_ zw 0)
  else Rmax (fraction * (at_ zw (n - 1) - at_ zw (n - 2))) min_thickness.

(** ** Neighbours across the border of the grid *)

(** The cell that is found at position (x,y), at most one cell off the grid; None is land. *)
Definition place (ni nj : Z) (tripolar cyclic_x cyclic_y : bool) (x y : Z) : option (Z * Z) :=
  let px := if (x <? 0)%Z then (if cyclic_x then Some (ni - 1)%Z else None)
            else if (ni <=? x)%Z then (if cyclic_x then Some 0%Z else None) else Some x in
  match px with
  | None => None
  | Some x =>
    if (y <? 0)%Z then (if negb tripolar && cyclic_y then Some (x, nj - 1)%Z else None)
    else if (nj <=? y)%Z then
      (if tripolar then Some (ni - 1 - x, nj - 1)%Z else if cyclic_y then Some (x, 0%Z) else None)
    else Some (x, y)
  end.

(** Levels on the grid and one cell around it. *)
Definition around (ni nj : Z) (tripolar cyclic_x cyclic_y : bool) (K : Z -> Z -> Z) (x y : Z) : Z :=
  match place ni nj tripolar cyclic_x cyclic_y x y with Some (a, b) => K a b | None => 0%Z end.

(** The corner (sx,sy) of a cell: the three cells that share it with the cell have at least n levels. *)
Definition corner_open (W : Z -> Z -> Z) (x y sx sy n : Z) : Prop :=
  (n <= W (x + sx) y /\ n <= W x (y + sy) /\ n <= W (x + sx) (y + sy))%Z.

(** Some corner of the cell is surrounded by columns of at least n levels, so that there is a velocity
    point at every level: the cell is not isolated at any level. *)
Definition supported (W : Z -> Z -> Z) (x y n : Z) : Prop :=
  exists sx sy, (sx = 1 \/ sx = -1)%Z /\ (sy = 1 \/ sy = -1)%Z /\ corner_open W x y sx sy n.

(** ** Runs of process_topo *)

(** The depths of the layer bottoms: at least two layers, increasing, below the surface. *)
Definition vertical_grid (zw : list R) : Prop := (2 <= zlen zw)%Z /\ increasing zw /\ 0 < at_ zw 0.

(** At most one of --round_shallow, --fill_shallow and --deepen_shallow. *)
Definition one_rule (o : options) : Prop := (Z.b2z (o_round o) + Z.b2z (o_fill o) + Z.b2z (o_deepen o) <= 1)%Z.

(** The smallest thickness allowed for a bottom layer is positive and not more than the layer. *)
Definition thickness_ok (zw : list R) (o : options) : Prop :=
  forall n, (2 <= n <= zlen zw)%Z ->
    0 < thin_limit zw (o_min_thickness o) (o_fraction o) n <= at_ zw (n - 1) - at_ zw (n - 2).

(** Every processor, whatever part isc..iec x jsc..jec of the grid it owns, gets depth [H] and levels [N] there. *)
Definition gives (ni nj : Z) (zw : list R) (o : options) (tmp : list R) (H : Z -> Z -> R) (N : Z -> Z -> Z) : Prop :=
  forall isc iec jsc jec, (0 <= isc <= iec)%Z -> (iec < ni)%Z -> (0 <= jsc <= jec)%Z -> (jec < nj)%Z ->
  exists depth levels, process_topo ni nj (zlen zw) zw o isc iec jsc jec tmp = Ok (depth, levels)
    /\ fields depth (iec - isc + 1) (jec - jsc + 1) (fun x y => H (isc + x) (jsc + y))%Z
    /\ fields levels (iec - isc + 1) (jec - jsc + 1) (fun x y => N (isc + x) (jsc + y))%Z.

(** The same options with --dont_adjust_topo. *)
Definition unadjusted (o : options) : options :=
  {| o_tripolar := o_tripolar o; o_cyclic_x := o_cyclic_x o; o_cyclic_y := o_cyclic_y o; o_full := o_full o; o_flat := o_flat o;
     o_adjust := false; o_fill_isolated := o_fill_isolated o; o_min_thickness := o_min_thickness o; o_open_thin := o_open_thin o;
     o_fraction := o_fraction o; o_round := o_round o; o_deepen := o_deepen o; o_fill := o_fill o; o_keep_mask := o_keep_mask o;
     o_kmt_min := o_kmt_min o |}.

(** The cells that are examined for isolation: on a tripolar grid the folded row is left out. *)
Definition examined (nj : Z) (o : options) (y : Z) : Prop := (y < nj - Z.b2z (o_tripolar o))%Z.

(** The same options with --kmt_min m. *)
Definition with_kmt_min (o : options) (m : Z) : options :=
  {| o_tripolar := o_tripolar o; o_cyclic_x := o_cyclic_x o; o_cyclic_y := o_cyclic_y o; o_full := o_full o; o_flat := o_flat o;
     o_adjust := o_adjust o; o_fill_isolated := o_fill_isolated o; o_min_thickness := o_min_thickness o; o_open_thin := o_open_thin o;
     o_fraction := o_fraction o; o_round := o_round o; o_deepen := o_deepen o; o_fill := o_fill o; o_keep_mask := o_keep_mask o;
     o_kmt_min := m |}.
