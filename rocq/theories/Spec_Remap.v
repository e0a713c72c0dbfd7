(** * Vocabulary for setting up and saving the exchange grid (C59, C60) *)
From Verif Require Import Base M_Fregrid M_Remap.
From Verif Require Export Spec_Fregrid.
Local Open Scope R_scope.

(** ** Setting up (C59) *)
(** All pieces cut from cell (i, j) of input tile [q], on all processors and for all output tiles. *)
Definition pieces (clip : Z -> Z -> Z -> list pc) (npes nout q j i : Z) : list pc :=
  flat_map (fun n => flat_map (fun r => filter (fun p => (c_j p =? j)%Z && (c_i p =? i)%Z) (clip r n q)) (zseq 0 npes)) (zseq 0 nout).
Definition covered (clip : Z -> Z -> Z -> list pc) (npes nout q j i : Z) : R := rsum c_a (pieces clip npes nout q j i).
(** The pieces fill the cell, up to a thousandth of its area. *)
Definition filled (clip : Z -> Z -> Z -> list pc) (npes nout : Z) (T : list tile) (q j i : Z) : Prop :=
  0 < covered clip npes nout q j i
  /\ Rabs (covered clip npes nout q j i - cell_area T q j i) / cell_area T q j i < 1 / 1000.
(** The pieces lie in cells of the input and have an area. *)
Definition wf_clip (clip : Z -> Z -> Z -> list pc) (npes nout : Z) (T : list tile) : Prop :=
  (forall t, In t T -> (0 < t_nx t /\ 0 < t_ny t /\ zlen (t_cell t) = t_nx t * t_ny t)%Z)
  /\ forall r n q p, (0 <= r < npes)%Z -> (0 <= n < nout)%Z -> (0 <= q < zlen T)%Z -> In p (clip r n q) ->
       (0 <= c_j p < t_ny (tile_at T q))%Z /\ (0 <= c_i p < t_nx (tile_at T q))%Z /\ 0 < c_a p.
(** The exchange cell made from a piece, whatever its offsets. *)
Definition made_from (q : Z) (p : pc) (c : xc) : Prop :=
  x_t c = q /\ x_i c = c_i p /\ x_j c = c_j p /\ x_io c = c_io p /\ x_jo c = c_jo p /\ x_a c = c_a p.
(** [c] is the offset of the centroid of piece [p] from the point ([x], [y]). *)
Definition offset_from (p : pc) (x y : R) (c : xc) : Prop := x_di c = c_lon p / c_a p - x /\ x_dj c = c_lat p / c_a p - y.

(** ** Remap files (C60) *)
(** The exchange cell with the indices of the whole output tile. *)
Definition placed (isc jsc : Z) (c : xc) : xc := MkXc (x_t c) (x_i c) (x_j c) (x_io c + isc) (x_jo c + jsc) (x_a c) (x_di c) (x_dj c).
Definition inside (isc iec jsc jec : Z) (c : xc) : bool := ((isc <=? x_io c) && (x_io c <=? iec) && (jsc <=? x_jo c) && (x_jo c <=? jec))%Z.
(** All exchange cells of an output tile, processor after processor. *)
Definition whole (ranks : list part) : list xc := flat_map (fun r => map (placed (s_isc r) (s_jsc r)) (s_cells r)) ranks.
(** First-order exchange cells have no offsets. *)
Definition has_offsets (order2 : bool) (ranks : list part) : Prop :=
  order2 = false -> forall r c, In r ranks -> In c (s_cells r) -> x_di c = 0 /\ x_dj c = 0.
