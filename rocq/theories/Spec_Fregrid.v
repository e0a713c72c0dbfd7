(** * Vocabulary for conservative regridding (C57 - C59) *)
From Coq Require Export Reals.
From Verif Require Import Base M_Fregrid.
From Verif Require Export Spec_Interp.
Local Open Scope R_scope.

(** ** What an exchange cell is *)
Definition no_tile : tile := MkTile 0 0 [] [] [] [] [] [] [].
(** The input tile an exchange cell lies in, and the number of its input cell in that tile. *)
Definition src (T : list tile) (c : xc) : tile := nth (Z.to_nat (x_t c)) T no_tile.
Definition src_cell (T : list tile) (c : xc) : Z := (x_j c * t_nx (src T c) + x_i c)%Z.
(** The number of its output cell. *)
Definition dst_cell (o : otile) (c : xc) : Z := (x_jo c * o_nx o + x_io c)%Z.
(** The value of input cell (i, j) of a tile at level [k]: second-order input has a halo of one point. *)
Definition cell_mean (m : method) (t : tile) (k j i : Z) : R :=
  match m with
  | Order1 => at_ (t_data t) (k * (t_nx t * t_ny t) + j * t_nx t + i)
  | _ => at_ (t_data t) (k * ((t_nx t + 2) * (t_ny t + 2)) + (j + 1) * (t_nx t + 2) + i + 1)
  end.
Definition in_value (m : method) (T : list tile) (c : xc) (k : Z) : R := cell_mean m (src T c) k (x_j c) (x_i c).
(** Is the gradient of this input cell switched off (only fields with missing values have the mask)? *)
Definition masked (p : opts) (t : tile) (n : Z) : bool :=
  match p_missing p with None => false | Some _ => negb (nth (Z.to_nat n) (t_gmask t) 0%Z =? 0)%Z end.
(** The value the method gives to an exchange cell. *)
Definition x_value (m : method) (p : opts) (T : list tile) (c : xc) (k : Z) : R :=
  match m with
  | Order1 => in_value m T c k
  | _ => let t := src T c in let n := (k * (t_nx t * t_ny t) + src_cell T c)%Z in
         if masked p t n then in_value m T c k
         else in_value m T c k + (at_ (t_gx t) n * x_di c + at_ (t_gy t) n * x_dj c)
  end.
(** The weight of an input cell per unit of area: optional weight field; 1/area for sums; fraction of
    the cell for a field with cell measures. *)
Definition per_area (p : opts) (t : tile) (n : Z) : R :=
  (if p_weight p then at_ (t_weight t) n else 1)
  * (if p_sum p then / at_ (t_cell t) n else if p_measures p then at_ (t_frac t) n / at_ (t_cell t) n else 1).
Definition x_weight (p : opts) (T : list tile) (c : xc) : R := x_a c * per_area p (src T c) (src_cell T c).
(** A value that is not the missing value. *)
Definition valid (p : opts) (v : R) : bool :=
  match p_missing p with None => true | Some mv => if Req_EM_T v mv then false else true end.
(** What is written where there is nothing to write. *)
Definition fill (p : opts) : R := match p_missing p with Some mv => mv | None => - (10 ^ 20) end.

(** ** The cells over an output cell *)
Definition over (o : otile) (n : Z) : list xc := filter (fun c => (dst_cell o c =? n)%Z) (o_xgrid o).
Definition used (m : method) (p : opts) (T : list tile) (o : otile) (n : Z) : list xc :=
  filter (fun c => valid p (in_value m T c 0)) (over o n).

(** ** Inputs that describe a grid: indices and lengths fit *)
Definition wf_tile (m : method) (p : opts) (t : tile) : Prop :=
  (0 < t_nx t /\ 0 < t_ny t
   /\ zlen (t_cell t) = t_nx t * t_ny t
   /\ (p_weight p = true -> zlen (t_weight t) = t_nx t * t_ny t)
   /\ (p_measures p = true -> zlen (t_frac t) = t_nx t * t_ny t)
   /\ match m with
      | Order1 => zlen (t_data t) = p_nz p * (t_nx t * t_ny t)
      | _ => zlen (t_data t) = p_nz p * ((t_nx t + 2) * (t_ny t + 2))
             /\ zlen (t_gx t) = p_nz p * (t_nx t * t_ny t) /\ zlen (t_gy t) = p_nz p * (t_nx t * t_ny t)
             /\ zlen (t_gmask t) = p_nz p * (t_nx t * t_ny t)
      end)%Z.
Definition wf_cell (T : list tile) (o : otile) (c : xc) : Prop :=
  (0 <= x_t c < zlen T /\ 0 <= x_i c < t_nx (src T c) /\ 0 <= x_j c < t_ny (src T c)
   /\ 0 <= x_io c < o_nx o /\ 0 <= x_jo c < o_ny o)%Z.
Definition wf (m : method) (p : opts) (T : list tile) (O : list otile) : Prop :=
  (1 <= p_nz p)%Z
  /\ ((1 < p_nz p)%Z -> p_missing p = None /\ p_measures p = false /\ p_sum p = false)
  /\ (forall t, In t T -> wf_tile m p t)
  /\ (forall o, In o O -> (0 <= o_nx o)%Z /\ (0 <= o_ny o)%Z /\ zlen (o_cell o) = (o_nx o * o_ny o)%Z
       /\ forall c, In c (o_xgrid o) -> wf_cell T o c).
(** A field with cell measures and missing values has an area wherever it has a value. *)
Definition areas_known (m : method) (p : opts) (T : list tile) (O : list otile) : Prop :=
  p_measures p = true -> p_sum p = false -> p_missing p <> None ->
  forall o c, In o O -> In c (o_xgrid o) -> valid p (in_value m T c 0) = true ->
    at_ (t_frac (src T c)) (src_cell T c) <> p_area_missing p.

(** ** The value every output cell should get *)
(** Weighted sum and total weight of the valid values over output cell [n], level [k]. *)
Definition total (m : method) (p : opts) (T : list tile) (o : otile) (k n : Z) : R :=
  rsum (fun c => x_weight p T c * x_value m p T c k) (used m p T o n).
Definition weight_on (m : method) (p : opts) (T : list tile) (o : otile) (n : Z) : R :=
  rsum (x_weight p T) (used m p T o n).
(** The area over output cell [n] on the input side: all exchange cells, valid or not. *)
Definition area_on (p : opts) (T : list tile) (o : otile) (n : Z) : R :=
  rsum (fun c => if p_measures p then x_a c * at_ (t_frac (src T c)) (src_cell T c) / at_ (t_cell (src T c)) (src_cell T c) else x_a c) (over o n).
Definition remapped (m : method) (p : opts) (T : list tile) (o : otile) (k n : Z) : R :=
  match used m p T o n with
  | [] => fill p
  | _ =>
    if p_sum p then (if Req_EM_T (weight_on m p T o n) 0 then 0 else total m p T o k n)
    else let r := if Rlt_dec 0 (weight_on m p T o n) then total m p T o k n / weight_on m p T o n else 0 in
         if p_target p then (if Req_EM_T r (fill p) then r else r * (area_on p T o n / at_ (o_cell o) n)) else r
  end.
(** ** Quantities carried by the input *)
Definition tile_at (T : list tile) (q : Z) : tile := nth (Z.to_nat q) T no_tile.
Definition all_cells (O : list otile) : list xc := flat_map o_xgrid O.
(** The exchange cells cut out of input cell (i, j) of tile [q]. *)
Definition from (O : list otile) (q j i : Z) : list xc :=
  filter (fun c => (x_t c =? q)%Z && (x_j c =? j)%Z && (x_i c =? i)%Z) (all_cells O).
Definition input_cell (T : list tile) (q j i : Z) : Prop :=
  (0 <= q < zlen T /\ 0 <= j < t_ny (tile_at T q) /\ 0 <= i < t_nx (tile_at T q))%Z.
Definition cell_area (T : list tile) (q j i : Z) : R := at_ (t_cell (tile_at T q)) (j * t_nx (tile_at T q) + i).
(** The output covers the input: the pieces of every input cell add up to the cell. *)
Definition complete (T : list tile) (O : list otile) : Prop :=
  forall q j i, input_cell T q j i -> rsum x_a (from O q j i) = cell_area T q j i.
(** The offsets of the pieces from the centre of the cell average to nothing. *)
Definition centred (T : list tile) (O : list otile) : Prop :=
  forall q j i, input_cell T q j i ->
    rsum (fun c => x_a c * x_di c) (from O q j i) = 0 /\ rsum (fun c => x_a c * x_dj c) (from O q j i) = 0.
(** What input cell (i, j) of tile [q] holds: value times weight times (area, measured area, or 1 for
    a field that is already a sum). *)
Definition holds (m : method) (p : opts) (T : list tile) (k q j i : Z) : R :=
  let t := tile_at T q in let n := (j * t_nx t + i)%Z in let v := cell_mean m t k j i in
  if valid p v then
    v * (if p_weight p then at_ (t_weight t) n else 1)
      * (if p_sum p then 1 else if p_measures p then at_ (t_frac t) n else at_ (t_cell t) n)
  else 0.
Definition in_total (m : method) (p : opts) (T : list tile) (k : Z) : R :=
  rsum (fun q => rsum (fun j => rsum (fun i => holds m p T k q j i)
    (zseq 0 (t_nx (tile_at T q)))) (zseq 0 (t_ny (tile_at T q)))) (zseq 0 (zlen T)).
(** Sum over all output cells. *)
Definition otile_at (O : list otile) (q : Z) : otile := nth (Z.to_nat q) O (MkOtile 0 0 [] []).
Definition out_sum (O : list otile) (f : Z -> Z -> R) : R :=
  rsum (fun q => rsum (f q) (zseq 0 (o_nx (otile_at O q) * o_ny (otile_at O q)))) (zseq 0 (zlen O)).
(** Nonnegative pieces and weights, nonzero cell areas. *)
Definition nonneg (p : opts) (T : list tile) (O : list otile) : Prop :=
  (forall c, In c (all_cells O) -> 0 <= x_weight p T c)
  /\ (forall q j i, input_cell T q j i -> cell_area T q j i <> 0).

(** Element [n], level [k], of the output of tile number [q]. *)
Definition out_at (O : list otile) (outs : list (list R)) (q k n : Z) : R :=
  let o := otile_at O q in at_ (nth (Z.to_nat q) outs []) (k * (o_nx o * o_ny o) + n).

(** ** The monotone limiter (C58) *)
(** [v] is a valid value among the input cell of [c] and its eight neighbours. *)
Definition neighbour (p : opts) (T : list tile) (c : xc) (v : R) : Prop :=
  exists dj di, (-1 <= dj <= 1)%Z /\ (-1 <= di <= 1)%Z
    /\ v = cell_mean Monotone (src T c) 0 (x_j c + dj) (x_i c + di) /\ valid p v = true.
Definition same_source (c c' : xc) : Prop := x_t c = x_t c' /\ x_j c = x_j c' /\ x_i c = x_i c'.
(** Some piece of the input cell of [c] lies above (below) all neighbours before limiting. *)
Definition overshoots (p : opts) (T : list tile) (o : otile) (c : xc) : Prop :=
  exists c', In c' (o_xgrid o) /\ same_source c c' /\ forall v, neighbour p T c v -> v < x_value Monotone p T c' 0.
Definition undershoots (p : opts) (T : list tile) (o : otile) (c : xc) : Prop :=
  exists c', In c' (o_xgrid o) /\ same_source c c' /\ forall v, neighbour p T c v -> x_value Monotone p T c' 0 < v.
Definition same_width (T : list tile) : Prop := forall t t', In t T -> In t' T -> t_nx t = t_nx t'.
(** Values below 1e20 in size, none on the other side of the missing value than the mean of its cell;
    no gradient mask without a missing value. *)
Definition tame (p : opts) (T : list tile) (O : list otile) : Prop :=
  (forall t v, In t T -> In v (t_data t) -> valid p v = true -> - 10 ^ 20 < v < 10 ^ 20)
  /\ (forall c, In c (all_cells O) -> valid p (in_value Monotone T c 0) = true ->
       - 10 ^ 20 < x_value Monotone p T c 0 < 10 ^ 20
       /\ ((fill p < in_value Monotone T c 0 /\ fill p < x_value Monotone p T c 0)
           \/ (in_value Monotone T c 0 < fill p /\ x_value Monotone p T c 0 < fill p)))
  /\ (p_missing p = None -> forall t g, In t T -> In g (t_gmask t) -> g = 0%Z).
