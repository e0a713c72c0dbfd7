(** * Specification vocabulary for remapping land tiles (independent of the algorithm)

    Only the records describing the input ([landfile], [input]) and the file types
    are those of the model. *)
From Coq Require Import Reals.
From Verif Require Import Base M_RemapLand Spec_Interp.
Open Scope Z_scope.

(** The value that marks missing integers and doubles. *)
Definition missing_int : Z := -2147483647.
Definition missing_real : R := (9969209968386869 * 10 ^ 21)%R.

(** A land tile is soil (with its vegetation), glacier or lake. *)
Inductive kind := Soil | Glacier | Lake.
Definition tags (k : kind) (f : landfile) : list Z := match k with Soil => l_soil f | Glacier => l_glac f | Lake => l_lake f end.

(** Entry [l] of a list with this tag variable is a tile of the kind. *)
Definition tagged (tag : list Z) (l : Z) : bool := match zget tag l with Some t => negb (t =? missing_int) | None => false end.
(** The cell of an entry: the tile index is (tile number) * (number of cells) + cell. *)
Definition cell_is (ncell : Z) (idx : list Z) (l c : Z) : bool := match zget idx l with Some g => g mod ncell =? c | None => false end.
(** The entries of a file that are tiles of a kind in cell [c], in file order. *)
Definition entries (ncell : Z) (tag idx : list Z) (c : Z) : list Z :=
  filter (fun l => tagged tag l && cell_is ncell idx l c) (zseq 0 (zlen tag)).

(** Tiles of the source (cell [c] of face [f]) and of the cold restart file (cell [i]). *)
Definition ncell_src (z : input) : Z := i_nx z * i_ny z.
Definition ncell_dst (z : input) : Z := i_nxd z * i_nyd z.
Definition source_entries (z : input) (k : kind) (f c : Z) : list Z :=
  match zget (i_files z) f with Some file => entries (ncell_src z) (tags k file) (l_idx file) c | None => [] end.
Definition cold_entries (z : input) (k : kind) (i : Z) : list Z :=
  entries (ncell_dst z) (tags k (i_cold z)) (l_idx (i_cold z)) i.

(** The square of the straight distance of two points on the unit sphere. *)
Definition gap (lon1 lat1 lon2 lat2 : R) : R :=
  ((cos lat1 * cos lon1 - cos lat2 * cos lon2) ^ 2 + (cos lat1 * sin lon1 - cos lat2 * sin lon2) ^ 2 + (sin lat1 - sin lat2) ^ 2)%R.
(** The distance of destination cell [i] from cell [c] of source face [f]. *)
Definition cell_gap (z : input) (i f c : Z) : R :=
  gap (at_ (i_lond z) i) (at_ (i_latd z) i) (at_ (i_lon z) (f * ncell_src z + c)) (at_ (i_lat z) (f * ncell_src z + c)).
(** Cell [c] of face [f] is the nearest source cell with tiles of the kind: the first one if there are several. *)
Definition nearest_source (z : input) (k : kind) (i f c : Z) : Prop :=
  0 <= f < i_nface z /\ 0 <= c < ncell_src z /\ source_entries z k f c <> [] /\
  forall f' c', 0 <= f' < i_nface z -> 0 <= c' < ncell_src z -> source_entries z k f' c' <> [] ->
    (cell_gap z i f c <= cell_gap z i f' c')%R /\
    (f' < f \/ f' = f /\ c' < c -> (cell_gap z i f c < cell_gap z i f' c')%R).

(** The kinds that are looked for, and the kinds a file type contains. *)
Definition present (z : input) (k : kind) : bool := match k with Soil => true | Glacier => i_has_glac z | Lake => i_has_lake z end.
Definition holds (ft : ftype) (k : kind) : bool :=
  match ft, k with
  | (LAND | CANA | SNOW | FIRE), _ => true
  | (SOIL | VEGN), Soil => true
  | GLAC, Glacier => true
  | LAKE, Lake => true
  | _, _ => false
  end.

(** A destination tile: kind, source face, entry of the land file of that face. *)
Record origin := Origin { o_kind : kind; o_face : Z; o_entry : Z }.
(** The tiles of destination cell [i] when [near k i] is the source cell used for kind [k]:
    for every kind the cell has in the cold restart file, all tiles of that source cell. *)
Definition tiles_of_kind (z : input) (near : kind -> Z -> Z * Z) (i : Z) (k : kind) : list origin :=
  match cold_entries z k i with
  | [] => []
  | _ :: _ => if present z k then map (Origin k (fst (near k i))) (source_entries z k (fst (near k i)) (snd (near k i))) else []
  end.
Definition dest_tiles (z : input) (near : kind -> Z -> Z * Z) (i : Z) : list origin :=
  flat_map (tiles_of_kind z near i) [Soil; Glacier; Lake].

(** The tiles of the destination file in the order of the tile index: number [n] of the tile in
    its cell, cell [i], origin. *)
Definition file_order (ft : ftype) (z : input) (near : kind -> Z -> Z * Z) : list (Z * Z * origin) :=
  flat_map (fun n => flat_map (fun i =>
    match zget (dest_tiles z near i) n with
    | Some o => if holds ft (o_kind o) then [(n, i, o)] else []
    | None => [] end) (zseq 0 (ncell_dst z))) (zseq 0 (i_ntile z)).

(** Where the restart file of the type has the values of an entry of the land file: land, cana
    and snow files have all entries, the others only those of their kind. *)
Definition place_in_file (ft : ftype) (tag : list Z) (l : Z) : Z :=
  match ft with LAND | CANA | SNOW => l | _ => zlen (filter (tagged tag) (zseq 0 l)) end.
(** The value of a field at a source tile; [src] has the field of every face. *)
Definition source_value {A} (ft : ftype) (z : input) (src : list (list A)) (o : origin) : option A :=
  match zget (i_files z) (o_face o), zget src (o_face o) with
  | Some file, Some v => zget v (place_in_file ft (tags (o_kind o) file) (o_entry o))
  | _, _ => None end.
(** The field has, on every face, one value for each tile the file type holds. *)
Definition complete {A} (ft : ftype) (z : input) (src : list (list A)) : Prop :=
  zlen src = i_nface z /\
  forall o f v, zget (i_files z) (o_face o) = Some f -> zget src (o_face o) = Some v -> holds ft (o_kind o) = true ->
    tagged (tags (o_kind o) f) (o_entry o) = true -> source_value ft z src o <> None.

(** The fraction of the cell given to a destination tile. *)
Definition frac_at (f : landfile) (l : Z) : R := at_ (l_frac f) l.
Definition sum_over (f : landfile) (ls : list Z) : R := rsum (frac_at f) ls.
Definition dest_frac (z : input) (near : kind -> Z -> Z * Z) (i : Z) (o : origin) : R :=
  match o_kind o with
  | Soil =>
      match zget (i_files z) (o_face o) with
      | Some file => (frac_at file (o_entry o) / sum_over file (source_entries z Soil (fst (near Soil i)) (snd (near Soil i))) *
                      sum_over (i_cold z) (cold_entries z Soil i))%R
      | None => 0%R end
  | k => sum_over (i_cold z) (cold_entries z k i)
  end.

(** A land restart file: equally long variables, tile indices that are not negative. *)
Definition wf_land (f : landfile) : Prop :=
  zlen (l_idx f) = zlen (l_soil f) /\ zlen (l_frac f) = zlen (l_soil f) /\ zlen (l_vegn f) = zlen (l_soil f) /\
  zlen (l_glac f) = zlen (l_soil f) /\ zlen (l_lake f) = zlen (l_soil f) /\ (forall g, In g (l_idx f) -> 0 <= g).
(** Consistent sizes, and no more tiles in a cell than there is room for. *)
Definition wf_input (z : input) : Prop :=
  0 < i_nface z /\ 0 < i_nx z /\ 0 < i_ny z /\ 0 < i_nxd z /\ 0 < i_nyd z /\ 0 < i_ntile z /\ 0 < i_ntile_cold z /\
  zlen (i_files z) = i_nface z /\ (forall f, In f (i_files z) -> wf_land f) /\ wf_land (i_cold z) /\
  zlen (i_lon z) = i_nface z * ncell_src z /\ zlen (i_lat z) = i_nface z * ncell_src z /\
  zlen (i_lond z) = ncell_dst z /\ zlen (i_latd z) = ncell_dst z.
Definition room (z : input) : Prop :=
  (forall f c, zlen (source_entries z Soil f c) <= i_ntile z) /\
  (forall i, zlen (cold_entries z Soil i) <= i_ntile_cold z) /\
  (forall k, k <> Soil -> present z k = true ->
     (forall f c, zlen (source_entries z k f c) <= 1) /\ (forall i, zlen (cold_entries z k i) <= 1)).
(** [near] is the nearest source cell wherever it is needed, and the tiles fit into the
    destination cells. *)
Definition nearest_map (z : input) (near : kind -> Z -> Z * Z) : Prop :=
  forall k i, 0 <= i < ncell_dst z -> present z k = true -> cold_entries z k i <> [] ->
    nearest_source z k i (fst (near k i)) (snd (near k i)).
Definition fits (z : input) (near : kind -> Z -> Z * Z) : Prop :=
  forall i, 0 <= i < ncell_dst z -> zlen (dest_tiles z near i) <= i_ntile z.

(** The value of a tag variable at a destination tile: tiles of another kind have none. *)
Definition same_kind (a b : kind) : bool := match a, b with Soil, Soil | Glacier, Glacier | Lake, Lake => true | _, _ => false end.
Definition tag_value (z : input) (k : kind) (var : landfile -> list Z) (o : origin) : option Z :=
  if same_kind k (o_kind o) then match zget (i_files z) (o_face o) with Some f => zget (var f) (o_entry o) | None => None end
  else Some missing_int.
