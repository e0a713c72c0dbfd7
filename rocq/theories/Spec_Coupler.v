(** * Vocabulary for the exchange grids of make_coupler_mosaic (C72 - C74) *)
From Coq Require Import Reals.
From Verif Require Import Base Spec_Interp M_Coupler.
Open Scope Z_scope.

(** ** Grids *)
Definition tile_at (l : list tile) (n : Z) : tile := nth (Z.to_nat n) l (Tile 0 0 [] [] []).
(** The cells (i,j) of a tile, row by row *)
Definition cells (t : tile) : list (Z * Z) := flat_map (fun j => map (fun i => (i, j)) (zseq 0 (t_nx t))) (zseq 0 (t_ny t)).
Definition point (t : tile) (i j : Z) : R * R := (at_ (t_x t) (j * (t_nx t + 1) + i), at_ (t_y t) (j * (t_nx t + 1) + i)).
(** The four corners of a cell *)
Definition quad (t : tile) (c : Z * Z) : poly :=
  let '(i, j) := c in [point t i j; point t (i + 1) j; point t (i + 1) (j + 1); point t i (j + 1)].
(** The value of cell [c] in an array of the tile *)
Definition val (t : tile) (g : list R) (c : Z * Z) : R := at_ g (snd c * t_nx t + fst c).
Definition size (t : tile) (c : Z * Z) : R := val t (t_area t) c.
(** A tile with positive cell areas and arrays as long as its size says *)
Definition proper (t : tile) : Prop :=
  0 < t_nx t /\ 0 < t_ny t /\ zlen (t_x t) = (t_nx t + 1) * (t_ny t + 1) /\ zlen (t_y t) = (t_nx t + 1) * (t_ny t + 1) /\
  zlen (t_area t) = t_nx t * t_ny t /\ forall c, In c (cells t) -> (0 < size t c)%R.

(** ** Polygons *)
(** A line between the polygons, along a meridian or a parallel *)
Definition apart_lon (p q : poly) : Prop := exists c, (forall v, In v p -> (fst v <= c)%R) /\ (forall v, In v q -> (c <= fst v)%R).
Definition apart_lat (p q : poly) : Prop := exists c, (forall v, In v p -> (snd v <= c)%R) /\ (forall v, In v q -> (c <= snd v)%R).
Definition apart (p q : poly) : Prop := apart_lon p q \/ apart_lon q p \/ apart_lat p q \/ apart_lat q p.
(** [p] lies in the box of [q] *)
Definition boxed (p q : poly) : Prop := forall c,
  ((forall v, In v q -> (fst v <= c)%R) -> forall v, In v p -> (fst v <= c)%R) /\
  ((forall v, In v q -> (c <= fst v)%R) -> forall v, In v p -> (c <= fst v)%R) /\
  ((forall v, In v q -> (snd v <= c)%R) -> forall v, In v p -> (snd v <= c)%R) /\
  ((forall v, In v q -> (c <= snd v)%R) -> forall v, In v p -> (c <= snd v)%R).
(** What is assumed of the polygon routines: no vertices, no area; moving a cell in longitude
    keeps its latitudes; the common part of two polygons lies in the box of the first; polygons
    with a line between them have no common area; a flat polygon has no area. *)
Record sound (g : geometry) : Prop := {
  sound_none : g_area g [] = 0%R;
  sound_some : forall q a, length q = 4%nat -> g_fix g q a <> [];
  sound_lat : forall q a c, length q = 4%nat ->
    ((forall v, In v q -> (snd v <= c)%R) -> forall v, In v (g_fix g q a) -> (snd v <= c)%R) /\
    ((forall v, In v q -> (c <= snd v)%R) -> forall v, In v (g_fix g q a) -> (c <= snd v)%R);
  sound_box : forall p q, boxed (g_clip g p q) p;
  sound_apart : forall p q, p <> [] -> q <> [] -> apart p q -> (g_area g (g_clip g p q) <= 0)%R;
  sound_flat : forall p, p <> [] -> apart p p -> (g_area g p <= 0)%R }.

Section Exchange.
  Variables (o : options) (g : geometry) (atm lnd ocn : list tile) (omask : list (list R)).
  Definition mean (l : list R) : R := (rsum (fun x => x) l / IZR (zlen l))%R.
  (** Cell [ca] of atmosphere tile [na]; cell [c] of tile [t] next to it in longitude *)
  Definition air (na : Z) (ca : Z * Z) : poly := g_fix g (quad (tile_at atm na) ca) PI.
  Definition beside (na : Z) (ca : Z * Z) (t : tile) (c : Z * Z) : poly := g_fix g (quad t c) (mean (map fst (air na ca))).
  (** The fraction of ocean *)
  Definition wet (no : Z) (co : Z * Z) : R := val (tile_at ocn no) (nth (Z.to_nat no) omask []) co.
  (** Areas that count, compared with the smaller of two cells *)
  Definition counts (area a b : R) : Prop := (o_thresh o < area / Rmin a b)%R.
  Definition counts_dec (area a b : R) : {counts area a b} + {~ counts area a b} := Rlt_dec _ _.
  Definition tiny : R := (1 / 10000)%R.

  (** *** Atmosphere and ocean *)
  Definition ocean_part (na : Z) (ca : Z * Z) (no : Z) (co : Z * Z) : R :=
    (g_area g (g_clip g (air na ca) (beside na ca (tile_at ocn no) co)) * wet no co)%R.
  Definition is_ocean_cell (na : Z) (ca : Z * Z) (no : Z) (co : Z * Z) : Prop :=
    (tiny < wet no co)%R /\ counts (ocean_part na ca no co) (size (tile_at ocn no) co) (size (tile_at atm na) ca).
  Definition ocean_cell (na : Z) (ca : Z * Z) (no : Z) (co : Z * Z) : list xcell :=
    if Rlt_dec tiny (wet no co) then
      if counts_dec (ocean_part na ca no co) (size (tile_at ocn no) co) (size (tile_at atm na) ca)
      then [XCell (fst ca) (snd ca) (fst co) (snd co) (ocean_part na ca no co)] else []
    else [].
  (** The ocean tiles that are looked at: with the same mosaic for both only the same tile *)
  Definition facing (na no : Z) : bool := (no =? na) || negb (o_ocn_same o).
  Definition ocean_exchange (na no : Z) : list xcell :=
    if facing na no then flat_map (fun ca => flat_map (ocean_cell na ca no) (cells (tile_at ocn no))) (cells (tile_at atm na)) else [].

  (** *** Atmosphere and land *)
  (** The common part of an atmosphere and a land cell: with the same mosaic for both, a
      cell meets itself only. *)
  Definition ground (na : Z) (ca : Z * Z) (nl : Z) (cl : Z * Z) : poly :=
    if o_lnd_same o then if (na =? nl) && (snd ca =? snd cl) && (fst ca =? fst cl) then air na ca else []
    else g_clip g (air na ca) (beside na ca (tile_at lnd nl) cl).
  Definition land_counts (na : Z) (ca : Z * Z) (nl : Z) (cl : Z * Z) (area : R) : Prop :=
    counts area (size (tile_at lnd nl) cl) (size (tile_at atm na) ca).
  Definition land_counts_dec na ca nl cl area : {land_counts na ca nl cl area} + {~ land_counts na ca nl cl area} := Rlt_dec _ _.
  (** The dry part of it in one ocean cell *)
  Definition dry_part (na : Z) (ca : Z * Z) (nl : Z) (cl : Z * Z) (no : Z) (co : Z * Z) : R :=
    (g_area g (g_clip g (ground na ca nl cl) (beside na ca (tile_at ocn no) co)) * (1 - wet no co))%R.
  Definition dry_area (na : Z) (ca : Z * Z) (nl : Z) (cl : Z * Z) (no : Z) (co : Z * Z) : R :=
    if Rlt_dec tiny (1 - wet no co) then
      if land_counts_dec na ca nl cl (dry_part na ca nl cl no co) then dry_part na ca nl cl no co else 0%R
    else 0%R.
  Definition land_area (na : Z) (ca : Z * Z) (nl : Z) (cl : Z * Z) : R :=
    rsum (fun no => if facing na no then rsum (dry_area na ca nl cl no) (cells (tile_at ocn no)) else 0%R) (zseq 0 (zlen ocn)).
  Definition is_ground (na : Z) (ca : Z * Z) (nl : Z) (cl : Z * Z) : Prop := land_counts na ca nl cl (g_area g (ground na ca nl cl)).
  Definition land_cell (na : Z) (ca : Z * Z) (nl : Z) (cl : Z * Z) : list xcell :=
    if land_counts_dec na ca nl cl (g_area g (ground na ca nl cl)) then
      if land_counts_dec na ca nl cl (land_area na ca nl cl)
      then [XCell (fst ca) (snd ca) (fst cl) (snd cl) (land_area na ca nl cl)] else []
    else [].
  Definition land_exchange (na nl : Z) : list xcell :=
    flat_map (fun ca => flat_map (land_cell na ca nl) (cells (tile_at lnd nl))) (cells (tile_at atm na)).
  (** The land cells that meet an atmosphere cell *)
  Definition grounds (na : Z) (ca : Z * Z) : list (Z * (Z * Z)) :=
    flat_map (fun nl => flat_map (fun cl => if land_counts_dec na ca nl cl (g_area g (ground na ca nl cl)) then [(nl, cl)] else []) (cells (tile_at lnd nl))) (zseq 0 (zlen lnd)).

  (** *** Assumptions on the grids *)
  (** Longitudes used to shift ocean cells for one atmosphere cell: its centre and the first vertex
      of its common parts with land cells *)
  Definition reference (na : Z) (ca : Z * Z) (r : R) : Prop :=
    r = mean (map fst (air na ca)) \/
    exists nl cl v p, 0 <= nl < zlen lnd /\ In cl (cells (tile_at lnd nl)) /\ ground na ca nl cl = v :: p /\ r = fst v.
  (** Shifting the ocean cell again and again is the same as shifting it once, and only matters
      for cells beside the atmosphere cell. *)
  Definition steady (na : Z) (ca : Z * Z) (q : poly) : Prop := forall a b, reference na ca a -> reference na ca b ->
    length (g_fix g q a) = 4%nat /\ g_fix g (g_fix g q a) b = g_fix g q b /\
    (g_fix g q a = g_fix g q b \/
     ((apart_lon (air na ca) (g_fix g q a) \/ apart_lon (g_fix g q a) (air na ca)) /\
      (apart_lon (air na ca) (g_fix g q b) \/ apart_lon (g_fix g q b) (air na ca)))).
  Record setting : Prop := {
    set_sound : sound g;
    set_thresh : (0 <= o_thresh o)%R;
    set_atm : forall na, 0 <= na < zlen atm -> proper (tile_at atm na);
    set_lnd : forall nl, 0 <= nl < zlen lnd -> proper (tile_at lnd nl);
    set_ocn : forall no, 0 <= no < zlen ocn -> proper (tile_at ocn no);
    (** the loop over no columns at all *)
    set_wide : o_ocn_same o = true -> forall no, 0 <= no < zlen ocn -> 2 <= t_nx (tile_at ocn no);
    set_mask : zlen omask = zlen ocn /\ forall no, 0 <= no < zlen ocn -> zlen (nth (Z.to_nat no) omask []) = t_nx (tile_at ocn no) * t_ny (tile_at ocn no);
    (** the same mosaic for atmosphere and land *)
    set_same : o_lnd_same o = true -> forall na ca, 0 <= na < zlen atm -> na < zlen lnd -> In ca (cells (tile_at atm na)) ->
      quad (tile_at lnd na) ca = quad (tile_at atm na) ca /\ beside na ca (tile_at lnd na) ca = air na ca;
    (** different mosaics *)
    set_steady : o_lnd_same o = false -> forall na ca no co, 0 <= na < zlen atm -> In ca (cells (tile_at atm na)) ->
      0 <= no < zlen ocn -> In co (cells (tile_at ocn no)) -> steady na ca (quad (tile_at ocn no) co) }.
  (** The arrays of the program are large enough. *)
  Record room : Prop := {
    room_ocean : forall na no, 0 <= na < zlen atm -> 0 <= no < zlen ocn -> zlen (ocean_exchange na no) <= o_max o;
    room_land : forall na nl, 0 <= na < zlen atm -> 0 <= nl < zlen lnd -> zlen (land_exchange na nl) <= o_max o;
    room_ground : forall na ca, 0 <= na < zlen atm -> In ca (cells (tile_at atm na)) -> zlen (grounds na ca) <= 2000 }.
  (** *** Conservation *)
  Definition land_cells : list (Z * (Z * Z)) := flat_map (fun nl => map (pair nl) (cells (tile_at lnd nl))) (zseq 0 (zlen lnd)).
  Definition ocean_cells (na : Z) : list (Z * (Z * Z)) :=
    flat_map (fun no => if facing na no then map (pair no) (cells (tile_at ocn no)) else []) (zseq 0 (zlen ocn)).
  (** The common area of an atmosphere and an ocean cell, and its part over one land cell *)
  Definition common (na : Z) (ca : Z * Z) (x : Z * (Z * Z)) : R := g_area g (g_clip g (air na ca) (beside na ca (tile_at ocn (fst x)) (snd x))).
  Definition common3 (na : Z) (ca : Z * Z) (l x : Z * (Z * Z)) : R :=
    g_area g (g_clip g (ground na ca (fst l) (snd l)) (beside na ca (tile_at ocn (fst x)) (snd x))).
  (** The ocean cells cover the atmosphere cell, the land cells cover each part. *)
  Definition tiled (na : Z) (ca : Z * Z) : Prop :=
    rsum (common na ca) (ocean_cells na) = size (tile_at atm na) ca /\
    forall x, In x (ocean_cells na) -> rsum (fun l => common3 na ca l x) land_cells = common na ca x.
  (** They may overlap the cell in parts only, but cover nothing twice. *)
  Definition disjoint (na : Z) (ca : Z * Z) : Prop :=
    (rsum (common na ca) (ocean_cells na) <= size (tile_at atm na) ca)%R /\
    forall x, In x (ocean_cells na) -> (0 <= common na ca x)%R /\ (rsum (fun l => common3 na ca l x) land_cells <= common na ca x)%R /\
      forall l, In l land_cells -> (0 <= common3 na ca l x)%R.
  Definition fraction (f : R) : Prop := (0 <= f <= 1)%R.
  (** Ocean fractions that are not cut off *)
  Definition clean_fraction (f : R) : Prop := (f = 0 \/ tiny < f)%R /\ (f = 1 \/ tiny < 1 - f)%R.
  (** No part is so small that it is dropped. *)
  Definition no_slivers (na : Z) (ca : Z * Z) : Prop :=
    (forall x, In x (ocean_cells na) -> common na ca x = 0%R \/ counts (ocean_part na ca (fst x) (snd x)) (size (tile_at ocn (fst x)) (snd x)) (size (tile_at atm na) ca) \/ wet (fst x) (snd x) = 0%R) /\
    (forall l, In l land_cells ->
       (is_ground na ca (fst l) (snd l) \/ forall x, In x (ocean_cells na) -> common3 na ca l x = 0%R) /\
       (land_area na ca (fst l) (snd l) = 0%R \/ land_counts na ca (fst l) (snd l) (land_area na ca (fst l) (snd l))) /\
       forall x, In x (ocean_cells na) -> common3 na ca l x = 0%R \/ land_counts na ca (fst l) (snd l) (dry_part na ca (fst l) (snd l) (fst x) (snd x)) \/ wet (fst x) (snd x) = 1%R).
  (** The atmosphere cells (but those of the nest) *)
  Definition air_cells (nest no : Z) : list (Z * (Z * Z)) :=
    flat_map (fun na => if na =? nest then [] else if facing na no then map (pair na) (cells (tile_at atm na)) else []) (zseq 0 (zlen atm)).
  (** They cover an ocean cell, and no part of it is dropped. *)
  Definition under_air (nest no : Z) (co : Z * Z) : Prop :=
    rsum (fun a => common (fst a) (snd a) (no, co)) (air_cells nest no) = size (tile_at ocn no) co /\
    forall a, In a (air_cells nest no) -> common (fst a) (snd a) (no, co) = 0%R \/
      counts (ocean_part (fst a) (snd a) no co) (size (tile_at ocn no) co) (size (tile_at atm (fst a)) (snd a)) \/ wet no co = 0%R.
  Definition partly_under_air (nest no : Z) (co : Z * Z) : Prop :=
    (rsum (fun a => common (fst a) (snd a) (no, co)) (air_cells nest no) <= size (tile_at ocn no) co)%R /\
    forall a, In a (air_cells nest no) -> (0 <= common (fst a) (snd a) (no, co))%R.
End Exchange.

(** ** Land or wave with ocean *)
Record side_setting (o : options) (g : geometry) (lnd ocn : list tile) (omask : list (list R)) : Prop := {
  side_sound : sound g;
  side_thresh : (0 <= o_thresh o)%R;
  side_lnd : forall nl, 0 <= nl < zlen lnd -> proper (tile_at lnd nl);
  side_ocn : forall no, 0 <= no < zlen ocn -> proper (tile_at ocn no);
  side_wide : o_ocn_same o = true -> forall no, 0 <= no < zlen ocn -> 2 <= t_nx (tile_at ocn no);
  side_mask : zlen omask = zlen ocn /\ forall no, 0 <= no < zlen ocn -> zlen (nth (Z.to_nat no) omask []) = t_nx (tile_at ocn no) * t_ny (tile_at ocn no);
  side_room : forall nl no, 0 <= nl < zlen lnd -> 0 <= no < zlen ocn -> zlen (ocean_exchange o g lnd ocn omask nl no) <= o_max o }.
(** The rows of the grid are parallels, from south to north. *)
Definition along_parallels (t : tile) (lat : Z -> R) : Prop :=
  (forall i j, 0 <= i <= t_nx t -> 0 <= j <= t_ny t -> snd (point t i j) = lat j) /\
  forall j k, 0 <= j <= k -> k <= t_ny t -> (lat j <= lat k)%R.
(** Some row passes strictly between a corner of [p] and a corner of [q]. *)
Definition crossed (t : tile) (lat : Z -> R) (p q : poly) : Prop :=
  exists j u v, 0 <= j <= t_ny t /\ In u p /\ In v q /\ (snd u < lat j < snd v)%R.

(** ** Areas of exchange cells *)
(** Their sum over one cell of the first grid, and over one cell of the second *)
Definition share_a (ca : Z * Z) (l : list xcell) : R := rsum (fun c => if (c_ia c =? fst ca) && (c_ja c =? snd ca) then c_area c else 0%R) l.
Definition share_b (cb : Z * Z) (l : list xcell) : R := rsum (fun c => if (c_ib c =? fst cb) && (c_jb c =? snd cb) then c_area c else 0%R) l.
(** The pair of cells of an exchange cell *)
Definition pair_of (c : xcell) : (Z * Z) * (Z * Z) := ((c_ia c, c_ja c), (c_ib c, c_jb c)).
