(** * C72-C74: the exchange grids of make_coupler_mosaic *)
From Coq Require Import Reals Lra.
From Verif Require Import Base Loops Vec M_Extent P_Extent P_Interp P_Interp2 P_RemapLand4 P_Coupler P_Coupler2 P_Coupler3 P_Coupler4 P_Coupler5 P_Coupler6 P_Coupler7 P_Coupler8 M_Interp Spec_Interp M_Coupler Spec_Coupler.
Open Scope Z_scope.

(** ** C72 *)

(** The exchange grid, for any number of processors: for every atmosphere tile the exchange cells
    with every land tile and with every ocean tile. *)
Theorem C72_exchange o g atm lnd ocn omask npes : setting o g atm lnd ocn omask -> room o g atm lnd ocn omask ->
  (forall na, 0 <= na < zlen atm -> 1 <= npes <= t_nx (tile_at atm na) * t_ny (tile_at atm na)) ->
  atm_all o g atm lnd ocn omask npes =
    Ok (map (fun na => (map (land_exchange o g atm lnd ocn omask na) (zseq 0 (zlen lnd)),
                        map (ocean_exchange o g atm ocn omask na) (zseq 0 (zlen ocn)))) (zseq 0 (zlen atm))).
Proof. intros HS HR Hn. exact (atm_all_run o g atm lnd ocn omask HS HR npes Hn). Qed.

(** A pair of cells has an exchange cell between atmosphere and ocean iff the ocean cell is not
    dry and the common wet area counts; its area is the common wet area. *)
Theorem C72_ocean o g atm ocn omask na no c :
  In c (ocean_exchange o g atm ocn omask na no) <->
    facing o na no = true /\ exists ca co, In ca (cells (tile_at atm na)) /\ In co (cells (tile_at ocn no)) /\ is_ocean_cell o g atm ocn omask na ca no co /\
      c = XCell (fst ca) (snd ca) (fst co) (snd co) (ocean_part g atm ocn omask na ca no co).
Proof.
  unfold ocean_exchange. destruct (facing o na no); [|split; [easy|now intros (H & _)]]. rewrite in_flat_map. split.
  - intros (ca & Ha & H). apply in_flat_map in H. destruct H as (co & Ho & H). split; auto. exists ca, co. split; [auto|]. split; [auto|]. unfold ocean_cell in H.
    destruct (Rlt_dec _ _) as [L|]; [|easy]. destruct (counts_dec _ _ _ _) as [c'|]; [|easy]. destruct H as [<-|[]]. split; [now split|reflexivity].
  - intros (_ & ca & co & Ha & Ho & (H1 & H2) & ->). exists ca. split; [auto|]. apply in_flat_map. exists co. split; [auto|]. unfold ocean_cell.
    destruct (Rlt_dec _ _) as [L|]; [|contradiction]. destruct (counts_dec _ _ _ _) as [c'|]; [now left|contradiction].
Qed.
(** The same between atmosphere and land: the common area and the dry part of it must count. *)
Theorem C72_land o g atm lnd ocn omask na nl c :
  In c (land_exchange o g atm lnd ocn omask na nl) <->
    exists ca cl, In ca (cells (tile_at atm na)) /\ In cl (cells (tile_at lnd nl)) /\ is_ground o g atm lnd na ca nl cl /\
      land_counts o atm lnd na ca nl cl (land_area o g atm lnd ocn omask na ca nl cl) /\
      c = XCell (fst ca) (snd ca) (fst cl) (snd cl) (land_area o g atm lnd ocn omask na ca nl cl).
Proof.
  unfold land_exchange. rewrite in_flat_map. split.
  - intros (ca & Ha & H). apply in_flat_map in H. destruct H as (co & Ho & H). exists ca, co. split; [auto|]. split; [auto|]. unfold land_cell in H.
    destruct (land_counts_dec _ _ _ _ _ _ _ _) as [L|]; [|easy]. destruct (land_counts_dec _ _ _ _ _ _ _ _) as [c'|]; [|easy]. destruct H as [<-|[]]. split; [exact L|]. split; [exact c'|reflexivity].
  - intros (ca & co & Ha & Ho & H1 & H2 & ->). exists ca. split; [auto|]. apply in_flat_map. exists co. split; [auto|]. unfold land_cell.
    destruct (land_counts_dec _ _ _ _ _ _ _ _) as [L|]; [|contradiction]. destruct (land_counts_dec _ _ _ _ _ _ _ _) as [c'|]; [now left|contradiction].
Qed.
(** No pair of cells twice *)
Theorem C72_once o g atm lnd ocn omask na n :
  NoDup (map pair_of (land_exchange o g atm lnd ocn omask na n)) /\ NoDup (map pair_of (ocean_exchange o g atm ocn omask na n)).
Proof.
  split.
  - apply NoDup_pairs; try apply NoDup_cells; intros; [apply land_cell_len|]. apply lcell_in in H. destruct a, b. unfold pair_of. destruct H as (-> & -> & -> & ->). reflexivity.
  - unfold ocean_exchange. destruct (facing o na n); [|constructor]. apply NoDup_pairs; try apply NoDup_cells; intros; [apply ocean_cell_len|]. apply ocell_in in H. destruct a, b. unfold pair_of.
    destruct H as (-> & -> & -> & -> & _). reflexivity.
Qed.
Theorem C72_any_processors o g atm lnd ocn omask n n' : setting o g atm lnd ocn omask -> room o g atm lnd ocn omask ->
  (forall na, 0 <= na < zlen atm -> 1 <= n <= t_nx (tile_at atm na) * t_ny (tile_at atm na)) ->
  (forall na, 0 <= na < zlen atm -> 1 <= n' <= t_nx (tile_at atm na) * t_ny (tile_at atm na)) ->
  atm_all o g atm lnd ocn omask n = atm_all o g atm lnd ocn omask n'.
Proof. intros. now rewrite !C72_exchange by auto. Qed.
(** The indices written start at 1; the southern extension of the ocean is taken off. *)
Theorem C72_indices o g atm lnd ocn omask na n ext :
  (forall c, In c (map written_land (land_exchange o g atm lnd ocn omask na n)) ->
     1 <= c_ia c <= t_nx (tile_at atm na) /\ 1 <= c_ja c <= t_ny (tile_at atm na) /\ 1 <= c_ib c <= t_nx (tile_at lnd n) /\ 1 <= c_jb c <= t_ny (tile_at lnd n)) /\
  (0 <= ext -> (forall i j, 0 <= j < ext -> wet ocn omask n (i, j) = 0%R) -> proper (tile_at ocn n) -> proper (tile_at atm na) ->
   forall c, In c (map (written_ocean ext) (ocean_exchange o g atm ocn omask na n)) ->
     1 <= c_ia c <= t_nx (tile_at atm na) /\ 1 <= c_ja c <= t_ny (tile_at atm na) /\ 1 <= c_ib c <= t_nx (tile_at ocn n) /\ 1 <= c_jb c <= t_ny (tile_at ocn n) - ext).
Proof.
  split.
  - intros c Hc. apply in_map_iff in Hc. destruct Hc as (c0 & <- & Hc). apply land_in in Hc. destruct Hc as (H1 & H2). apply In_cells in H1, H2. cbn [written_land c_ia c_ja c_ib c_jb]. lia.
  - intros He Hw Ho Ha c Hc. exact (ocean_indices o g atm ocn omask na n ext c Ho Ha He Hw Hc).
Qed.
(** The arrays are large enough for grids with few cells. *)
Theorem C72_room o g atm lnd ocn omask :
  (forall na no, 0 <= na < zlen atm -> 0 <= no < zlen ocn -> zlen (cells (tile_at atm na)) * zlen (cells (tile_at ocn no)) <= o_max o) ->
  (forall na nl, 0 <= na < zlen atm -> 0 <= nl < zlen lnd -> zlen (cells (tile_at atm na)) * zlen (cells (tile_at lnd nl)) <= o_max o) ->
  (forall nl, 0 <= nl < zlen lnd -> zlen lnd * zlen (cells (tile_at lnd nl)) <= 2000) -> room o g atm lnd ocn omask.
Proof.
  intros H1 H2 H3. split.
  - intros. etransitivity; [apply ocean_exchange_len|]. auto.
  - intros. etransitivity; [apply land_exchange_len|]. auto.
  - intros na ca Hn Hc. destruct (Z.eq_dec (zlen lnd) 0) as [E|N].
    + unfold grounds. rewrite E. cbn. lia.
    + pose proof (zlen_nonneg lnd). etransitivity; [apply (grounds_len _ _ _ _ _ _ (2000 / zlen lnd))|].
      * intros nl Hl. apply Z.div_le_lower_bound; [lia|]. auto.
      * apply Z.div_pos; lia.
      * pose proof (Z.mul_div_le 2000 (zlen lnd)). lia.
Qed.
Example C72_nonvacuous : setting ex_o boxes ex_atm ex_lnd ex_ocn ex_mask /\ room ex_o boxes ex_atm ex_lnd ex_ocn ex_mask /\
  (forall na, 0 <= na < zlen ex_atm -> 1 <= 2 <= t_nx (tile_at ex_atm na) * t_ny (tile_at ex_atm na)) /\
  ocean_exchange ex_o boxes ex_atm ex_ocn ex_mask 0 0 = [XCell 0 0 0 0 (1 / 2); XCell 0 0 0 1 (1 / 8); XCell 1 0 0 0 (1 / 2); XCell 1 0 0 1 (1 / 8)].
Proof.
  split; [exact ex_setting|]. split; [exact ex_room|]. split; [|exact ex_ocean_exchange]. intros na Hn. rewrite (ex_one _ _ _ eq_refl Hn). cbn. lia.
Qed.

(** ** C73 *)

(** Conservation: where the grids cover an atmosphere cell and no sliver is dropped, its exchange
    cells with land and ocean add up to its area. *)
Theorem C73_conservation o g atm lnd ocn omask na ca : proper (tile_at atm na) -> In ca (cells (tile_at atm na)) ->
  tiled o g atm lnd ocn na ca -> no_slivers o g atm lnd ocn omask na ca ->
  (forall x, In x (ocean_cells o ocn na) -> clean_fraction (wet ocn omask (fst x) (snd x))) ->
  share_a ca (concat (map (land_exchange o g atm lnd ocn omask na) (zseq 0 (zlen lnd)) ++ map (ocean_exchange o g atm ocn omask na) (zseq 0 (zlen ocn)))) = size (tile_at atm na) ca.
Proof. intros Hp Hc T S F. rewrite share_atm by auto. now apply conserve. Qed.
(** They never add up to more. *)
Theorem C73_no_excess o g atm lnd ocn omask na ca : proper (tile_at atm na) -> In ca (cells (tile_at atm na)) ->
  disjoint o g atm lnd ocn na ca -> (forall x, In x (ocean_cells o ocn na) -> fraction (wet ocn omask (fst x) (snd x))) ->
  (0 <= share_a ca (concat (map (land_exchange o g atm lnd ocn omask na) (zseq 0 (zlen lnd)) ++ map (ocean_exchange o g atm ocn omask na) (zseq 0 (zlen ocn)))) <= size (tile_at atm na) ca)%R.
Proof. intros Hp Hc T F. rewrite share_atm by auto. now apply P_Coupler4.bounded. Qed.
(** The sums of --check are these sums. *)
Theorem C73_check_sums o g atm lnd ocn omask na : proper (tile_at atm na) ->
  exists s, atm_sum (tile_at atm na) (map (land_exchange o g atm lnd ocn omask na) (zseq 0 (zlen lnd))) (map (ocean_exchange o g atm ocn omask na) (zseq 0 (zlen ocn))) = Ok s /\
    forall ca, In ca (cells (tile_at atm na)) ->
      val (tile_at atm na) s ca = share_a ca (concat (map (land_exchange o g atm lnd ocn omask na) (zseq 0 (zlen lnd)) ++ map (ocean_exchange o g atm ocn omask na) (zseq 0 (zlen ocn)))).
Proof.
  intros Hp. destruct (atm_sum_run o g atm lnd ocn omask na Hp) as (s & E & L & H). exists s. split; [exact E|]. intros ca Hc. now rewrite share_atm, H.
Qed.
(** The ocean fraction: where the atmosphere (without the nest) covers every cell of the ocean tile,
    the fractions written are those read, and no difference is counted. *)
Theorem C73_ocean_fraction o g atm ocn omask nest no ext : 0 <= no < zlen ocn -> proper (tile_at ocn no) -> 0 <= ext <= t_ny (tile_at ocn no) ->
  zlen (nth (Z.to_nat no) omask []) = t_nx (tile_at ocn no) * t_ny (tile_at ocn no) ->
  (forall co, In co (cells (tile_at ocn no)) -> under_air o g atm ocn omask nest no co /\ clean_fraction (wet ocn omask no co)) ->
  exists s m, tile_sum (tile_at ocn no) nest no (map (fun na => map (ocean_exchange o g atm ocn omask na) (zseq 0 (zlen ocn))) (zseq 0 (zlen atm))) = Ok s /\
    ocean_mask (tile_at ocn no) ext (nth (Z.to_nat no) omask []) s = Ok (m, 0) /\
    forall i j, 0 <= i < t_nx (tile_at ocn no) -> ext <= j < t_ny (tile_at ocn no) -> val (tile_at ocn no) m (i, j - ext) = wet ocn omask no (i, j).
Proof.
  intros Hno Hp He Lo Hc. destruct (tile_sum_run o g atm ocn omask nest no Hp Hno) as (s & E & L & H).
  destruct (ocean_mask_run ocn omask no Hp ext s He L Lo) as (m & nbad & Em & _ & Hm & _ & Hb).
  assert (forall i j, 0 <= i < t_nx (tile_at ocn no) -> ext <= j < t_ny (tile_at ocn no) -> (val (tile_at ocn no) s (i, j) / size (tile_at ocn no) (i, j) = wet ocn omask no (i, j))%R) as Hw.
  { intros i j Hi Hj. assert (In (i, j) (cells (tile_at ocn no))) as HI by (apply In_cells; lia). destruct (Hc _ HI) as (U & F). rewrite (H _ HI), asum_full by auto.
    pose proof (proj2 (proj2 (proj2 (proj2 (proj2 Hp)))) _ HI). field. lra. }
  exists s, m. split; [exact E|]. split.
  - assert (nbad = 0) as -> ; [|exact Em]. apply Hb. intros i j Hi Hj. rewrite Hw by auto. unfold Rminus. rewrite Rplus_opp_r, Rabs_R0. lra.
  - intros i j Hi Hj. now rewrite Hm, Hw.
Qed.
(** For any grids without overlap they are at most those read; [nbad] is 0 iff none is off by more than 1e-4. *)
Theorem C73_ocean_at_most o g atm ocn omask nest no ext : 0 <= no < zlen ocn -> proper (tile_at ocn no) -> 0 <= ext <= t_ny (tile_at ocn no) ->
  zlen (nth (Z.to_nat no) omask []) = t_nx (tile_at ocn no) * t_ny (tile_at ocn no) ->
  (forall co, In co (cells (tile_at ocn no)) -> partly_under_air o g atm ocn nest no co /\ fraction (wet ocn omask no co)) ->
  exists s m nbad, tile_sum (tile_at ocn no) nest no (map (fun na => map (ocean_exchange o g atm ocn omask na) (zseq 0 (zlen ocn))) (zseq 0 (zlen atm))) = Ok s /\
    ocean_mask (tile_at ocn no) ext (nth (Z.to_nat no) omask []) s = Ok (m, nbad) /\
    (forall i j, 0 <= i < t_nx (tile_at ocn no) -> ext <= j < t_ny (tile_at ocn no) ->
       val (tile_at ocn no) m (i, j - ext) = (rsum (fun na => if (na =? nest)%Z then 0 else share_b (i, j) (ocean_exchange o g atm ocn omask na no)) (zseq 0 (zlen atm)) / size (tile_at ocn no) (i, j))%R /\
       (0 <= val (tile_at ocn no) m (i, (j - ext)%Z) <= wet ocn omask no (i, j))%R) /\
    (nbad = 0 <-> forall i j, 0 <= i < t_nx (tile_at ocn no) -> ext <= j < t_ny (tile_at ocn no) ->
       (Rabs (wet ocn omask no (i, j) - val (tile_at ocn no) m (i, (j - ext)%Z)) <= 1 / 10000)%R).
Proof.
  intros Hno Hp He Lo Hc. destruct (tile_sum_run o g atm ocn omask nest no Hp Hno) as (s & E & L & H).
  destruct (ocean_mask_run ocn omask no Hp ext s He L Lo) as (m & nbad & Em & _ & Hm & _ & Hb).
  exists s, m, nbad. split; [exact E|]. split; [exact Em|]. split.
  - intros i j Hi Hj. assert (In (i, j) (cells (tile_at ocn no))) as HI by (apply In_cells; lia). destruct (Hc _ HI) as (U & F). rewrite Hm by auto. rewrite (H _ HI). split.
    + now rewrite share_ocn.
    + pose proof (asum_le o g atm ocn omask nest no (i, j) U F) as B. pose proof (proj2 (proj2 (proj2 (proj2 (proj2 Hp)))) _ HI) as P.
      set (a := asum o g atm ocn omask nest no (i, j)) in *. set (w := wet ocn omask no (i, j)) in *. set (z := size (tile_at ocn no) (i, j)) in *.
      assert (a / z * z = a)%R by (field; lra). split; apply Rnot_lt_le; intros C; nra.
  - rewrite Hb. split; intros G i j Hi Hj; specialize (G i j Hi Hj); rewrite Hm in * by auto; exact G.
Qed.
(** Without --verbose the program ends as if nothing were wrong, however many cells are off. *)
Theorem C73_error_refuted : exists t omask s m nbad, proper t /\ ocean_mask t 0 omask s = Ok (m, nbad) /\ 0 < nbad /\ finish false nbad = Ok tt /\ finish true nbad = Err 2.
Proof.
  exists (Tile 1 1 [0; 2; 0; 2]%R [0; 0; 1; 1]%R [2]%R), [1%R], [1%R], [(1 / 2)%R], 1. split.
  - repeat split; try (cbn; lia). intros c [<-|[]]. unfold size, val, at_. cbn. lra.
  - split; [|split; [lia|split; reflexivity]]. unfold ocean_mask. cbn. change (Pos.to_nat 1) with 1%nat. cbn. destruct (rlt_spec (1 / 10000) (Rabs (1 - 1 / 2))) as [L|L].
    + reflexivity.
    + exfalso. apply L. rewrite Rabs_pos_eq; lra.
Qed.
(** The land fraction is the exchange area by the cell area if the atmosphere tile of the same number
    has as many cells; *)
Theorem C73_land_fraction atm nl t s : 0 <= nl < zlen atm -> proper t -> proper (tile_at atm nl) -> zlen s = t_nx t * t_ny t ->
  t_nx t * t_ny t <= t_nx (tile_at atm nl) * t_ny (tile_at atm nl) ->
  exists m, land_mask atm nl t s = Ok m /\ zlen m = t_nx t * t_ny t /\ forall c, In c (cells t) -> val t m c = (val t s c / size t c)%R.
Proof.
  intros Hn (Hx & Hy & _ & _ & La & _) (_ & _ & _ & _ & Laa & _) Ls Hle. unfold land_mask.
  pose (f := fun n => (at_ s n / at_ (t_area t) n)%R).
  match goal with |- context [ofor 0 _ ?h []] => destruct (ofor_inv (fun j st => st = map f (zseq 0 (j * t_nx t))) h 0 (t_ny t) [] ltac:(lia)) as (st & E & ->) end.
  - reflexivity.
  - intros j st Hj ->.
    match goal with |- context [ofor 0 _ ?h ?s0] => destruct (ofor_inv (fun i st => st = map f (zseq 0 (j * t_nx t + i))) h 0 (t_nx t) s0 ltac:(lia)) as (st & E & ->) end.
    + now rewrite Z.add_0_r.
    + intros i st Hi ->. rewrite !oget_at by nia. cbn [bind]. rewrite oget_tile by auto. cbn [bind]. rewrite oget_at by nia. cbn [bind]. eexists. split; [reflexivity|].
      replace (j * t_nx t + (i + 1)) with (j * t_nx t + i + 1) by lia. rewrite zseq_snoc by nia. rewrite map_app. cbn [map]. reflexivity.
    + eexists. split; [exact E|]. do 2 f_equal. lia.
  - rewrite Z.add_0_l in E. eexists. split; [exact E|]. split; [rewrite zlen_map, zlen_zseq; nia|]. intros (i, j) Hc. apply In_cells in Hc. unfold size, val. cbn [fst snd].
    assert (oget (map f (zseq 0 (t_ny t * t_nx t))) (j * t_nx t + i) = Ok (f (j * t_nx t + i))) as Eg.
    { apply oget_Ok. rewrite zget_map, zget_zseq by nia. reflexivity. }
    rewrite oget_at in Eg by (rewrite zlen_map, zlen_zseq; nia). injection Eg as ->. reflexivity.
Qed.
(** otherwise the program reads beyond the areas of the atmosphere. *)
Theorem C73_land_fraction_refuted : exists atm t s, proper t /\ (forall na, 0 <= na < zlen atm -> proper (tile_at atm na)) /\ zlen s = t_nx t * t_ny t /\ land_mask atm 0 t s = UB.
Proof.
  exists ex_lnd, (tile_at ex_atm 0), [0; 0]%R. split; [exact (set_atm _ _ _ _ _ _ ex_setting 0 ltac:(change (zlen ex_atm) with 1; lia))|].
  split; [exact (set_lnd _ _ _ _ _ _ ex_setting)|]. split; reflexivity.
Qed.
Example C73_nonvacuous : proper (tile_at ex_atm 0) /\ proper (tile_at ex_ocn 0) /\
  (forall ca, In ca (cells (tile_at ex_atm 0)) -> tiled ex_o boxes ex_atm ex_lnd ex_ocn 0 ca /\ no_slivers ex_o boxes ex_atm ex_lnd ex_ocn ex_mask 0 ca /\ disjoint ex_o boxes ex_atm ex_lnd ex_ocn 0 ca) /\
  (forall co, In co (cells (tile_at ex_ocn 0)) -> under_air ex_o boxes ex_atm ex_ocn ex_mask (-1) 0 co /\ partly_under_air ex_o boxes ex_atm ex_ocn (-1) 0 co /\
     clean_fraction (wet ex_ocn ex_mask 0 co) /\ fraction (wet ex_ocn ex_mask 0 co)).
Proof.
  split; [exact (set_atm _ _ _ _ _ _ ex_setting 0 ltac:(change (zlen ex_atm) with 1; lia))|]. split; [exact (set_ocn _ _ _ _ _ _ ex_setting 0 ltac:(change (zlen ex_ocn) with 1; lia))|]. split.
  - intros ca Hc. split; [now apply ex_tiled|]. split; [now apply ex_no_slivers|]. destruct (ex_tiled ca Hc) as (T1 & T2). split; [rewrite T1; lra|]. intros x Hx. rewrite T2 by auto.
    destruct (ex_ocean_in x Hx) as (co & -> & Hco). rewrite ex_common by auto. split; [lra|]. split; [lra|]. rewrite ex_land_list. intros l [<-|[]]. rewrite ex_common3 by auto. lra.
  - intros co Hc. split; [now apply ex_under|]. split; [|now apply ex_clean]. destruct (ex_under co Hc) as (T & _). split; [rewrite T; lra|].
    intros a Ha. assert (air_cells ex_o ex_atm (-1) 0 = [(0, (0, 0)); (0, (1, 0))]) as E by reflexivity. rewrite E in Ha. destruct Ha as [<-|[<-|[]]]; cbn [fst snd]; rewrite ex_common by (auto; rewrite ex_atm_cells; cbn; auto); lra.
Qed.

(** ** C74: land or wave with ocean *)

(** The wanted exchange grid is that of C72 with the land (or wave) grid in place of the atmosphere.
    One processor finds it if the rows of the ocean are parallels and one of them passes between
    two cells; *)
Theorem C74_serial_partial o g lnd ocn omask lats nl : side_setting o g lnd ocn omask -> 0 <= nl < zlen lnd ->
  (forall no, 0 <= no < zlen ocn -> along_parallels (tile_at ocn no) (lats no) /\
     exists a b, In a (cells (tile_at lnd nl)) /\ In b (cells (tile_at lnd nl)) /\ crossed (tile_at ocn no) (lats no) (quad (tile_at lnd nl) a) (quad (tile_at lnd nl) b)) ->
  side_tile o (o_ocn_same o) g nl (tile_at lnd nl) ocn omask 1 = Ok (map (ocean_exchange o g lnd ocn omask nl) (zseq 0 (zlen ocn))).
Proof.
  intros HS Hn H. pose proof (side_lnd _ _ _ _ _ HS nl Hn) as Hp. pose proof Hp as (Hx & Hy & _).
  apply (side_tile_run o g lnd ocn omask HS lats); auto.
  - intros no Hno. apply (H no Hno).
  - nia.
  - left. intros p Hp0 no Hno. assert (p = 0) as -> by lia. rewrite start_of_0, start_of_d by nia.
    destruct (H no Hno) as (_ & (i, j) & (k, l) & Ha & Hb & Hc). apply In_cells in Ha, Hb. exists (j * t_nx (tile_at lnd nl) + i), (l * t_nx (tile_at lnd nl) + k).
    split; [nia|]. split; [nia|]. rewrite !rowmajor_mod, !rowmajor_div by lia. exact Hc.
Qed.
(** any number of processors finds it if a row passes through every land cell. *)
Theorem C74_parallel_partial o g lnd ocn omask lats nl npes : side_setting o g lnd ocn omask -> 0 <= nl < zlen lnd ->
  1 <= npes <= t_nx (tile_at lnd nl) * t_ny (tile_at lnd nl) ->
  (forall no, 0 <= no < zlen ocn -> along_parallels (tile_at ocn no) (lats no) /\
     forall a, In a (cells (tile_at lnd nl)) -> crossed (tile_at ocn no) (lats no) (quad (tile_at lnd nl) a) (quad (tile_at lnd nl) a)) ->
  side_tile o (o_ocn_same o) g nl (tile_at lnd nl) ocn omask npes = Ok (map (ocean_exchange o g lnd ocn omask nl) (zseq 0 (zlen ocn))).
Proof.
  intros HS Hn Hnp H. pose proof (side_lnd _ _ _ _ _ HS nl Hn) as Hp. pose proof Hp as (Hx & Hy & _).
  apply (side_tile_run o g lnd ocn omask HS lats); auto.
  - intros no Hno. apply (H no Hno).
  - right. intros p no la Hp0 Hno Hla. apply (H no Hno). apply In_la; auto.
    pose proof (start_of_mono (t_nx (tile_at lnd nl) * t_ny (tile_at lnd nl)) npes 0 p Hnp ltac:(lia) ltac:(lia)) as M1. rewrite start_of_0 in M1 by auto.
    pose proof (start_of_mono (t_nx (tile_at lnd nl) * t_ny (tile_at lnd nl)) npes (p + 1) npes Hnp ltac:(lia) ltac:(lia)) as M2. rewrite start_of_d in M2 by auto. lia.
Qed.
(** Otherwise the number of processors changes the result: with the same grid for both, and one
    cell for each processor, nothing is found. *)
Theorem C74_processors_refuted : exists o g lnd ocn omask lats, side_setting o g lnd ocn omask /\ zlen lnd = 1 /\
  (forall no, 0 <= no < zlen ocn -> along_parallels (tile_at ocn no) (lats no)) /\
  side_tile o (o_ocn_same o) g 0 (tile_at lnd 0) ocn omask 2 = Ok [[]] /\
  side_tile o (o_ocn_same o) g 0 (tile_at lnd 0) ocn omask 1 = Ok [[XCell 0 0 0 0 1; XCell 0 1 0 1 1]].
Proof.
  assert (cells (tile_at ex_side 0) = [(0, 0); (0, 1)]) as EC by reflexivity.
  assert (side_setting ex_o boxes ex_side ex_side ex_side_mask) as HS.
  { split.
    - exact boxes_sound.
    - cbn. lra.
    - intros n Hn. rewrite (ex_one _ _ _ eq_refl Hn). repeat split; try (cbn; lia). rewrite EC. intros c [<-|[<-|[]]]; unfold size; wv; lra.
    - intros n Hn. rewrite (ex_one _ _ _ eq_refl Hn). repeat split; try (cbn; lia). rewrite EC. intros c [<-|[<-|[]]]; unfold size; wv; lra.
    - discriminate.
    - split; [reflexivity|]. intros n Hn. rewrite (ex_one _ _ _ eq_refl Hn). reflexivity.
    - intros n m Hn Hm. rewrite (ex_one _ _ _ eq_refl Hn), (ex_one _ _ _ eq_refl Hm). etransitivity; [apply ocean_exchange_len|]. rewrite EC. now vm_compute. }
  assert (along_parallels (tile_at ex_side 0) IZR) as HP.
  { split.
    - intros i j Hi Hj. cbn in Hi, Hj. assert (i = 0 \/ i = 1) as [-> | ->] by lia; assert (j = 0 \/ j = 1 \/ j = 2) as [-> | [-> | ->]] by lia; reflexivity.
    - intros j k Hj Hk. apply IZR_le. lia. }
  exists ex_o, boxes, ex_side, ex_side, ex_side_mask, (fun _ => IZR). split; [exact HS|]. split; [reflexivity|].
  split; [intros no Hno; rewrite (ex_one _ _ _ eq_refl Hno); exact HP|]. split.
  - unfold side_tile. change (t_nx (tile_at ex_side 0) * t_ny (tile_at ex_side 0)) with 2.
    assert (forall is, is = 0 \/ is = 1 -> side_pe ex_o (o_ocn_same ex_o) boxes 0 (tile_at ex_side 0) ex_side ex_side_mask is is = Ok [[]]) as G.
    { intros is His. unfold side_pe.
      assert (band (tile_at ex_side 0) is is = Ok (IZR is, IZR is + 1)%R) as ->.
      { unfold band, ofor. replace (is - is + 1) with 1 by lia. assert (zseq is 1 = [is]) as -> by (destruct His as [-> | ->]; reflexivity). cbn [ofold].
        rewrite corners_run; [|exact (side_lnd _ _ _ _ _ HS 0 ltac:(change (zlen ex_side) with 1; lia))|apply In_la; [cbn; lia|change (t_nx (tile_at ex_side 0) * t_ny (tile_at ex_side 0)) with 2; lia]].
        cbn [bind]. f_equal. destruct His as [-> | ->].
        - change (ys (quad (tile_at ex_side 0) (0 mod t_nx (tile_at ex_side 0), 0 / t_nx (tile_at ex_side 0)))) with [0; 0; 1; 1]%R. cbn. rtest; f_equal; lra.
        - change (ys (quad (tile_at ex_side 0) (1 mod t_nx (tile_at ex_side 0), 1 / t_nx (tile_at ex_side 0)))) with [1; 1; 2; 2]%R. cbn. rtest; f_equal; lra. }
      cbn [bind fst snd].
      assert (rows_lnd (tile_at ex_side 0) (IZR is) (IZR is + 1) = Ok (1, 0)) as ER.
      { rewrite (rows_lnd_none _ IZR); [reflexivity|exact (side_lnd _ _ _ _ _ HS 0 ltac:(change (zlen ex_side) with 1; lia))|exact HP|]. intros j _ (A & B). rewrite <- plus_IZR in B. apply lt_IZR in A, B. lia. }
      unfold ofor at 1. change (zseq 0 (zlen ex_side)) with [0]. cbn [ofold]. rewrite oget_tile by (change (zlen ex_side) with 1; lia). cbn [bind]. rewrite ER. cbn [bind]. 
      change (columns (tile_at ex_side 0) ((0 =? 0) || negb (o_ocn_same ex_o))) with (0, 0). cbn [bind app].
      unfold ofor. replace (is - is + 1) with 1 by lia. assert (zseq is 1 = [is]) as -> by (destruct His as [-> | ->]; reflexivity). cbn [ofold].
      rewrite (cell_run (Options 100 (1 / 1000000) true false) boxes ex_side [] ex_side ex_side_mask (setting1 _ _ _ _ _ HS) 0 (is mod t_nx (tile_at ex_side 0), is / t_nx (tile_at ex_side 0))); try reflexivity.
      + change (zlen ex_side) with 1. lia.
      + apply In_la; [cbn; lia|change (t_nx (tile_at ex_side 0) * t_ny (tile_at ex_side 0)) with 2; lia].
      + change (t_nx (tile_at ex_side 0) * t_ny (tile_at ex_side 0)) with 2. lia. }
    rewrite (on_two _ [[]] [[]]) by (apply G; auto). reflexivity.
  - rewrite (C74_serial_partial ex_o boxes ex_side ex_side ex_side_mask (fun _ => IZR) 0 HS).
    + change (zseq 0 (zlen ex_side)) with [0]. cbn [map]. do 2 f_equal. unfold ocean_exchange. cbn [facing Z.eqb orb]. rewrite EC. cbn [flat_map].
      assert (forall ca, In ca [(0, 0); (0, 1)] -> exists c, (c = 0 \/ c = 1)%R /\ c = IZR (snd ca) /\ quad (tile_at ex_side 0) ca = rectangle 0 1 c (c + 1)) as HQ.
      { intros ca [<-|[<-|[]]]; [exists 0%R|exists 1%R]; (split; [lra|]); (split; [reflexivity|]); unfold rectangle; pts. }
      assert (forall ca co, In ca [(0, 0); (0, 1)] -> In co [(0, 0); (0, 1)] -> ocean_part boxes ex_side ex_side ex_side_mask 0 ca 0 co = if snd ca =? snd co then 1%R else 0%R) as HO.
      { intros ca co Ha Ho. unfold ocean_part, air, beside. cbn [boxes g_fix g_clip g_area]. destruct (HQ ca Ha) as (a & Ra & Ea & ->). destruct (HQ co Ho) as (b & Rb & Eb & ->).
        rewrite rectangle_clip by lra. assert (wet ex_side ex_side_mask 0 co = 1%R) as -> by (destruct Ho as [<-|[<-|[]]]; wv; lra).
        rewrite (overlap_is 0 1 0 1 1) by (exists 0%R, 1%R; lra).
        destruct (Z.eqb_spec (snd ca) (snd co)) as [E|E].
        - assert (a = b) as -> by congruence. rewrite (overlap_is b (b + 1) b (b + 1) 1) by (exists b, (b + 1)%R; lra). lra.
        - assert (a <> b)%R as N by (intros ->; apply E; apply eq_IZR; congruence). rewrite (overlap_is a (a + 1) b (b + 1) 0); [lra|].
          destruct Ra as [-> | ->], Rb as [-> | ->]; try (exfalso; now apply N); [exists 1%R, 1%R|exists 1%R, 1%R]; lra. }
      assert (forall ca co, In ca [(0, 0); (0, 1)] -> In co [(0, 0); (0, 1)] -> ocean_cell ex_o boxes ex_side ex_side ex_side_mask 0 ca 0 co = if snd ca =? snd co then [XCell (fst ca) (snd ca) (fst co) (snd co) 1] else []) as HC.
      { intros ca co Ha Ho. unfold ocean_cell. assert (wet ex_side ex_side_mask 0 co = 1%R) as -> by (destruct Ho as [<-|[<-|[]]]; wv; lra).
        destruct (Rlt_dec tiny 1) as [|N]; [|exfalso; unfold tiny in N; lra]. rewrite HO by auto.
        assert (forall c, In c [(0, 0); (0, 1)] -> size (tile_at ex_side 0) c = 1%R) as HZ by (intros c [<-|[<-|[]]]; unfold size; wv; lra). rewrite !HZ by auto.
        destruct (snd ca =? snd co); destruct (counts_dec _ _ _ _) as [c|n]; auto.
        - exfalso. apply n. apply ex_counts; lra.
        - exfalso. unfold counts in c. cbn in c. unfold Rdiv in c. rewrite Rmult_0_l in c. lra. }
      rewrite !HC by (cbn; auto). reflexivity.
    + change (zlen ex_side) with 1. lia.
    + intros no Hno. rewrite (ex_one _ _ _ eq_refl Hno). split; [exact HP|]. exists (0, 0), (0, 1). rewrite EC. split; [now left|]. split; [right; now left|].
      exists 1, (0, 0)%R, (0, 2)%R. split; [cbn; lia|]. split; [now left|]. split; [right; right; right; now left|]. cbn. lra.
Qed.
(** The assumptions of the theorems are met by the grids of the example above with npes = 1, and
    with a land cell that an ocean row passes through. *)
Example C74_nonvacuous : exists lats, side_setting ex_o boxes ex_lnd ex_ocn ex_mask /\ along_parallels (tile_at ex_ocn 0) lats /\
  forall a, In a (cells (tile_at ex_lnd 0)) -> crossed (tile_at ex_ocn 0) lats (quad (tile_at ex_lnd 0) a) (quad (tile_at ex_lnd 0) a).
Proof.
  exists (fun j => IZR j / 2)%R. split.
  - pose proof ex_setting as [S1 S2 S3 S4 S5 S6 S7 _ _]. split; auto. intros n m Hn Hm. rewrite (ex_one _ _ _ eq_refl Hn), (ex_one _ _ _ eq_refl Hm). etransitivity; [apply ocean_exchange_len|]. now vm_compute.
  - split.
    + split.
      * intros i j Hi Hj. cbn in Hi, Hj. assert (i = 0 \/ i = 1) as [-> | ->] by lia; assert (j = 0 \/ j = 1 \/ j = 2) as [-> | [-> | ->]] by lia; unfold point, at_; cbn;
          repeat (try change (Pos.to_nat 1) with 1%nat; try change (Pos.to_nat 2) with 2%nat; try change (Pos.to_nat 3) with 3%nat; try change (Pos.to_nat 4) with 4%nat; try change (Pos.to_nat 5) with 5%nat); lra.
      * intros j k Hj Hk. assert (IZR j <= IZR k)%R by (apply IZR_le; lia). lra.
    + rewrite ex_lnd_cells. intros a [<-|[]]. exists 1, (0, 0)%R, (0, 1)%R. split; [cbn; lia|]. split; [now left|]. split; [right; right; right; now left|]. cbn. lra.
Qed.
