(** * A small example for make_coupler_mosaic: 2x1 atmosphere cells, one land cell, 1x2 ocean cells *)
From Coq Require Import Reals Lra.
From Verif Require Import Base Loops Vec P_Interp P_Interp2 P_Coupler P_Coupler4 P_Coupler6 M_Extent M_Interp Spec_Interp M_Coupler Spec_Coupler.
Open Scope Z_scope.

Definition ex_atm : list tile := [Tile 2 1 [0; 1; 2; 0; 1; 2]%R [0; 0; 0; 1; 1; 1]%R [1; 1]%R].
Definition ex_lnd : list tile := [Tile 1 1 [0; 2; 0; 2]%R [0; 0; 1; 1]%R [2]%R].
Definition ex_ocn : list tile := [Tile 1 2 [0; 2; 0; 2; 0; 2]%R [0; 0; 1 / 2; 1 / 2; 1; 1]%R [1; 1]%R].
Definition ex_mask : list (list R) := [[1; 1 / 4]%R].
Definition ex_o : options := Options 100 (1 / 1000000) false false.

Ltac wv := unfold wet, val, at_; cbn; try change (Pos.to_nat 1) with 1%nat; cbn.
Ltac pts := cbn; repeat (apply (f_equal2 cons)); try apply (f_equal2 pair); try reflexivity; cbv [at_ nth t_x t_y t_nx t_ny Z.to_nat Z.mul Z.add Z.sub Z.pos_sub Pos.to_nat Pos.iter_op Pos.add Pos.succ Nat.add Pos.mul]; cbn; lra.
Lemma Rmin_eq a b m : (m = a /\ a <= b \/ m = b /\ b <= a)%R -> Rmin a b = m.
Proof. intros [(-> & H)|(-> & H)]; [now apply Rmin_left|now apply Rmin_right]. Qed.
Lemma Rmax_eq a b m : (m = a /\ b <= a \/ m = b /\ a <= b)%R -> Rmax a b = m.
Proof. intros [(-> & H)|(-> & H)]; [now apply Rmax_left|now apply Rmax_right]. Qed.
Lemma overlap_is a b a' b' x : (exists lo hi, (lo = a /\ a' <= a \/ lo = a' /\ a <= a') /\ (hi = b /\ b <= b' \/ hi = b' /\ b' <= b) /\ (lo <= hi /\ x = hi - lo \/ hi <= lo /\ x = 0))%R -> overlap a b a' b' = x.
Proof.
  intros (lo & hi & H1 & H2 & H3). unfold overlap. rewrite (Rmax_eq a a' lo) by tauto. rewrite (Rmin_eq b b' hi) by tauto. apply Rmax_eq. destruct H3 as [(H3 & ->)|(H3 & ->)]; [right|left]; lra.
Qed.
Definition ex_atm_cell (i : Z) : poly := rectangle (IZR i) (IZR i + 1) 0 1.
Lemma ex_atm_cells : cells (tile_at ex_atm 0) = [(0, 0); (1, 0)].
Proof. reflexivity. Qed.
Lemma ex_lnd_cells : cells (tile_at ex_lnd 0) = [(0, 0)].
Proof. reflexivity. Qed.
Lemma ex_ocn_cells : cells (tile_at ex_ocn 0) = [(0, 0); (0, 1)].
Proof. reflexivity. Qed.
Lemma ex_air ca : In ca (cells (tile_at ex_atm 0)) -> exists a, (a = 0 \/ a = 1)%R /\ air boxes ex_atm 0 ca = rectangle a (a + 1) 0 1.
Proof.
  rewrite ex_atm_cells. intros [<-|[<-|[]]]; [exists 0%R|exists 1%R]; (split; [lra|]); unfold air, rectangle; pts.
Qed.
Lemma ex_beside_ocn na ca co : In co (cells (tile_at ex_ocn 0)) -> exists c, (c = 0 \/ c = 1 / 2)%R /\ beside boxes ex_atm na ca (tile_at ex_ocn 0) co = rectangle 0 2 c (c + 1 / 2) /\
  wet ex_ocn ex_mask 0 co = (if Req_EM_T c 0 then 1 else 1 / 4)%R.
Proof.
  rewrite ex_ocn_cells. intros [<-|[<-|[]]]; [exists 0%R|exists (1 / 2)%R]; (split; [lra|]); (split; [unfold beside, rectangle; pts|destruct (Req_EM_T _ _) as [E|E]; wv; lra || (exfalso; apply E; lra)]).
Qed.
Lemma ex_beside_lnd na ca : beside boxes ex_atm na ca (tile_at ex_lnd 0) (0, 0) = rectangle 0 2 0 1.
Proof. reflexivity. Qed.
Lemma ex_ground ca : In ca (cells (tile_at ex_atm 0)) -> ground ex_o boxes ex_atm ex_lnd 0 ca 0 (0, 0) = air boxes ex_atm 0 ca.
Proof.
  intros H. unfold ground. cbn [ex_o o_lnd_same]. rewrite ex_beside_lnd. destruct (ex_air ca H) as (a & Ha & ->). cbn [boxes g_clip].
  assert (Rmax a 0 = a) as E1 by (apply Rmax_left; lra). assert (Rmin (a + 1) 2 = (a + 1)%R) as E2 by (apply Rmin_left; lra).
  assert (Rmax 0 0 = 0%R) as E3 by (apply Rmax_left; lra). assert (Rmin 1 1 = 1%R) as E4 by (apply Rmin_left; lra).
  rewrite rectangle_some; rewrite ?E1, ?E2, ?E3, ?E4; lra || reflexivity.
Qed.
Lemma ex_common ca co : In ca (cells (tile_at ex_atm 0)) -> In co (cells (tile_at ex_ocn 0)) -> common boxes ex_atm ex_ocn 0 ca (0, co) = (1 / 2)%R.
Proof.
  intros Ha Ho. unfold common. cbn [fst snd]. destruct (ex_air ca Ha) as (a & Ea & ->). destruct (ex_beside_ocn 0 ca co Ho) as (c & Ec & -> & _). cbn [boxes g_clip g_area].
  rewrite rectangle_clip by lra. rewrite (overlap_is a (a + 1) 0 2 1) by (exists a, (a + 1)%R; lra). rewrite (overlap_is 0 1 c (c + 1 / 2) (1 / 2)) by (exists c, (c + 1 / 2)%R; lra). lra.
Qed.
Lemma ex_common3 ca co : In ca (cells (tile_at ex_atm 0)) -> In co (cells (tile_at ex_ocn 0)) -> common3 ex_o boxes ex_atm ex_lnd ex_ocn 0 ca (0, (0, 0)) (0, co) = (1 / 2)%R.
Proof. intros Ha Ho. unfold common3. cbn [fst snd]. rewrite ex_ground by auto. now apply (ex_common ca co). Qed.
Lemma ex_ground_area ca : In ca (cells (tile_at ex_atm 0)) -> g_area boxes (ground ex_o boxes ex_atm ex_lnd 0 ca 0 (0, 0)) = 1%R.
Proof. intros H. rewrite ex_ground by auto. destruct (ex_air ca H) as (a & Ea & ->). cbn [boxes g_area]. rewrite rectangle_area by lra. lra. Qed.
Lemma ex_sizes : (forall ca, In ca (cells (tile_at ex_atm 0)) -> size (tile_at ex_atm 0) ca = 1%R) /\ size (tile_at ex_lnd 0) (0, 0) = 2%R /\
  (forall co, In co (cells (tile_at ex_ocn 0)) -> size (tile_at ex_ocn 0) co = 1%R).
Proof. rewrite ex_atm_cells, ex_ocn_cells. repeat split; intros ? [<-|[<-|[]]]; reflexivity. Qed.
Lemma ex_one (l : list tile) t n : l = [t] -> 0 <= n < zlen l -> n = 0.
Proof. intros -> H. change (zlen [t]) with 1 in H. lia. Qed.

Lemma ex_setting : setting ex_o boxes ex_atm ex_lnd ex_ocn ex_mask.
Proof.
  destruct ex_sizes as (S1 & S2 & S3).
  split.
  - exact boxes_sound.
  - cbn. lra.
  - intros na Hn. rewrite (ex_one _ _ _ eq_refl Hn). repeat split; try (cbn; lia); try reflexivity. intros c Hc. rewrite S1 by auto. lra.
  - intros na Hn. rewrite (ex_one _ _ _ eq_refl Hn). repeat split; try (cbn; lia); try reflexivity. rewrite ex_lnd_cells. intros c [<-|[]]. rewrite S2. lra.
  - intros na Hn. rewrite (ex_one _ _ _ eq_refl Hn). repeat split; try (cbn; lia); try reflexivity. intros c Hc. rewrite S3 by auto. lra.
  - discriminate.
  - split; [reflexivity|]. intros no Hn. rewrite (ex_one _ _ _ eq_refl Hn). reflexivity.
  - discriminate.
  - intros _ na ca no co Hn Hca Ho Hco a b _ _. cbn [boxes g_fix]. split; [now destruct co|]. split; [reflexivity|]. now left.
Qed.
Lemma ex_room : room ex_o boxes ex_atm ex_lnd ex_ocn ex_mask.
Proof.
  split.
  - intros na no Hn Ho. rewrite (ex_one _ _ _ eq_refl Hn), (ex_one _ _ _ eq_refl Ho). etransitivity; [apply ocean_exchange_len|]. rewrite ex_atm_cells, ex_ocn_cells. now vm_compute.
  - intros na no Hn Ho. rewrite (ex_one _ _ _ eq_refl Hn), (ex_one _ _ _ eq_refl Ho). etransitivity; [apply land_exchange_len|]. rewrite ex_atm_cells, ex_lnd_cells. now vm_compute.
  - intros na ca Hn Hc. etransitivity; [apply (grounds_len _ _ _ _ _ _ 1)|]; [|lia|change (zlen ex_lnd) with 1; lia]. intros nl Hl. rewrite (ex_one _ _ _ eq_refl Hl), ex_lnd_cells. now vm_compute.
Qed.
Lemma ex_counts area a b : (1 / 1000 <= area)%R -> (0 < a <= 2)%R -> (0 < b <= 2)%R -> counts ex_o area a b.
Proof.
  intros H Ha Hb. unfold counts. cbn [ex_o o_thresh]. assert (0 < Rmin a b <= 2)%R as (M1 & M2) by (unfold Rmin; destruct (Rle_dec a b); lra).
  set (m := Rmin a b) in *. assert (area / m * m = area)%R as E by (field; lra). apply Rnot_le_lt. intros C. nra.
Qed.
Lemma ex_ocean_list : ocean_cells ex_o ex_ocn 0 = [(0, (0, 0)); (0, (0, 1))].
Proof. reflexivity. Qed.
Lemma ex_land_list : land_cells ex_lnd = [(0, (0, 0))].
Proof. reflexivity. Qed.
Lemma ex_ocean_in x : In x (ocean_cells ex_o ex_ocn 0) -> exists co, x = (0, co) /\ In co (cells (tile_at ex_ocn 0)).
Proof. rewrite ex_ocean_list, ex_ocn_cells. intros [<-|[<-|[]]]; eexists; split; try reflexivity; cbn; auto. Qed.
Lemma ex_tiled ca : In ca (cells (tile_at ex_atm 0)) -> tiled ex_o boxes ex_atm ex_lnd ex_ocn 0 ca.
Proof.
  intros H. destruct ex_sizes as (S1 & S2 & S3). split.
  - rewrite ex_ocean_list, !rsum_cons, rsum_nil, !ex_common, S1 by (rewrite ?ex_ocn_cells; cbn; auto). lra.
  - intros x Hx. destruct (ex_ocean_in x Hx) as (co & -> & Hco). rewrite ex_land_list, rsum_one, ex_common3, ex_common by auto. reflexivity.
Qed.
Lemma ex_wet co : In co (cells (tile_at ex_ocn 0)) -> (wet ex_ocn ex_mask 0 co = 1 \/ wet ex_ocn ex_mask 0 co = 1 / 4)%R.
Proof. rewrite ex_ocn_cells. intros [<-|[<-|[]]]; wv; lra. Qed.
Lemma ex_clean co : In co (cells (tile_at ex_ocn 0)) -> clean_fraction (wet ex_ocn ex_mask 0 co) /\ fraction (wet ex_ocn ex_mask 0 co).
Proof. intros H. unfold clean_fraction, fraction, tiny. destruct (ex_wet co H) as [->| ->]; lra. Qed.
Lemma ex_ocean_counts ca co : In ca (cells (tile_at ex_atm 0)) -> In co (cells (tile_at ex_ocn 0)) ->
  counts ex_o (ocean_part boxes ex_atm ex_ocn ex_mask 0 ca 0 co) (size (tile_at ex_ocn 0) co) (size (tile_at ex_atm 0) ca).
Proof.
  intros Ha Ho. destruct ex_sizes as (S1 & _ & S3). rewrite S1, S3 by auto. apply ex_counts; try lra.
  change (1 / 1000 <= common boxes ex_atm ex_ocn 0%Z ca (0%Z, co) * wet ex_ocn ex_mask 0 co)%R. rewrite ex_common by auto. destruct (ex_wet co Ho) as [-> | ->]; lra.
Qed.
Lemma ex_no_slivers ca : In ca (cells (tile_at ex_atm 0)) -> no_slivers ex_o boxes ex_atm ex_lnd ex_ocn ex_mask 0 ca.
Proof.
  intros H. destruct ex_sizes as (S1 & S2 & S3). split.
  - intros x Hx. destruct (ex_ocean_in x Hx) as (co & -> & Hco). right. left. now apply ex_ocean_counts.
  - rewrite ex_land_list. intros l [<-|[]]. cbn [fst snd].
    assert (forall co, In co (cells (tile_at ex_ocn 0)) -> dry_part ex_o boxes ex_atm ex_lnd ex_ocn ex_mask 0 ca 0 (0, 0) 0 co = (1 / 2 * (1 - wet ex_ocn ex_mask 0 co))%R) as HD.
    { intros co Hco. change (dry_part ex_o boxes ex_atm ex_lnd ex_ocn ex_mask 0 ca 0 (0, 0) 0 co) with (common3 ex_o boxes ex_atm ex_lnd ex_ocn 0 ca (0%Z, (0%Z, 0%Z)) (0%Z, co) * (1 - wet ex_ocn ex_mask 0 co))%R. now rewrite ex_common3. }
    assert (forall a, (1 / 1000 <= a)%R -> land_counts ex_o ex_atm ex_lnd 0 ca 0 (0, 0) a) as HC.
    { intros a Ha. unfold land_counts. rewrite S1, S2 by auto. apply ex_counts; lra. }
    split; [left; unfold is_ground; apply HC; rewrite ex_ground_area by auto; lra|]. split.
    + right. apply HC. rewrite larea_list, ex_ocean_list, !rsum_cons, rsum_nil. cbn [fst snd]. unfold dry_area at 2.
      rewrite HD by (rewrite ex_ocn_cells; cbn; auto). assert (wet ex_ocn ex_mask 0 (0, 1) = (1 / 4)%R) as -> by (wv; lra).
      destruct (Rlt_dec tiny (1 - 1 / 4)) as [|N]; [|unfold tiny in N; lra]. destruct (land_counts_dec _ _ _ _ _ _ _ _) as [|N]; [|exfalso; apply N; apply HC; lra].
      assert (0 <= dry_area ex_o boxes ex_atm ex_lnd ex_ocn ex_mask 0%Z ca 0%Z (0%Z, 0%Z) 0%Z (0%Z, 0%Z))%R; [|lra]. unfold dry_area. rewrite HD by (rewrite ex_ocn_cells; cbn; auto).
      assert (wet ex_ocn ex_mask 0 (0, 0) = 1%R) as -> by (wv; lra). destruct (Rlt_dec _ _); [destruct (land_counts_dec _ _ _ _ _ _ _ _)|]; lra.
    + intros x Hx. destruct (ex_ocean_in x Hx) as (co & -> & Hco). cbn [fst snd]. destruct (ex_wet co Hco) as [E|E]; [auto|]. right. left. apply HC. rewrite HD, E by auto. lra.
Qed.
Lemma ex_under co : In co (cells (tile_at ex_ocn 0)) -> under_air ex_o boxes ex_atm ex_ocn ex_mask (-1) 0 co.
Proof.
  intros H. destruct ex_sizes as (S1 & S2 & S3). assert (air_cells ex_o ex_atm (-1) 0 = [(0, (0, 0)); (0, (1, 0))]) as E by reflexivity. split.
  - rewrite E, !rsum_cons, rsum_nil, S3 by auto. cbn [fst snd]. rewrite !ex_common by (rewrite ?ex_atm_cells; cbn; auto). lra.
  - rewrite E. intros a [<-|[<-|[]]]; cbn [fst snd]; right; left; apply ex_ocean_counts; auto; rewrite ex_atm_cells; cbn; auto.
Qed.
(** The exchange grid *)
Lemma ex_ocean_exchange : ocean_exchange ex_o boxes ex_atm ex_ocn ex_mask 0 0 = [XCell 0 0 0 0 (1 / 2); XCell 0 0 0 1 (1 / 8); XCell 1 0 0 0 (1 / 2); XCell 1 0 0 1 (1 / 8)].
Proof.
  unfold ocean_exchange. cbn [facing Z.eqb orb]. rewrite ex_atm_cells, ex_ocn_cells. cbn [flat_map].
  assert (forall ca co w, In ca (cells (tile_at ex_atm 0)) -> In co (cells (tile_at ex_ocn 0)) -> wet ex_ocn ex_mask 0 co = w ->
    ocean_cell ex_o boxes ex_atm ex_ocn ex_mask 0 ca 0 co = [XCell (fst ca) (snd ca) (fst co) (snd co) (1 / 2 * w)]) as G.
  { intros ca co w Ha Ho Ew. unfold ocean_cell. destruct (Rlt_dec tiny (wet ex_ocn ex_mask 0 co)) as [|N]; [|exfalso; apply N; unfold tiny; destruct (ex_wet co Ho) as [-> | ->]; lra].
    destruct (counts_dec _ _ _ _) as [|N]; [|exfalso; apply N; now apply ex_ocean_counts]. do 2 f_equal.
    change (common boxes ex_atm ex_ocn 0%Z ca (0%Z, co) * wet ex_ocn ex_mask 0 co = 1 / 2 * w)%R. rewrite ex_common, Ew by auto. reflexivity. }
  rewrite (G (0, 0) (0, 0) 1%R), (G (0, 0) (0, 1) (1 / 4)%R), (G (1, 0) (0, 0) 1%R), (G (1, 0) (0, 1) (1 / 4)%R) by (rewrite ?ex_atm_cells, ?ex_ocn_cells; cbn; auto; wv; lra).
  cbn [app fst snd]. repeat (apply (f_equal2 cons)); try reflexivity; apply f_equal; lra.
Qed.

(** ** The same grid on both sides *)
Definition ex_side : list tile := [Tile 1 2 [0; 1; 0; 1; 0; 1]%R [0; 0; 1; 1; 2; 2]%R [1; 1]%R].
Definition ex_side_mask : list (list R) := [[1; 1]%R].
Lemma on_two {A} (work : Z -> Z -> outcome A) a b : work 0 0 = Ok a -> work 1 1 = Ok b -> on_all 2 2 work = Ok [a; b].
Proof.
  intros Ha Hb. unfold on_all. change (mpp_compute_extent 2 2 (repeat 0 (Z.to_nat 2)) (repeat 0 (Z.to_nat 2))) with (Ok ([0; 1], [0; 1])). cbn [bind].
  unfold ofor. change (zseq 0 2) with [0; 1]. cbn [ofold]. change (oget [0; 1] 0) with (Ok 0). change (oget [0; 1] 1) with (Ok 1). cbn [bind]. rewrite Ha, Hb. reflexivity.
Qed.

Ltac rtest := repeat match goal with |- context [rlt ?x ?y] => lazymatch x with context [rlt] => fail | _ => lazymatch y with context [rlt] => fail | _ => destruct (rlt_spec x y); try lra end end end.
