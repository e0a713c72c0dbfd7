(** C86: averaging from a finer grid (--finer_step of fregrid). *)
From Coq Require Import Reals ZArith List Bool Lia Lra Psatz.
From Verif Require Import Base Loops M_Interp P_Longitude P_Gnomonic2 Spec_Gnomonic Spec_Schmidt Spec_Bilinear M_Bilinear P_Coarsen.
Import ListNotations.
Open Scope R_scope.

(** One step, for a field without missing values: area means, samples at the poles; if the field
    has a missing value, although no value is missing, everything but the poles is divided by it. *)
Theorem C86_mean m k V Y varfin yfin (has_missing : bool) missing cosp acosp tmp crs : (1 <= m)%Z -> (1 <= k)%Z ->
  let nx := (2 * m)%Z in let ny := (2 * k + 1)%Z in
  (forall j i, (0 <= j < ny)%Z -> (0 <= i < nx)%Z -> zget varfin (j * nx + i) = Some (V j i)) ->
  (forall j, (0 <= j < ny)%Z -> zget yfin j = Some (Y j)) -> (forall j, (0 < j < ny - 1)%Z -> - (PI / 2) < Y j < PI / 2) ->
  zlen cosp = ny -> zlen acosp = ny -> zlen tmp = (m * ny)%Z -> zlen crs = (m * (k + 1))%Z ->
  (has_missing = true -> missing <> 0 /\ (forall j i, (0 <= j < ny)%Z -> (0 <= i < nx)%Z -> V j i <> missing)
    /\ (forall j i, (0 < j < ny - 1)%Z -> (0 <= i < m)%Z -> mean_x nx V j (2 * i) * cos (Y j) / missing <> missing)) ->
  exists out, redu2x varfin yfin nx ny crs m (k + 1) has_missing missing cosp acosp tmp = Ok out /\ zlen out = (m * (k + 1))%Z
  /\ (forall i, (0 <= i < m)%Z -> zget out i = Some (V 0%Z (2 * i)%Z) /\ zget out (k * m + i) = Some (V (2 * k)%Z (2 * i)%Z))
  /\ (forall j i, (0 < j < k)%Z -> (0 <= i < m)%Z ->
       zget out (j * m + i) = Some (if has_missing then mean_area nx Y V (2 * j) (2 * i) / missing else mean_area nx Y V (2 * j) (2 * i))).
Proof.
  intros Hm Hk nx ny HV HY HC Lc La Lt Lv HM. destruct (redu_spec m k V Y varfin yfin has_missing missing Hm Hk HV HY HC HM cosp acosp tmp crs Lc La Lt Lv) as (out & E & L & P & G).
  exists out. split; auto. split; auto. split; auto. intros j i Hj Hi. rewrite (G j i Hj Hi). f_equal. fold nx. unfold scaling. destruct has_missing; unfold Rdiv; ring.
Qed.

(** The mean lies between the values it is made of. *)
Lemma wavg a b c x y z lo hi : 0 <= a -> 0 < b -> 0 <= c -> lo <= x <= hi -> lo <= y <= hi -> lo <= z <= hi -> lo <= (a * x + b * y + c * z) / (a + b + c) <= hi.
Proof.
  intros A B C X Y Z. assert (S : 0 < a + b + c) by lra.
  assert (K : forall u v, 0 <= u -> lo <= v <= hi -> u * lo <= u * v <= u * hi) by (clear; intros u v U [V1 V2]; split; apply Rmult_le_compat_l; auto).
  pose proof (K a x A X). pose proof (K b y ltac:(lra) Y). pose proof (K c z C Z).
  split; apply (Rmult_le_reg_r (a + b + c)); auto; unfold Rdiv; rewrite Rmult_assoc, Rinv_l by lra; lra.
Qed.

(** The means of --finer_step 0, 1, 2, ... steps are defined, have the size of the destination grid
    and give no value outside the range of the field: a constant field stays constant. *)
Theorem C86_steps steps junk m k ylat var missing lo hi : (1 <= m)%Z -> (1 <= k)%Z -> (forall n, (0 <= n)%Z -> zlen (junk n) = n) ->
  let nx := fine_nx (Z.of_nat steps) m in let ny := fine_ny (Z.of_nat steps) (k + 1) in
  zlen var = (ny * nx)%Z -> (forall p, (0 <= p < ny * nx)%Z -> exists v, zget var p = Some v /\ lo <= v <= hi) ->
  (forall j, (0 <= j < ny)%Z -> exists y, zget ylat j = Some y /\ ((0 < j < ny - 1)%Z -> - (PI / 2) < y < PI / 2)) ->
  exists out, latlon_coarsening junk steps ylat var nx ny false missing = Ok out /\ zlen out = ((k + 1) * m)%Z
  /\ forall p, (0 <= p < (k + 1) * m)%Z -> exists v, zget out p = Some v /\ lo <= v <= hi.
Proof.
  intros Hm Hk HJ nx0 ny0 Lv0 Hv0 Hy0. unfold latlon_coarsening.
  assert (ST : forall steps (first : bool) var, let nx := (2 ^ Z.of_nat steps * m)%Z in let ny := (2 ^ Z.of_nat steps * k + 1)%Z in
    zlen var = (ny * nx)%Z -> (forall p, (0 <= p < ny * nx)%Z -> exists v, zget var p = Some v /\ lo <= v <= hi) ->
    (first = true -> forall j, (0 <= j < ny)%Z -> exists y, zget ylat j = Some y /\ ((0 < j < ny - 1)%Z -> - (PI / 2) < y < PI / 2)) ->
    exists out, coarsen_steps steps junk first ylat var nx ny false missing = Ok out /\ zlen out = ((k + 1) * m)%Z
    /\ forall p, (0 <= p < (k + 1) * m)%Z -> exists v, zget out p = Some v /\ lo <= v <= hi).
  2: { unfold nx0, ny0, fine_nx, fine_ny in *. replace (k + 1 - 1)%Z with k in * by lia. apply ST; auto. }
  clear nx0 ny0 Lv0 Hv0 Hy0 steps var. intros steps. induction steps as [|s IH]; intros first var nx ny Lv Hv Hy.
  - exists var. cbn [coarsen_steps]. assert (Ex : nx = m) by (unfold nx; change (2 ^ Z.of_nat 0)%Z with 1%Z; lia). assert (Ey : ny = (k + 1)%Z) by (unfold ny; change (2 ^ Z.of_nat 0)%Z with 1%Z; lia).
    clearbody nx ny. subst. auto.
  - cbn [coarsen_steps]. set (m' := (2 ^ Z.of_nat s * m)%Z). set (k' := (2 ^ Z.of_nat s * k)%Z).
    assert (P2 : (1 <= 2 ^ Z.of_nat s)%Z) by (pose proof (Z.pow_pos_nonneg 2 (Z.of_nat s)); lia).
    assert (Ex : nx = (2 * m')%Z) by (unfold nx, m'; rewrite Nat2Z.inj_succ, Z.pow_succ_r by lia; ring).
    assert (Ey : ny = (2 * k' + 1)%Z) by (unfold ny, k'; rewrite Nat2Z.inj_succ, Z.pow_succ_r by lia; ring).
    assert (Hm' : (1 <= m')%Z) by (unfold m'; nia). assert (Hk' : (1 <= k')%Z) by (unfold k'; nia). clearbody nx ny.
    assert (Y : exists y, (if first then Ok ylat else
        do y <- oset (junk ny) 0 (- (5 / 10) * PI) ; do y <- oset y (ny - 1) (5 / 10 * PI) ;
        ofor 1 (ny - 2) (fun y j => do y0 <- oget y 0 ; oset y j (y0 + IZR j * (PI / IZR (ny - 1)))) y) = Ok y
        /\ forall j, (0 <= j < ny)%Z -> exists v, zget y j = Some v /\ ((0 < j < ny - 1)%Z -> - (PI / 2) < v < PI / 2)).
    { destruct first; [exists ylat; split; [reflexivity|apply Hy; reflexivity]|].
      destruct (oset_run (junk ny) 0 (- (5 / 10) * PI)) as (y0 & -> & L0 & G0 & N0). { rewrite HJ; lia. } cbn [bind].
      destruct (oset_run y0 (ny - 1) (5 / 10 * PI)) as (y1 & -> & L1 & G1 & N1). { rewrite L0, HJ; lia. } cbn [bind].
      match goal with |- context [ofor 1 (ny - 2) ?f y1] => destruct (ofor_inv (fun i s => zlen s = ny /\ zget s 0 = Some (- (5 / 10) * PI) /\ zget s (ny - 1) = Some (5 / 10 * PI)
        /\ forall j, (0 < j < i)%Z -> zget s j = Some (- (5 / 10) * PI + IZR j * (PI / IZR (ny - 1)))) f 1 (ny - 2) y1) as (y2 & -> & L2 & A2 & B2 & G2) end.
      - lia.
      - split; [rewrite L1, L0, HJ; lia|]. split; [rewrite N1 by lia; auto|]. split; auto. intros; lia.
      - intros i t Hi (L & A & B & G). rewrite (oget_some _ _ _ A). cbn [bind].
        destruct (oset_run t i (- (5 / 10) * PI + IZR i * (PI / IZR (ny - 1)))) as (t' & -> & L' & G' & N'). { lia. }
        exists t'. split; auto. split; [lia|]. split; [rewrite N' by lia; auto|]. split; [rewrite N' by lia; auto|].
        intros j Hj. destruct (Z.eq_dec j i) as [->|Ne]; auto. rewrite N' by auto. apply G. lia.
      - exists y2. split; auto. intros j Hj. destruct (Z.eq_dec j 0) as [->|N0']; [eexists; split; [eauto|lia]|]. destruct (Z.eq_dec j (ny - 1)) as [->|N1']; [eexists; split; [eauto|lia]|].
        eexists. split; [apply G2; lia|]. intros Hj'. pose proof PI_RGT_0 as HP. assert (B1 : 0 < IZR j) by (apply IZR_lt; lia). assert (B3 : IZR j < IZR (ny - 1)) by (apply IZR_lt; lia).
        assert (Q : IZR j * (PI / IZR (ny - 1)) = IZR j / IZR (ny - 1) * PI) by (field; lra). rewrite Q.
        assert (F : 0 < IZR j / IZR (ny - 1) < 1). { split; [apply Rdiv_lt_0_compat; lra|]. apply (Rmult_lt_reg_r (IZR (ny - 1))); [lra|]. unfold Rdiv. rewrite Rmult_assoc, Rinv_l by lra. lra. }
        nra. }
    destruct Y as (y & -> & Hy'). cbn [bind].
    set (V := fun j i => match zget var (j * nx + i) with Some v => v | None => 0 end). set (YY := fun j => match zget y j with Some v => v | None => 0 end).
    assert (HV : forall j i, (0 <= j < 2 * k' + 1)%Z -> (0 <= i < 2 * m')%Z -> zget var (j * nx + i) = Some (V j i) /\ lo <= V j i <= hi).
    { intros j i Hj Hi. destruct (Hv (j * nx + i)%Z ltac:(nia)) as (v & E & B). unfold V. rewrite E. auto. }
    assert (HYY : forall j, (0 <= j < 2 * k' + 1)%Z -> zget y j = Some (YY j) /\ ((0 < j < ny - 1)%Z -> - (PI / 2) < YY j < PI / 2)).
    { intros j Hj. destruct (Hy' j ltac:(lia)) as (v & E & B). unfold YY. rewrite E. auto. }
    assert (Dm : (nx / 2 = m')%Z) by (rewrite Ex, Z.mul_comm; apply Z.div_mul; lia).
    assert (Dk : ((ny - 1) / 2 = k')%Z) by (rewrite Ey; replace (2 * k' + 1 - 1)%Z with (k' * 2)%Z by ring; apply Z.div_mul; lia).
    rewrite Dm, Dk.
    destruct (redu_spec m' k' V YY var y false missing Hm' Hk') with (cosp := junk ny) (acosp := junk ny) (tmp := junk (m' * ny)%Z) (crs := junk (m' * (k' + 1))%Z) as (o & E & L & P & G).
    { intros j i Hj Hi. rewrite <- Ex. apply HV; auto. } { intros j Hj. apply HYY; auto. } { intros j Hj. apply HYY; lia. } { discriminate. }
    { rewrite HJ; lia. } { rewrite HJ; lia. } { rewrite HJ; nia. } { rewrite HJ; nia. }
    rewrite <- Ex, <- Ey in E. rewrite E. cbn [bind].
    assert (HO : forall p, (0 <= p < (k' + 1) * m')%Z -> exists v, zget o p = Some v /\ lo <= v <= hi).
    { intros p Hp. destruct (divmod_range (k' + 1) m' p ltac:(lia) Hp) as (_ & Hj & Hi & Ep). set (j := (p / m')%Z) in *. set (i := (p mod m')%Z) in *. rewrite Ep.
      assert (MX : forall j i, (0 <= j < ny)%Z -> (0 <= i < m')%Z -> lo <= mean_x nx V j (2 * i) <= hi).
      { intros j0 i0 Hj0 Hi0. unfold mean_x. pose proof (Z.mod_pos_bound (2 * i0 - 1) nx ltac:(lia)). pose proof (Z.mod_pos_bound (2 * i0 + 1) nx ltac:(lia)).
        pose proof (proj2 (HV j0 ((2 * i0 - 1) mod nx)%Z ltac:(lia) ltac:(lia))). pose proof (proj2 (HV j0 ((2 * i0 + 1) mod nx)%Z ltac:(lia) ltac:(lia))). pose proof (proj2 (HV j0 (2 * i0)%Z ltac:(lia) ltac:(lia))). lra. }
      destruct (Z.eq_dec j 0) as [->|N0]. { destruct (P i Hi) as [A _]. replace (0 * m' + i)%Z with i by ring. exists (V 0%Z (2 * i)%Z). split; auto. apply HV; lia. }
      destruct (Z.eq_dec j k') as [->|N1]. { destruct (P i Hi) as [_ A]. exists (V (2 * k')%Z (2 * i)%Z). split; auto. apply HV; lia. }
      exists (mean_area nx YY V (2 * j) (2 * i)). split. { rewrite (G j i ltac:(lia) Hi). f_equal. unfold scaling. rewrite Ex. ring. }
      unfold mean_area. assert (CP : forall j, (0 < j < ny - 1)%Z -> 0 < cos (YY j)) by (intros j0 Hj0; apply cos_gt_0; apply HYY; lia).
      pose proof (CP (2 * j - 1)%Z ltac:(lia)). pose proof (CP (2 * j)%Z ltac:(lia)). pose proof (CP (2 * j + 1)%Z ltac:(lia)). apply wavg; try lra; apply MX; lia. }
    destruct (IH false o) as (out & Eo & Lo & Go).
    { fold m' k'. rewrite L. ring. } { fold m' k'. intros p Hp. apply HO. auto. }
    { discriminate. }
    exists out. fold m' k' in Eo. split; auto.
Qed.

(** Where the means belong: the mean labelled with longitude i of the destination grid is centred a
    quarter of a cell to the west of it, whatever the latitudes. *)
Theorem C86_shift m k Y yfin varfin lonbegin lonend missing cosp acosp tmp crs : (1 <= m)%Z -> (1 <= k)%Z ->
  let nx := (2 * m)%Z in let ny := (2 * k + 1)%Z in
  (forall j i, (0 <= j < ny)%Z -> (0 <= i < nx)%Z -> zget varfin (j * nx + i) = Some (lon_centre lonbegin lonend nx i)) ->
  (forall j, (0 <= j < ny)%Z -> zget yfin j = Some (Y j)) -> (forall j, (0 < j < ny - 1)%Z -> - (PI / 2) < Y j < PI / 2) ->
  zlen cosp = ny -> zlen acosp = ny -> zlen tmp = (m * ny)%Z -> zlen crs = (m * (k + 1))%Z ->
  exists out, redu2x varfin yfin nx ny crs m (k + 1) false missing cosp acosp tmp = Ok out
  /\ forall j i, (0 < j < k)%Z -> (0 < i < m)%Z -> zget out (j * m + i) = Some (lon_centre lonbegin lonend m i - (lonend - lonbegin) / IZR m / 4).
Proof.
  intros Hm Hk nx ny HV HY HC Lc La Lt Lv.
  destruct (C86_mean m k (fun _ i => lon_centre lonbegin lonend nx i) Y varfin yfin false missing cosp acosp tmp crs Hm Hk HV HY HC Lc La Lt Lv) as (out & E & _ & _ & G); [discriminate|].
  exists out. split; auto. intros j i Hj Hi. rewrite (G j i Hj ltac:(lia)). f_equal.
  assert (CP : forall j, (0 < j < ny - 1)%Z -> 0 < cos (Y j)) by (intros j0 Hj0; apply cos_gt_0; apply HC; lia).
  pose proof (CP (2 * j - 1)%Z ltac:(unfold ny; lia)). pose proof (CP (2 * j)%Z ltac:(unfold ny; lia)). pose proof (CP (2 * j + 1)%Z ltac:(unfold ny; lia)).
  assert (MX : forall j, mean_x (2 * m) (fun _ i => lon_centre lonbegin lonend nx i) j (2 * i) = lon_centre lonbegin lonend nx (2 * i)).
  { intros j0. unfold mean_x. rewrite !Z.mod_small by lia. unfold lon_centre. rewrite minus_IZR, plus_IZR, mult_IZR. field. unfold nx. apply not_0_IZR. lia. }
  unfold mean_area. rewrite !MX. unfold lon_centre, nx. rewrite !mult_IZR. assert (IZR m <> 0) by (apply not_0_IZR; lia). field. split; lra.
Qed.

Theorem C86_shift_refuted :
  ~ (forall m k yfin varfin lonbegin lonend missing cosp acosp tmp crs out, (1 <= m)%Z -> (1 <= k)%Z ->
      (forall j i, (0 <= j < 2 * k + 1)%Z -> (0 <= i < 2 * m)%Z -> zget varfin (j * (2 * m) + i) = Some (lon_centre lonbegin lonend (2 * m) i)) ->
      redu2x varfin yfin (2 * m) (2 * k + 1) crs m (k + 1) false missing cosp acosp tmp = Ok out ->
      forall j i, (0 < j < k)%Z -> (0 < i < m)%Z -> zget out (j * m + i) = Some (lon_centre lonbegin lonend m i)).
Proof.
  intros H. set (row := [lon_centre 0 2 4 0; lon_centre 0 2 4 1; lon_centre 0 2 4 2; lon_centre 0 2 4 3]).
  assert (HV : forall j i, (0 <= j < 2 * 2 + 1)%Z -> (0 <= i < 2 * 2)%Z -> zget (row ++ row ++ row ++ row ++ row) (j * (2 * 2) + i) = Some (lon_centre 0 2 (2 * 2) i)).
  { intros j i Hj Hi. assert (j = 0 \/ j = 1 \/ j = 2 \/ j = 3 \/ j = 4)%Z as [->|[->|[->|[->| ->]]]] by lia; assert (i = 0 \/ i = 1 \/ i = 2 \/ i = 3)%Z as [->|[->|[->| ->]]] by lia; reflexivity. }
  destruct (C86_shift 2 2 (fun _ => 0) (repeat 0 5) (row ++ row ++ row ++ row ++ row) 0 2 0 (repeat 0 5) (repeat 0 5) (repeat 0 10) (repeat 0 6)) as (out & E & G); try lia; try reflexivity; auto.
  { intros j Hj. assert (j = 0 \/ j = 1 \/ j = 2 \/ j = 3 \/ j = 4)%Z as [->|[->|[->|[->| ->]]]] by lia; reflexivity. }
  { intros. pose proof PI_RGT_0. lra. }
  specialize (H 2%Z 2%Z _ _ _ _ _ _ _ _ _ out ltac:(lia) ltac:(lia) HV E 1%Z 1%Z ltac:(lia) ltac:(lia)).
  rewrite (G 1%Z 1%Z) in H by lia. injection H as H. unfold lon_centre in H. lra.
Qed.

(** A constant field that has a missing value, but no missing values, does not stay constant. *)
Theorem C86_missing_refuted :
  ~ (forall m k yfin varfin c missing cosp acosp tmp crs out, (1 <= m)%Z -> (1 <= k)%Z -> c <> missing ->
      (forall j i, (0 <= j < 2 * k + 1)%Z -> (0 <= i < 2 * m)%Z -> zget varfin (j * (2 * m) + i) = Some c) ->
      redu2x varfin yfin (2 * m) (2 * k + 1) crs m (k + 1) true missing cosp acosp tmp = Ok out ->
      forall j i, (0 < j < k)%Z -> (0 <= i < m)%Z -> zget out (j * m + i) = Some c).
Proof.
  intros H.
  assert (HV : forall j i, (0 <= j < 2 * 2 + 1)%Z -> (0 <= i < 2 * 1)%Z -> zget (repeat 1 10) (j * (2 * 1) + i) = Some 1).
  { intros j i Hj Hi. assert (j = 0 \/ j = 1 \/ j = 2 \/ j = 3 \/ j = 4)%Z as [->|[->|[->|[->| ->]]]] by lia; assert (i = 0 \/ i = 1)%Z as [->| ->] by lia; reflexivity. }
  assert (MX : forall j i, mean_x (2 * 1) (fun _ _ => 1) j i = 1) by (intros; unfold mean_x; lra).
  destruct (C86_mean 1 2 (fun _ _ => 1) (fun _ => 0) (repeat 1 10) (repeat 0 5) true 100 (repeat 0 5) (repeat 0 5) (repeat 0 5) (repeat 0 3)) as (out & E & _ & _ & G); try lia; try reflexivity; auto.
  { intros j Hj. assert (j = 0 \/ j = 1 \/ j = 2 \/ j = 3 \/ j = 4)%Z as [->|[->|[->|[->| ->]]]] by lia; reflexivity. }
  { intros. pose proof PI_RGT_0. lra. }
  { intros _. split; [lra|]. split; [intros; lra|]. intros. rewrite MX, cos_0. lra. }
  specialize (H 1%Z 2%Z (repeat 0 5) (repeat 1 10) 1 100 (repeat 0 5) (repeat 0 5) (repeat 0 5) (repeat 0 3) out ltac:(lia) ltac:(lia) ltac:(lra) HV E 1%Z 0%Z ltac:(lia) ltac:(lia)).
  rewrite (G 1%Z 0%Z) in H by lia. injection H as H. unfold mean_area in H. rewrite !MX, cos_0 in H. assert (Q : (1 / 2 * 1 + 1 * 1 + 1 / 2 * 1) / (1 / 2 + 1 + 1 / 2) = 1) by field. rewrite Q in H. lra.
Qed.

(** A 2 by 5 grid averaged twice: the hypotheses of C86_steps are met. *)
Example C86_steps_example : exists out, latlon_coarsening (fun n => repeat 0 (Z.to_nat n)) 2 [0; 1 / 10; 2 / 10; 3 / 10; 4 / 10] (repeat 7 20) 4 5 false 0 = Ok out
  /\ zlen out = 2%Z /\ forall p, (0 <= p < 2)%Z -> zget out p = Some 7.
Proof.
  destruct (C86_steps 2 (fun n => repeat 0 (Z.to_nat n)) 1 1 [0; 1 / 10; 2 / 10; 3 / 10; 4 / 10] (repeat 7 20) 0 7 7) as (out & E & L & G); try lia.
  - intros n Hn. unfold zlen. rewrite repeat_length. lia.
  - reflexivity.
  - intros p Hp. exists 7. split; [|lra]. change (fine_ny (Z.of_nat 2) (1 + 1) * fine_nx (Z.of_nat 2) 1)%Z with 20%Z in Hp.
    destruct (zget_in_range (repeat 7 20) p) as (v & E); [exact Hp|]. rewrite E. f_equal. unfold zget in E. destruct (p <? 0)%Z; [discriminate|]. apply nth_error_In in E. apply repeat_spec in E. auto.
  - change (fine_ny (Z.of_nat 2) (1 + 1)) with 5%Z. intros j Hj. assert (j = 0 \/ j = 1 \/ j = 2 \/ j = 3 \/ j = 4)%Z as [->|[->|[->|[->| ->]]]] by lia; (eexists; split; [reflexivity|]); intros _; pose proof PI2_1; lra.
  - exists out. split; [exact E|]. split; auto. intros p Hp. destruct (G p Hp) as (v & -> & B). f_equal. lra.
Qed.
