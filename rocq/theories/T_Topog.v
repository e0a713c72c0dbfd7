(** * C65-C68: the topography of make_topog *)
From Coq Require Import Lra Lia.
From Verif Require Import Base Loops Grid2 M_Interp M_Runoff M_Topog Spec_Interp Spec_Topog P_Interp P_Topog P_Topog2 P_Topog3 P_Topog4 P_Topog5 P_Topog6.
Local Open Scope Z_scope.

(** ** C65: smoothing *)

(** Every processor gets, on its part of the grid, the result of [num_pass] passes of the Shapiro filter over the
    whole grid. *)
Theorem C65_filter nxg nyg is ie js je num_pass allow tmp D :
  0 <= is <= ie -> ie < nxg -> 0 <= js <= je -> je < nyg -> 0 <= num_pass -> fields tmp nxg nyg D ->
  exists out, filter_topo nxg nyg is ie js je num_pass allow tmp = Ok out
   /\ fields out (ie - is + 1) (je - js + 1) (fun x y => smoothed nxg nyg allow (Z.to_nat num_pass) D (is + x) (js + y)).
Proof. apply filter_run. Qed.

(** What the user sees: the coast line and the border of the grid stay, depths stay positive and between the
    smallest and the largest ocean depth, and nothing gets deeper unless that is allowed. *)
Theorem C65_safe nxg nyg is ie js je num_pass allow tmp D :
  0 <= is <= ie -> ie < nxg -> 0 <= js <= je -> je < nyg -> 0 <= num_pass -> fields tmp nxg nyg D ->
  exists out G, filter_topo nxg nyg is ie js je num_pass allow tmp = Ok out
   /\ fields out (ie - is + 1) (je - js + 1) (fun x y => G (is + x) (js + y))
   /\ forall x y, is <= x <= ie -> js <= y <= je ->
        (D x y = 0 -> G x y = 0)%R
        /\ (x = 0 \/ x = nxg - 1 \/ y = 0 \/ y = nyg - 1 -> G x y = D x y)
        /\ (allow = false -> G x y <= D x y)%R
        /\ ((forall a b, 0 <= a < nxg -> 0 <= b < nyg -> (0 <= D a b)%R) -> (0 < D x y)%R -> (0 < G x y)%R)
        /\ (forall lo hi, (forall a b, 0 <= a < nxg -> 0 <= b < nyg -> (D a b <> 0)%R -> (lo <= D a b <= hi)%R) -> (D x y <> 0)%R -> (lo <= G x y <= hi)%R).
Proof.
  intros A1 A2 A3 A4 Hn Ht. destruct (filter_run nxg nyg is ie js je num_pass allow tmp D A1 A2 A3 A4 Hn Ht) as (out & E & H).
  exists out, (smoothed nxg nyg allow (Z.to_nat num_pass) D). split; auto. split; auto. intros x y Rx Ry.
  assert (On : on nxg nyg x y) by (split; lia).
  assert (Wt : forall a b, wet D a b = true <-> D a b <> 0%R) by (intros a b; unfold wet; destruct (Req_EM_T (D a b) 0); split; congruence).
  split; [|split; [|split; [|split]]].
  - intros Ez. apply iter_land. unfold wet. destruct (Req_EM_T (D x y) 0); congruence.
  - intros Hb. apply G_edge. unfold inside. destruct (Z.leb_spec 1 x), (Z.ltb_spec x (nxg - 1)), (Z.leb_spec 1 y), (Z.ltb_spec y (nyg - 1)); auto; lia.
  - apply G_cap.
  - intros Hd P. apply G_pos; auto. { intros a b (Ra & Rb). auto. } apply Wt. apply Rgt_not_eq. exact P.
  - intros lo hi Hd P. apply G_range; auto. { intros a b (Ra & Rb) Wab. apply Hd; auto. now apply Wt. } now apply Wt.
Qed.

(** A 3 x 3 grid: a sea mount of 1 in water of depth 17 is left alone, a hole of 17 in water of depth 1 is filled to 5. *)
Example C65_example : forall x y, 0 <= x < 3 -> 0 <= y < 3 ->
  let D := fun x y => if (x =? 1) && (y =? 1) then 17%R else 1%R in
  smoothed 3 3 false 1 D x y = (if (x =? 1) && (y =? 1) then 5 else 1)%R.
Proof.
  intros x y Rx Ry D.
  assert (W : forall a b, wet D a b = true).
  { intros a b. unfold wet, D. destruct (_ && _); [destruct (Req_EM_T 17 0)|destruct (Req_EM_T 1 0)]; auto; lra. }
  change (smoothed 3 3 false 1 D x y) with (smooth 3 3 false (wet D) D x y). unfold smooth. destruct (inside 3 3 x y) eqn:EI.
  - unfold inside in EI. rewrite !andb_true_iff, !Z.leb_le, !Z.ltb_lt in EI. assert (x = 1) by lia. assert (y = 1) by lia. subst. rewrite W. cbn [Z.eqb andb Pos.eqb].
    unfold shapiro. rewrite !W. cbv zeta. unfold D. cbn. unfold Rmin. destruct (Rle_dec _ _); lra.
  - cbn [andb]. unfold D. destruct (Z.eqb_spec x 1), (Z.eqb_spec y 1); cbn; auto. subst. discriminate.
Qed.

(** ** C66: depths and levels *)

(** Without an error, all processors together get one depth and one number of levels for every cell, whichever way
    the grid is divided among them. *)
Theorem C66_runs ni nj zw o tmp D : 1 <= ni -> 1 <= nj -> vertical_grid zw -> fields tmp ni nj D ->
  (o_adjust o = true -> o_kmt_min o <= zlen zw /\ one_rule o) ->
  exists H N, gives ni nj zw o tmp H N.
Proof. intros Hi Hj Hv Ht Ho. eexists _, _. now apply (gives_cells ni nj zw o tmp D). Qed.

Theorem C66_errors ni nj zw o tmp D isc iec jsc jec : 1 <= ni -> 1 <= nj -> vertical_grid zw -> fields tmp ni nj D ->
  0 <= isc <= iec -> iec < ni -> 0 <= jsc <= jec -> jec < nj ->
  o_adjust o = true -> ~ (o_kmt_min o <= zlen zw /\ one_rule o) ->
  process_topo ni nj (zlen zw) zw o isc iec jsc jec tmp = Err 1 \/ process_topo ni nj (zlen zw) zw o isc iec jsc jec tmp = Err 2.
Proof.
  intros Hi Hj (V1 & V2 & V3) Ht A1 A2 A3 A4 A No.
  destruct (process_err ni nj (zlen zw) zw o D Hi Hj eq_refl V1 (inc_nd zw _ eq_refl V2) tmp isc iec jsc jec) as [E|[E|(K & F1 & F2)]]; auto.
  - intros x y. apply (okc_lv ni nj _ zw o D eq_refl V1). now apply lv_cell1.
  - exfalso. apply No. split; auto. unfold one_rule. destruct (o_round o), (o_fill o), (o_deepen o); cbn in *; try discriminate; lia.
Qed.

(** Depth and levels agree; land stays as it is; ocean columns have at least kmt_min levels; and the bottom layer
    of a column of two or more layers is not thinner than the limit. *)
Theorem C66_levels ni nj zw o tmp D H N : 1 <= ni -> 1 <= nj -> vertical_grid zw -> fields tmp ni nj D ->
  (o_adjust o = true -> o_kmt_min o <= zlen zw /\ one_rule o) -> (o_adjust o = true -> thickness_ok zw o) ->
  gives ni nj zw o tmp H N -> forall x y, 0 <= x < ni -> 0 <= y < nj ->
  layers zw (H x y) (N x y)
  /\ ((D x y <= 0)%R -> H x y = D x y /\ N x y = 0)
  /\ (o_adjust o = true -> N x y = 0 \/ o_kmt_min o <= N x y)
  /\ (o_adjust o = true -> 2 <= N x y -> (thin_limit zw (o_min_thickness o) (o_fraction o) (N x y) <= H x y - at_ zw (N x y - 2))%R).
Proof.
  intros Hi Hj Hv Ht Ho T G x y Rx Ry. pose proof Hv as (V1 & V2 & V3).
  destruct (gives_unique ni nj zw o tmp D Hi Hj Hv Ht Ho H N G x y Rx Ry) as (EH & EN). rewrite EH, EN.
  pose proof (lv_cell2 ni nj zw o D Hv Ho x y T) as L2. split; [exact L2|]. split.
  - intros L. pose proof (c2_land ni nj zw o D Hv x y Rx Ry L) as E. rewrite E. auto.
  - split.
    + intros A. destruct (c2_adjusted ni nj zw o D Hv x y A (T A)) as (-> & _ & L). destruct (min_shallow zw (zlen zw) eq_refl V1 o _ L); lia.
    + intros A P. destruct (c2_adjusted ni nj zw o D Hv x y A (T A)) as (E & L1 & L).
      pose proof (thin_pmin zw o A (T A)) as TP.
      pose proof (thick_shallow zw (zlen zw) eq_refl V1 o _ (proj1 (Ho A)) TP L (thick_restrict zw (zlen zw) eq_refl V1 o _ TP L1)) as Q. rewrite <- E in Q.
      unfold thick in Q. specialize (Q ltac:(lia)).
      rewrite <- limit_pmin. replace (snd (cell2 ni nj (zlen zw) zw o D x y) + 1 - 1) with (snd (cell2 ni nj (zlen zw) zw o D x y)) by lia.
      replace (snd (cell2 ni nj (zlen zw) zw o D x y) + 1 - 2) with (snd (cell2 ni nj (zlen zw) zw o D x y) - 1) by lia. exact Q.
Qed.

(** With --dont_adjust_topo the depth of an ocean cell is only cut at the bottom of the deepest layer, or moved up by
    less than the minimum thickness to the bottom of a layer. *)
Theorem C66_unadjusted ni nj zw o tmp D H N : 1 <= ni -> 1 <= nj -> vertical_grid zw -> fields tmp ni nj D ->
  o_adjust o = false -> gives ni nj zw o tmp H N -> forall x y, 0 <= x < ni -> 0 <= y < nj -> (0 < D x y)%R ->
  layers zw (H x y) (N x y)
  /\ (o_full o = false -> o_flat o = false ->
       H x y = D x y
       \/ (at_ zw (zlen zw - 1) < D x y)%R /\ H x y = at_ zw (zlen zw - 1)
       \/ exists k, 0 <= k < zlen zw /\ H x y = at_ zw k /\ (at_ zw k < D x y < at_ zw k + o_min_thickness o)%R)
  /\ (o_full o = true -> H x y = at_ zw (N x y - 1))
  /\ (o_flat o = true -> H x y = at_ zw (zlen zw - 1) /\ N x y = zlen zw).
Proof.
  intros Hi Hj Hv Ht A G x y Rx Ry P. pose proof Hv as (V1 & V2 & V3).
  assert (Ho : fitted zw o) by (unfold fitted; congruence).
  destruct (gives_unique ni nj zw o tmp D Hi Hj Hv Ht Ho H N G x y Rx Ry) as (EH & EN). rewrite EH, EN.
  split; [apply (lv_cell2 ni nj zw o D Hv Ho x y); congruence|].
  assert (E2 : cell2 ni nj (zlen zw) zw o D x y = cell0 (zlen zw) zw o D x y) by (unfold cell2, cell1; now rewrite A).
  rewrite E2. unfold cell0.
  pose proof (lv_level zw (zlen zw) eq_refl V1 V2 V3 o (D x y)) as L. pose proof (level_depth zw o V1 V2 (D x y) P) as LD.
  pose proof (level_wet zw o V1 V2 V3 (D x y) P) as W.
  set (c := level_fun (zlen zw) zw o (D x y, -1)) in *.
  split; [intros -> ->; exact LD|]. split.
  - intros ->. assert (W' : (0 < fst (full_fun zw c))%R).
    { unfold full_fun. destruct (rlt_spec 0 (fst c)); [|lra]. cbn. apply (zw_pos zw (zlen zw) eq_refl V2 V3). destruct (lv_range zw _ eq_refl V1 _ _ L) as (? & Q & _). specialize (Q W). lia. }
    destruct (o_flat o).
    + unfold flat_fun. destruct (rlt_spec 0 (fst (full_fun zw c))); [|lra]. cbn [fst snd]. f_equal. lia.
    + unfold full_fun. destruct (rlt_spec 0 (fst c)); [|lra]. cbn [fst snd]. f_equal. lia.
  - intros ->. set (c' := if o_full o then full_fun zw c else c). assert (W' : (0 < fst c')%R).
    { unfold c'. destruct (o_full o); auto. unfold full_fun. destruct (rlt_spec 0 (fst c)); [|lra]. cbn. apply (zw_pos zw (zlen zw) eq_refl V2 V3). destruct (lv_range zw _ eq_refl V1 _ _ L) as (? & Q & _). specialize (Q W). lia. }
    unfold flat_fun. destruct (rlt_spec 0 (fst c')); [|lra]. cbn [fst snd]. split; auto. lia.
Qed.

(** What is done with a column that has fewer than kmt_min levels, compared with the same run without a minimum:
    --deepen_shallow deepens it, --fill_shallow makes it land, and otherwise it becomes land if the bottom of its last layer
    is above half of the minimum depth and is deepened if not.  Other columns are unchanged. *)
Theorem C66_shallow ni nj zw o tmp D H N H1 N1 : 1 <= ni -> 1 <= nj -> vertical_grid zw -> fields tmp ni nj D ->
  o_adjust o = true -> o_kmt_min o <= zlen zw -> one_rule o -> thickness_ok zw o ->
  gives ni nj zw o tmp H N -> gives ni nj zw (with_kmt_min o 1) tmp H1 N1 -> forall x y, 0 <= x < ni -> 0 <= y < nj ->
  let m := o_kmt_min o in
  if (0 <? N1 x y) && (N1 x y <? m) then
    let deepened := H x y = at_ zw (m - 1) /\ N x y = m in
    let land := H x y = 0%R /\ N x y = 0 in
    (o_deepen o = true -> deepened) /\ (o_fill o = true -> land)
    /\ (o_deepen o = false -> o_fill o = false ->
        if Rlt_dec (at_ zw (N1 x y - 1)) (1/2 * at_ zw (m - 1)) then land else deepened)
  else H x y = H1 x y /\ N x y = N1 x y.
Proof.
  intros Hi Hj Hv Ht A Km Or T G G1 x y Rx Ry m. pose proof Hv as (V1 & V2 & V3).
  assert (Ho : fitted zw o) by (unfold fitted; auto).
  assert (Ho1 : fitted zw (with_kmt_min o 1)) by (intros _; split; [cbn; lia|exact Or]).
  destruct (gives_unique ni nj zw o tmp D Hi Hj Hv Ht Ho H N G x y Rx Ry) as (-> & ->).
  destruct (gives_unique ni nj zw (with_kmt_min o 1) tmp D Hi Hj Hv Ht Ho1 H1 N1 G1 x y Rx Ry) as (-> & ->).
  set (c := restrict_fun zw o (cell1 ni nj (zlen zw) zw o D x y)).
  destruct (c2_adjusted ni nj zw o D Hv x y A T) as (-> & _ & L). fold c in L |- *.
  assert (E1 : cell2 ni nj (zlen zw) zw (with_kmt_min o 1) D x y = shallow_fun zw (with_kmt_min o 1) c).
  { unfold cell2. cbn [with_kmt_min o_adjust]. rewrite A. reflexivity. }
  rewrite E1. destruct (lv_range zw _ eq_refl V1 _ _ L) as (R1 & P1 & P2). destruct c as (h, k). cbn [fst snd] in R1, P1, P2.
  assert (E2 : shallow_fun zw (with_kmt_min o 1) (h, k) = (h, k)).
  { unfold shallow_fun. cbn [with_kmt_min o_kmt_min]. destruct (rlt_spec 0 h) as [P|P]; auto. specialize (P1 P). destruct (Z.ltb_spec k (1 - 1)); [lia|]. reflexivity. }
  rewrite E2. cbn [fst snd]. unfold shallow_fun. fold m.
  destruct (rlt_spec 0 h) as [P|P]; cbn [andb].
  - specialize (P1 P). destruct (Z.ltb_spec 0 (k + 1)); [|lia]. cbn [andb]. destruct (Z.ltb_spec (k + 1) m), (Z.ltb_spec k (m - 1)); try lia; [|auto].
    unfold one_rule in Or. destruct (o_deepen o), (o_fill o); cbn [Z.b2z] in Or; try (destruct (o_round o); cbn [Z.b2z] in Or; lia); cbn [fst snd].
    + split; [intros _; split; [auto|lia]|]. split; intros; discriminate.
    + split; [intros; discriminate|]. split; [intros _; split; [auto|lia]|intros; discriminate].
    + split; [intros; discriminate|]. split; [intros; discriminate|]. intros _ _. replace (k + 1 - 1) with k by lia.
      destruct (rlt_spec (at_ zw k) (1/2 * at_ zw (m - 1))), (Rlt_dec (at_ zw k) (1/2 * at_ zw (m - 1))); try contradiction; cbn [fst snd]; split; auto; lia.
  - destruct (Z.ltb_spec 0 (k + 1)); [exfalso; specialize (P2 ltac:(lia)); lra|]. cbn [andb fst snd]. auto.
Qed.

(** What is done with bottom cells that are thinner than the limit, compared with the unadjusted run, when isolated cells
    are not filled and there is no minimum: they are opened to the limit, or, with --dont_open_very_this_cell, closed if that
    changes the depth less. *)
Theorem C66_thin ni nj zw o tmp D H N H0 N0 : 1 <= ni -> 1 <= nj -> vertical_grid zw -> fields tmp ni nj D ->
  o_adjust o = true -> o_fill_isolated o = false -> o_kmt_min o <= 1 -> one_rule o -> thickness_ok zw o ->
  gives ni nj zw o tmp H N -> gives ni nj zw (unadjusted o) tmp H0 N0 -> forall x y, 0 <= x < ni -> 0 <= y < nj ->
  let top := at_ zw (N0 x y - 2) in
  let limit := thin_limit zw (o_min_thickness o) (o_fraction o) (N0 x y) in
  if (N0 x y <? 2) then H x y = H0 x y /\ N x y = N0 x y
  else if Rlt_dec (H0 x y - top) limit then
    if negb (o_open_thin o) then
      if Rlt_dec (H0 x y - top) (top + limit - H0 x y) then H x y = top /\ N x y = N0 x y - 1
      else H x y = (top + limit)%R /\ N x y = N0 x y
    else H x y = (top + limit)%R /\ N x y = N0 x y
  else H x y = H0 x y /\ N x y = N0 x y.
Proof.
  intros Hi Hj Hv Ht A F Km Or T G G0 x y Rx Ry. pose proof Hv as (V1 & V2 & V3).
  assert (Ho : fitted zw o) by (unfold fitted; split; auto; lia).
  assert (Ho0 : fitted zw (unadjusted o)) by (intros E; discriminate E).
  destruct (gives_unique ni nj zw o tmp D Hi Hj Hv Ht Ho H N G x y Rx Ry) as (-> & ->).
  destruct (gives_unique ni nj zw (unadjusted o) tmp D Hi Hj Hv Ht Ho0 H0 N0 G0 x y Rx Ry) as (-> & ->).
  rewrite cell2_unadjusted.
  destruct (c2_adjusted ni nj zw o D Hv x y A T) as (-> & L1 & L).
  assert (E1 : cell1 ni nj (zlen zw) zw o D x y = cell0 (zlen zw) zw o D x y) by (unfold cell1; rewrite F, andb_false_r; reflexivity).
  rewrite E1 in *. assert (ES : forall c, lvc zw c -> shallow_fun zw o c = c).
  { intros (h, k) Lc. destruct (lv_range zw _ eq_refl V1 _ _ Lc) as (R1 & P1 & _). cbn [fst snd] in *. unfold shallow_fun. destruct (rlt_spec 0 h) as [P|P]; auto. specialize (P1 P).
    destruct (Z.ltb_spec k (o_kmt_min o - 1)); [lia|]. reflexivity. }
  rewrite ES by exact L. destruct (cell0 (zlen zw) zw o D x y) as (h, k). cbn [fst snd]. cbv zeta.
  rewrite <- limit_pmin. replace (k + 1 - 1) with k by lia. replace (k + 1 - 2) with (k - 1) by lia.
  unfold restrict_fun. destruct (Z.ltb_spec (k + 1) 2), (Z.ltb_spec 0 k); try lia; [cbn; auto|].
  destruct (rlt_spec (h - at_ zw (k - 1)) (pmin zw o k)), (Rlt_dec (h - at_ zw (k - 1)) (pmin zw o k)); try contradiction; [|cbn; auto].
  destruct (o_open_thin o); cbn [negb]; [cbn; auto|].
  destruct (rlt_spec (h - at_ zw (k - 1)) (at_ zw (k - 1) + pmin zw o k - h)), (Rlt_dec (h - at_ zw (k - 1)) (at_ zw (k - 1) + pmin zw o k - h)); try contradiction; cbn [fst snd]; split; auto; lia.
Qed.

(** ** C67: isolated cells *)

Lemma around_ext ni nj tri cx cy K K' : 1 <= ni -> 1 <= nj -> (forall x y, 0 <= x < ni -> 0 <= y < nj -> K x y = K' x y) ->
  forall x y, around ni nj tri cx cy K x y = around ni nj tri cx cy K' x y.
Proof.
  intros Hi Hj E x y. unfold around. destruct (place ni nj tri cx cy x y) as [(a, b)|] eqn:EP; auto.
  destruct (place_range _ _ _ _ _ _ _ _ _ Hi Hj EP). auto.
Qed.

Lemma supported_ext W W' : (forall x y, W x y = W' x y) -> forall x y n, supported W x y n <-> supported W' x y n.
Proof. intros E x y n. unfold supported, corner_open. split; intros (sx & sy & H); exists sx, sy; rewrite ?E in *; rewrite <- ?E in *; auto. Qed.

(** When thin bottom cells are opened, a cell of the result is not isolated at any level: some corner is surrounded by
    columns at least as deep.  With --dont_change_landmask cells without such a corner at the first level may stay. *)
Theorem C67_isolated_partial ni nj zw o tmp D H N : 1 <= ni -> 1 <= nj -> vertical_grid zw -> fields tmp ni nj D ->
  o_kmt_min o <= zlen zw -> one_rule o -> thickness_ok zw o ->
  o_adjust o = true -> o_fill_isolated o = true -> o_open_thin o = true ->
  gives ni nj zw o tmp H N -> forall x y, 0 <= x < ni -> 0 <= y < nj -> examined nj o y -> 0 < N x y ->
  let W := around ni nj (o_tripolar o) (o_cyclic_x o) (o_cyclic_y o) N in
  supported W x y (N x y) \/ o_keep_mask o = true /\ ~ supported W x y 1.
Proof.
  intros Hi Hj Hv Ht Km Or T A F O G x y Rx Ry Ex P.
  assert (Ho : fitted zw o) by (unfold fitted; auto).
  pose proof (gives_unique ni nj zw o tmp D Hi Hj Hv Ht Ho H N G) as U.
  destruct (U x y Rx Ry) as (_ & EN).
  assert (ES : forall n, supported (around ni nj (o_tripolar o) (o_cyclic_x o) (o_cyclic_y o) N) x y n
     <-> supported (around ni nj (o_tripolar o) (o_cyclic_x o) (o_cyclic_y o) (fun x y => snd (cell2 ni nj (zlen zw) zw o D x y) + 1)) x y n).
  { intros n. apply supported_ext. apply around_ext; auto. intros. now apply U. }
  pose proof (supported_run ni nj zw o D Hi Hj Hv Ho x y A T O F Rx Ry) as S.
  assert (Ex' : y < (if o_tripolar o then nj - 1 else nj)) by (unfold examined in Ex; destruct (o_tripolar o); cbn [Z.b2z] in Ex; lia).
  specialize (S Ex' ltac:(lia)). cbv zeta in S |- *. rewrite !ES, EN. exact S.
Qed.

(** With --kmt_min 1 every examined cell is made exactly as shallow as it has to be: it keeps the deepest level at which
    it was not isolated before the adjustment (none: it becomes land), unless that would turn ocean into land and
    --dont_change_landmask is given. *)
Theorem C67_floor ni nj zw o tmp D H N H0 N0 : 1 <= ni -> 1 <= nj -> vertical_grid zw -> fields tmp ni nj D ->
  o_kmt_min o <= 1 -> one_rule o -> thickness_ok zw o ->
  o_adjust o = true -> o_fill_isolated o = true -> o_open_thin o = true ->
  gives ni nj zw o tmp H N -> gives ni nj zw (unadjusted o) tmp H0 N0 ->
  forall x y, 0 <= x < ni -> 0 <= y < nj -> examined nj o y ->
  let W := around ni nj (o_tripolar o) (o_cyclic_x o) (o_cyclic_y o) N0 in
  N x y <= N0 x y
  /\ (supported W x y (N x y) /\ (forall n, n <= N0 x y -> supported W x y n -> n <= N x y)
      \/ o_keep_mask o = true /\ N x y = N0 x y /\ ~ supported W x y 1).
Proof.
  intros Hi Hj Hv Ht Km Or T A F O G G0 x y Rx Ry Ex.
  assert (Ho : fitted zw o) by (unfold fitted; destruct Hv; split; auto; lia).
  assert (Ho0 : fitted zw (unadjusted o)) by (intros E; discriminate E).
  pose proof (gives_unique ni nj zw (unadjusted o) tmp D Hi Hj Hv Ht Ho0 H0 N0 G0) as U0.
  destruct (gives_unique ni nj zw o tmp D Hi Hj Hv Ht Ho H N G x y Rx Ry) as (_ & EN).
  assert (ES : forall n, supported (around ni nj (o_tripolar o) (o_cyclic_x o) (o_cyclic_y o) N0) x y n
     <-> supported (around ni nj (o_tripolar o) (o_cyclic_x o) (o_cyclic_y o) (fun x y => snd (cell0 (zlen zw) zw o D x y) + 1)) x y n).
  { intros n. apply supported_ext. apply around_ext; auto. intros a b Ra Rb. rewrite <- (cell2_unadjusted ni nj). now apply U0. }
  assert (Ex' : y < (if o_tripolar o then nj - 1 else nj)) by (unfold examined in Ex; destruct (o_tripolar o); cbn [Z.b2z] in Ex; lia).
  pose proof (floor_run ni nj zw o D Hv x y Km A T O F Rx Ry Ex') as S. cbv zeta in S |- *.
  destruct (U0 x y Rx Ry) as (_ & EN0). rewrite cell2_unadjusted in EN0. rewrite <- EN, <- EN0 in S.
  destruct S as (S1 & [(S2 & S3)|(S2 & S3 & S4)]); split; auto.
  - left. split; [now apply ES|]. intros n Ln Sn. apply S3; auto. now apply ES.
  - right. rewrite ES. auto.
Qed.

(** ** C68: the land mask *)

(** With --dont_change_landmask (or no filling of isolated cells) and no columns that are too shallow to be removed,
    land and ocean of the result are those of the input. *)
Theorem C68_mask ni nj zw o tmp D H N : 1 <= ni -> 1 <= nj -> vertical_grid zw -> fields tmp ni nj D ->
  (o_adjust o = true -> o_kmt_min o <= zlen zw /\ one_rule o /\ thickness_ok zw o
      /\ (o_keep_mask o = true \/ o_fill_isolated o = false) /\ (o_deepen o = true \/ o_kmt_min o <= 1)) ->
  gives ni nj zw o tmp H N -> forall x y, 0 <= x < ni -> 0 <= y < nj ->
  (N x y = 0 <-> (D x y <= 0)%R) /\ ((H x y <= 0)%R <-> (D x y <= 0)%R).
Proof.
  intros Hi Hj Hv Ht Q G x y Rx Ry. pose proof Hv as (V1 & V2 & V3).
  assert (Ho : fitted zw o) by (intros A; destruct (Q A) as (? & ? & _); auto).
  assert (T : o_adjust o = true -> thickness_ok zw o) by (intros A; apply (Q A)).
  destruct (gives_unique ni nj zw o tmp D Hi Hj Hv Ht Ho H N G x y Rx Ry) as (EH & EN). rewrite EH, EN.
  pose proof (lv_cell2 ni nj zw o D Hv Ho x y T) as L2. destruct (lv_range zw _ eq_refl V1 _ _ L2) as (R2 & Q2 & Q2').
  destruct (Rle_dec (D x y) 0) as [Ld|Oc].
  { rewrite (c2_land ni nj zw o D Hv x y Rx Ry Ld). cbn [fst snd]. split; [split; auto; lia|tauto]. }
  enough (P : 0 <= snd (cell2 ni nj (zlen zw) zw o D x y)) by (specialize (Q2' P); split; split; intros; try lia; lra).
  pose proof (cell0_ocean ni nj (zlen zw) zw o D eq_refl V1 V2 V3 x y ltac:(lra)) as P0.
  unfold cell2, cell1. destruct (o_adjust o) eqn:A; [|cbn [andb]; exact P0].
  destruct (Q eq_refl) as (Km & Or & Th & KM & DK).
  assert (P1 : 0 <= snd (cell1 ni nj (zlen zw) zw o D x y)).
  { unfold cell1. destruct (_ && _) eqn:EB; [|exact P0]. destruct KM as [K|K]; [|rewrite K, andb_false_r in EB; discriminate EB].
    unfold iso. rewrite K. cbn [negb]. rewrite orb_false_r. destruct (Z.leb_spec 0 (kmx (ks (world ni nj o (cell0 (zlen zw) zw o D))) x y)) as [Z0|Z0]; cbn [andb].
    - destruct (negb _); cbn [snd]; auto. rewrite world_in; auto.
    - rewrite world_in; auto. }
  unfold cell1 in P1. rewrite A in P1. set (c := if _ : bool then _ else _) in *.
  pose proof (restrict_mask ni nj zw o D c P1) as P2. destruct (restrict_fun zw o c) as (h, k). cbn [snd] in P2. unfold shallow_fun.
  destruct (rlt 0 h); cbn [andb]; auto. destruct (Z.ltb_spec k (o_kmt_min o - 1)); auto. destruct DK as [->|]; cbn [snd]; lia.
Qed.

(** ** Witnesses *)

Definition opts (fill_isolated open_thin keep : bool) (fraction : R) (kmt_min : Z) : options :=
  {| o_tripolar := false; o_cyclic_x := false; o_cyclic_y := false; o_full := false; o_flat := false; o_adjust := true;
     o_fill_isolated := fill_isolated; o_min_thickness := 0%R; o_open_thin := open_thin; o_fraction := fraction;
     o_round := false; o_deepen := false; o_fill := false; o_keep_mask := keep; o_kmt_min := kmt_min |}.

Lemma grid2 a b : (0 < a < b)%R -> vertical_grid [a; b].
Proof.
  intros P. split; [cbn; lia|]. split; [|cbn; lra]. intros i j Rij Lj. change (zlen [a; b]) with 2 in Lj. assert (i = 0) by lia. assert (j = 1) by lia. subst. change (a < b)%R. lra.
Qed.

(** Without [thickness_ok] a bottom cell can become thicker than its layer: --fraction_full_cell 0 asks for 50 m
    whatever the thickness of the layer.  Layers end at 100 and 110; the column of 105 becomes 150 deep. *)
Theorem C66_thickness_refuted :
  exists zw o tmp H N, vertical_grid zw /\ o_kmt_min o <= zlen zw /\ one_rule o /\ o_fraction o = 0%R
   /\ fields tmp 1 1 (fun _ _ => 105%R) /\ gives 1 1 zw o tmp H N /\ ~ layers zw (H 0 0) (N 0 0) /\ (at_ zw (zlen zw - 1) < H 0%Z 0%Z)%R.
Proof.
  pose (zw := [100; 110]%R). pose (o := opts false true false 0%R 1).
  assert (Hv : vertical_grid zw) by (apply grid2; lra).
  assert (Ht : fields [105%R] 1 1 (fun _ _ => 105%R)). { split; [reflexivity|]. intros x y Rx Ry. assert (x = 0) by lia. assert (y = 0) by lia. subst. reflexivity. }
  assert (Ho : fitted zw o) by (intros _; split; [cbn; lia|unfold one_rule; cbn; lia]).
  pose proof (gives_cells 1 1 zw o [105%R] _ ltac:(lia) ltac:(lia) Hv Ht Ho) as G.
  destruct Hv as (V1 & V2 & V3).
  assert (E0 : level_fun (zlen zw) zw o (105%R, -1) = (105%R, 1)).
  { apply level_plain; auto; [lra|]. right. change (zlen zw) with 2. change (at_ zw (1 + 1 - 2)) with 100%R. change (at_ zw (1 + 1 - 1)) with 110%R. repeat split; try lia; lra. }
  assert (E : cell2 1 1 (zlen zw) zw o (fun _ _ => 105%R) 0 0 = (150%R, 1)).
  { unfold cell2, cell1, cell0. cbn [o opts o_adjust o_fill_isolated o_full o_flat andb]. fold o. rewrite E0.
    unfold restrict_fun, pmin. cbn [Z.ltb Z.compare o opts o_open_thin o_fraction]. destruct (Req_EM_T 0 0); [|lra]. cbn [at_ zw].
    replace (at_ zw 0) with 100%R by reflexivity. rewrite Rmin_left by lra. change (at_ zw (1 - 1)) with 100%R.
    destruct (rlt_spec (105 - 100) 50); [|lra]. unfold shallow_fun. cbn [o opts o_kmt_min Z.sub Z.ltb]. rewrite andb_false_r. f_equal. lra. }
  eexists zw, o, _, _, _. split; [split; auto|]. split; [cbn; lia|]. split; [unfold one_rule; cbn; lia|]. split; [reflexivity|]. split; [exact Ht|]. split; [exact G|].
  cbv beta. rewrite E. cbn [fst snd]. change (at_ zw (zlen zw - 1)) with 110%R. split; [|lra]. unfold layers. change (at_ zw (1 + 1 - 1)) with 110%R. intros [(A & _)|(_ & _ & _ & A)]; lra.
Qed.

(** With --dont_open_very_this_cell isolated cells can remain, because thin cells are closed after the isolated cells
    have been removed.  Layers end at 10 and 20; on a 2 x 2 grid three columns are 20 deep and one is 11 deep; this one
    loses its thin second layer, and the second layer of the others is isolated. *)
Theorem C67_isolated_refuted :
  exists zw o tmp D H N, vertical_grid zw /\ o_kmt_min o <= zlen zw /\ one_rule o /\ thickness_ok zw o
   /\ o_adjust o = true /\ o_fill_isolated o = true /\ o_open_thin o = false /\ o_keep_mask o = false
   /\ fields tmp 2 2 D /\ gives 2 2 zw o tmp H N /\ N 0 0 = 2
   /\ ~ supported (around 2 2 (o_tripolar o) (o_cyclic_x o) (o_cyclic_y o) N) 0 0 2.
Proof.
  pose (zw := [10; 20]%R). pose (o := opts true false false (1/2)%R 1).
  pose (D := fun x y : Z => if (x =? 1) && (y =? 1) then 11%R else 20%R).
  assert (Hv : vertical_grid zw) by (apply grid2; lra).
  assert (Ht : fields [20; 20; 20; 11]%R 2 2 D).
  { split; [reflexivity|]. intros x y Rx Ry. assert (x = 0 \/ x = 1) as [-> | ->] by lia; assert (y = 0 \/ y = 1) as [-> | ->] by lia; reflexivity. }
  assert (Ho : fitted zw o) by (intros _; split; [cbn; lia|unfold one_rule; cbn; lia]).
  pose proof (gives_cells 2 2 zw o _ _ ltac:(lia) ltac:(lia) Hv Ht Ho) as G.
  pose proof Hv as (V1 & V2 & V3).
  assert (E0 : forall x y, cell0 (zlen zw) zw o D x y = (D x y, 1)).
  { intros x y. unfold cell0. cbn [o opts o_full o_flat]. fold o. unfold D. destruct (_ && _); apply level_plain; auto; try lra; right; change (zlen zw) with 2; change (at_ zw (1 + 1 - 2)) with 10%R; change (at_ zw (1 + 1 - 1)) with 20%R; repeat split; try lia; lra. }
  assert (EK : forall a b, ks (world 2 2 o (cell0 (zlen zw) zw o D)) a b = if (a <? 0) || (2 <=? a) || (b <? 0) || (2 <=? b) then -1 else 1).
  { intros a b. unfold ks, world, place. cbn [o opts o_tripolar o_cyclic_x o_cyclic_y andb negb]. fold o.
    destruct (a <? 0); auto. destruct (2 <=? a); auto. destruct (b <? 0); auto. destruct (2 <=? b); auto. cbn [orb]. now rewrite E0. }
  assert (E1 : forall x y, 0 <= x < 2 -> 0 <= y < 2 -> cell1 2 2 (zlen zw) zw o D x y = (D x y, 1)).
  { intros x y Rx Ry. unfold cell1. destruct (_ && _); auto. unfold iso. 
    assert (kmx (ks (world 2 2 o (cell0 (zlen zw) zw o D))) x y = 1) as ->.
    { unfold kmx, kmn. rewrite !EK. assert (x = 0 \/ x = 1) as [-> | ->] by lia; assert (y = 0 \/ y = 1) as [-> | ->] by lia; reflexivity. }
    unfold ks. rewrite world_in, E0 by auto. reflexivity. }
  assert (PM : pmin zw o 1 = 5%R).
  { unfold pmin. cbn [o opts o_fraction o_min_thickness]. destruct (Req_EM_T (1/2) 0); [lra|]. change (at_ zw 1) with 20%R. change (at_ zw (1 - 1)) with 10%R. rewrite Rmax_left; lra. }
  assert (E2 : forall x y, 0 <= x < 2 -> 0 <= y < 2 -> cell2 2 2 (zlen zw) zw o D x y = if (x =? 1) && (y =? 1) then (10%R, 0) else (20%R, 1)).
  { intros x y Rx Ry. unfold cell2. cbn [o opts o_adjust]. fold o. rewrite E1 by auto. unfold restrict_fun. cbn [Z.ltb Z.compare]. rewrite PM. change (at_ zw (1 - 1)) with 10%R.
    cbn [o opts o_open_thin]. unfold D. destruct (_ && _).
    - destruct (rlt_spec (11 - 10) 5); [|lra]. destruct (rlt_spec (11 - 10) (10 + 5 - 11)); [|lra]. unfold shallow_fun. cbn [o opts o_kmt_min]. rewrite andb_false_r. reflexivity.
    - destruct (rlt_spec (20 - 10) 5); [lra|]. unfold shallow_fun. cbn [o opts o_kmt_min]. rewrite andb_false_r. reflexivity. }
  eexists zw, o, _, D, _, _. split; [exact Hv|]. split; [cbn; lia|]. split; [unfold one_rule; cbn; lia|]. split.
  { intros n Rn. assert (n = 2) by (change (zlen zw) with 2 in Rn; lia). subst n. unfold thin_limit. cbn [o opts o_fraction o_min_thickness]. destruct (Req_EM_T (1/2) 0); [lra|].
    change (at_ zw (2 - 1)) with 20%R. change (at_ zw (2 - 2)) with 10%R. rewrite Rmax_left; lra. }
  do 4 (split; [reflexivity|]). split; [exact Ht|]. split; [exact G|]. cbv beta. split; [rewrite E2 by lia; reflexivity|].
  intros (sx & sy & [-> | ->] & [-> | ->] & C1 & C2 & C3); cbn -[cell2] in C1, C2, C3; try lia. rewrite E2 in C3 by lia. cbn in C3. lia.
Qed.

(** --dont_change_landmask does not keep columns that are too shallow: layers end at 10 and 30, and the only column, 4
    deep, is turned into land because two levels are asked for and 10 is less than half of 30. *)
Theorem C68_mask_refuted :
  exists zw o tmp H N, vertical_grid zw /\ o_kmt_min o <= zlen zw /\ one_rule o /\ thickness_ok zw o /\ o_keep_mask o = true
   /\ fields tmp 1 1 (fun _ _ => 4%R) /\ gives 1 1 zw o tmp H N /\ N 0 0 = 0 /\ H 0 0 = 0%R.
Proof.
  pose (zw := [10; 30]%R). pose (o := opts true true true (1/5)%R 2).
  assert (Hv : vertical_grid zw) by (apply grid2; lra).
  assert (Ht : fields [4%R] 1 1 (fun _ _ => 4%R)). { split; [reflexivity|]. intros x y Rx Ry. assert (x = 0) by lia. assert (y = 0) by lia. subst. reflexivity. }
  assert (Ho : fitted zw o) by (intros _; split; [cbn; lia|unfold one_rule; cbn; lia]).
  pose proof (gives_cells 1 1 zw o [4%R] _ ltac:(lia) ltac:(lia) Hv Ht Ho) as G.
  pose proof Hv as (V1 & V2 & V3).
  assert (E0 : forall x y, cell0 (zlen zw) zw o (fun _ _ => 4%R) x y = (4%R, 0)).
  { intros x y. unfold cell0. cbn [o opts o_full o_flat]. fold o. apply level_plain; auto; try lra. right. change (zlen zw) with 2. change (at_ zw (0 + 1 - 1)) with 10%R. repeat split; try lia; lra. }
  assert (EK : forall a b, ks (world 1 1 o (cell0 (zlen zw) zw o (fun _ _ => 4%R))) a b = if (a <? 0) || (1 <=? a) || (b <? 0) || (1 <=? b) then -1 else 0).
  { intros a b. unfold ks, world, place. cbn [o opts o_tripolar o_cyclic_x o_cyclic_y andb negb]. fold o.
    destruct (a <? 0); auto. destruct (1 <=? a); auto. destruct (b <? 0); auto. destruct (1 <=? b); auto. cbn [orb]. now rewrite E0. }
  assert (E1 : cell1 1 1 (zlen zw) zw o (fun _ _ => 4%R) 0 0 = (4%R, 0)).
  { unfold cell1. destruct (_ && _); auto. unfold iso. 
    assert (kmx (ks (world 1 1 o (cell0 (zlen zw) zw o (fun _ _ => 4%R)))) 0 0 = -1) as -> by (unfold kmx, kmn; rewrite !EK; reflexivity).
    cbn [o opts o_keep_mask negb orb andb Z.leb Z.compare]. fold o. rewrite (world_in 1 1 o (fun _ _ => 0%R)) by lia. apply E0. }
  assert (E2 : cell2 1 1 (zlen zw) zw o (fun _ _ => 4%R) 0 0 = (0%R, -1)).
  { unfold cell2. cbn [o opts o_adjust]. fold o. rewrite E1. unfold restrict_fun. cbn [Z.ltb Z.compare]. unfold shallow_fun. destruct (rlt_spec 0 4); [|lra].
    cbn [o opts o_kmt_min o_deepen o_fill andb]. change (0 <? 2 - 1) with true. cbn [andb]. change (at_ zw 0) with 10%R. change (at_ zw (2 - 1)) with 30%R. destruct (rlt_spec 10 (1/2 * 30)); [reflexivity|lra]. }
  eexists zw, o, _, _, _. split; [exact Hv|]. split; [cbn; lia|]. split; [unfold one_rule; cbn; lia|]. split.
  { intros n Rn. assert (n = 2) by (change (zlen zw) with 2 in Rn; lia). subst n. unfold thin_limit. cbn [o opts o_fraction o_min_thickness]. destruct (Req_EM_T (1/5) 0); [lra|].
    change (at_ zw (2 - 1)) with 30%R. change (at_ zw (2 - 2)) with 10%R. rewrite Rmax_left; lra. }
  split; [reflexivity|]. split; [exact Ht|]. split; [exact G|]. cbv beta. rewrite E2. split; reflexivity.
Qed.

(** The hypotheses of the theorems above can be met together: layers of 10 m and 20 m, the default fraction, a 2 x 2
    grid with one land cell. *)
Example C66_example : let zw := [10; 30]%R in let o := opts true true true (1/5)%R 1 in
  vertical_grid zw /\ o_kmt_min o <= zlen zw /\ one_rule o /\ thickness_ok zw o
  /\ o_adjust o = true /\ o_fill_isolated o = true /\ o_open_thin o = true /\ o_keep_mask o = true
  /\ exists D H N, fields [25; 8; 0; 12]%R 2 2 D /\ gives 2 2 zw o [25; 8; 0; 12]%R H N /\ 0 < N 0 0 /\ N 0 1 = 0.
Proof.
  intros zw o. assert (Hv : vertical_grid zw) by (apply grid2; lra).
  pose (D := fun x y : Z => if y =? 0 then if x =? 0 then 25%R else 8%R else if x =? 0 then 0%R else 12%R).
  assert (Ht : fields [25; 8; 0; 12]%R 2 2 D).
  { split; [reflexivity|]. intros x y Rx Ry. assert (x = 0 \/ x = 1) as [-> | ->] by lia; assert (y = 0 \/ y = 1) as [-> | ->] by lia; reflexivity. }
  assert (Ho : fitted zw o) by (intros _; split; [cbn; lia|unfold one_rule; cbn; lia]).
  assert (T : thickness_ok zw o).
  { intros n Rn. assert (n = 2) by (change (zlen zw) with 2 in Rn; lia). subst n. unfold thin_limit. cbn [o opts o_fraction o_min_thickness]. destruct (Req_EM_T (1/5) 0); [lra|].
    change (at_ zw (2 - 1)) with 30%R. change (at_ zw (2 - 2)) with 10%R. rewrite Rmax_left; lra. }
  pose proof (gives_cells 2 2 zw o _ _ ltac:(lia) ltac:(lia) Hv Ht Ho) as G.
  split; [exact Hv|]. split; [cbn; lia|]. split; [unfold one_rule; cbn; lia|]. split; [exact T|]. do 4 (split; [reflexivity|]).
  eexists D, _, _. split; [exact Ht|]. split; [exact G|]. cbv beta.
  assert (Q : o_adjust o = true -> o_kmt_min o <= zlen zw /\ one_rule o /\ thickness_ok zw o
      /\ (o_keep_mask o = true \/ o_fill_isolated o = false) /\ (o_deepen o = true \/ o_kmt_min o <= 1)).
  { intros _. split; [cbn; lia|]. split; [unfold one_rule; cbn; lia|]. split; [exact T|]. split; [now left|]. right. cbn. lia. }
  pose proof (C68_mask 2 2 zw o _ D _ _ ltac:(lia) ltac:(lia) Hv Ht Q G) as M. cbv beta in M.
  split.
  - destruct (M 0 0 ltac:(lia) ltac:(lia)) as ((M1 & _) & _). pose proof (lv_cell2 2 2 zw o D Hv Ho 0 0 (fun _ => T)) as L. destruct Hv as (V1 & _). destruct (lv_range zw _ eq_refl V1 _ _ L) as (L1 & _).
    destruct (Z.eq_dec (snd (cell2 2 2 (zlen zw) zw o D 0 0) + 1) 0) as [E|]; [|lia]. specialize (M1 E). unfold D in M1. cbn in M1. lra.
  - apply (M 0 1 ltac:(lia) ltac:(lia)). unfold D. cbn. lra.
Qed.

Print Assumptions C65_filter.
Print Assumptions C65_safe.
Print Assumptions C66_runs.
Print Assumptions C66_errors.
Print Assumptions C66_levels.
Print Assumptions C66_unadjusted.
Print Assumptions C66_shallow.
Print Assumptions C66_thin.
Print Assumptions C66_thickness_refuted.
Print Assumptions C67_isolated_partial.
Print Assumptions C67_floor.
Print Assumptions C67_isolated_refuted.
Print Assumptions C68_mask.
Print Assumptions C68_mask_refuted.
