(** * C80: the rectangular grids of make_hgrid *)
From Verif Require Import Base Loops Vec M_Interp M_GridBound M_Longitude M_Runoff M_Matrix M_Hgrid Spec_GridBound Spec_Hgrid P_Interp P_Interp2 P_Longitude P_Plevel3 T_GridBound T_Interp P_Hgrid.
From Coq Require Import Lra.
Local Open Scope R_scope.

(** For all valid bounds the regular grid has increasing longitudes xs and latitudes ys that reach
    from the first to the last bound; point (j, i) is (xs i, ys j); the lengths of the edges are
    those of the arcs of parallels and meridians of the sphere; the angles are zero. *)
Theorem C80_regular : forall nxb nyb xbnds ybnds nlon nlat c, axis_ok nxb xbnds nlon c -> axis_ok nyb ybnds nlat c ->
  let nx := zsum nlon in let ny := zsum nlat in
  exists g xs ys, create_regular_lonlat_grid nxb nyb xbnds ybnds nlon nlat c = Ok g
    /\ lines xs nx (at_ xbnds 0) (at_ xbnds (nxb - 1)) /\ lines ys ny (at_ ybnds 0) (at_ ybnds (nyb - 1))
    /\ table (g_x g) (ny + 1) (nx + 1) (fun _ i => at_ xs i)
    /\ table (g_y g) (ny + 1) (nx + 1) (fun j _ => at_ ys j)
    /\ table (g_dx g) (ny + 1) nx (fun j i => earth * cos (rad (at_ ys j)) * (rad (at_ xs (i + 1)) - rad (at_ xs i)))
    /\ table (g_dy g) ny (nx + 1) (fun j _ => earth * (rad (at_ ys (j + 1)) - rad (at_ ys j)))
    /\ table (g_angle g) (ny + 1) (nx + 1) (fun _ _ => 0)
    (* the areas are those of the cells of the sphere if no cell is wider than 180 degrees *)
    /\ ((forall i, (0 <= i < nx)%Z -> at_ xs (i + 1) - at_ xs i <= 180) ->
        table (g_area g) ny nx (fun j i => earth * earth * (rad (at_ xs (i + 1)) - rad (at_ xs i)) * (sin (rad (at_ ys (j + 1))) - sin (rad (at_ ys j))))).
Proof.
  intros nxb nyb xbnds ybnds nlon nlat c HX HY nx ny. unfold create_regular_lonlat_grid.
  destruct (axis_run _ _ _ _ HX) as (xs & -> & LX & PX). destruct (axis_run _ _ _ _ HY) as (ys & -> & LY & PY). cbn [bind]. fold nx ny in LX, LY, PX, PY |- *.
  unfold set_regular_lonlat_grid. replace (nx + 1 - 1)%Z with nx by lia. replace (ny + 1 - 1)%Z with ny by lia.
  destruct (points_run (nx + 1) (ny + 1) xs ys) as (x & y & -> & Tx & Ty); try lia; [apply LX|apply LY|]. cbn [bind].
  destruct (row_run nx ny x y _ _ ltac:(lia) ltac:(lia) Tx Ty (fun _ => spherical_dist) (fun j i => earth * cos (rad (at_ ys j)) * (rad (at_ xs (i + 1)) - rad (at_ xs i)))) as (dx & -> & Tdx).
  { intros j i Hj Hi. apply sdist_row. apply (line_step _ _ _ _ _ LX). lia. }
  destruct (col_run nx ny x y _ _ ltac:(lia) ltac:(lia) Tx Ty (fun _ => spherical_dist) (fun j _ => earth * (rad (at_ ys (j + 1)) - rad (at_ ys j)))) as (dy & -> & Tdy).
  { intros j i Hj Hi. apply sdist_col. left. apply (line_step _ _ _ _ _ LY). lia. }
  destruct (area_run nx ny x y _ _ ltac:(lia) ltac:(lia) Tx Ty (fun x1 y1 x2 y2 => box_area (x1 * D2R) (y1 * D2R) (x2 * D2R) (y2 * D2R))) as (area & -> & Ta).
  destruct (angle_run nx ny ltac:(lia) ltac:(lia)) as (angle & -> & Tan). cbn [bind].
  eexists; exists xs, ys. split; [reflexivity|]. cbn [g_x g_y g_dx g_dy g_area g_angle]. split; [exact LX|]. split; [exact LY|]. split; [exact Tx|]. split; [exact Ty|]. split; [exact Tdx|]. split; [exact Tdy|]. split; [exact Tan|].
  intros W. revert Ta. apply table_ext. intros j i Hj Hi. apply box_area_eq. pose proof (W i Hi). pose proof (line_step _ _ _ _ _ LX Hi). lra.
Qed.

(** The areas are positive and add up to the area of the region: the cells tile it. *)
Theorem C80_area : forall nxb nyb xbnds ybnds nlon nlat c g, axis_ok nxb xbnds nlon c -> axis_ok nyb ybnds nlat c ->
  -90 <= at_ ybnds 0 -> at_ ybnds (nyb - 1) <= 90 ->
  create_regular_lonlat_grid nxb nyb xbnds ybnds nlon nlat c = Ok g ->
  (forall i, (0 <= i < zsum nlon)%Z -> at_ (g_x g) (i + 1) - at_ (g_x g) i <= 180) ->
  (forall a, In a (g_area g) -> 0 < a) /\
  total (g_area g) = earth * earth * (rad (at_ xbnds (nxb - 1)) - rad (at_ xbnds 0)) * (sin (rad (at_ ybnds (nyb - 1))) - sin (rad (at_ ybnds 0))).
Proof.
  intros nxb nyb xbnds ybnds nlon nlat c g HX HY H1 H2 E W.
  destruct (C80_regular nxb nyb xbnds ybnds nlon nlat c HX HY) as (g' & xs & ys & E' & LX & LY & Tx & Ty & _ & _ & _ & Ta). rewrite E in E'. inversion E'; subst g'.
  destruct (axis_run _ _ _ _ HX) as (_ & _ & _ & PX). destruct (axis_run _ _ _ _ HY) as (_ & _ & _ & PY).
  assert (WX : forall i, (0 <= i < zsum nlon)%Z -> at_ xs (i + 1) - at_ xs i <= 180).
  { intros i Hi. specialize (W i Hi). destruct Tx as [_ Tx]. pose proof (Tx 0%Z i ltac:(lia) ltac:(lia)) as A. pose proof (Tx 0%Z (i + 1)%Z ltac:(lia) ltac:(lia)) as B. rewrite Z.mul_0_l in A, B. cbn [Z.add] in A. rewrite Z.add_0_l in B. rewrite A, B in W. exact W. }
  specialize (Ta WX). split.
  - intros a Ha. destruct (In_zget _ _ Ha) as (k & Hk & Ek). destruct Ta as [La Ta]. rewrite La in Hk. destruct (divmod_range (zsum nlat) (zsum nlon) k ltac:(lia) Hk) as (_ & Dj & Di & Dk).
    assert (a = at_ (g_area g) k) as ->. { pose proof (get_at (g_area g) k ltac:(lia)) as Q. apply oget_Ok in Q. congruence. }
    rewrite Dk at 1. rewrite Ta by auto. pose proof (line_step _ _ _ _ _ LX Di). pose proof (line_step _ _ _ _ _ LY Dj).
    pose proof (line_mono _ _ _ _ (k / zsum nlon) LY ltac:(lia)). pose proof (line_mono _ _ _ _ (k / zsum nlon + 1) LY ltac:(lia)).
    assert (0 < rad (at_ xs (k mod zsum nlon + 1)) - rad (at_ xs (k mod zsum nlon))) by (unfold rad; pose proof PI_RGT_0; nra).
    assert (sin (rad (at_ ys (k / zsum nlon))) < sin (rad (at_ ys (k / zsum nlon + 1)))) by (apply sin_lat_inc; lra).
    apply Rmult_lt_0_compat; [|lra]. apply Rmult_lt_0_compat; [|lra]. unfold earth. lra.
  - destruct LX as (_ & _ & X0 & Xn). destruct LY as (_ & _ & Y0 & Yn). rewrite <- X0, <- Xn, <- Y0, <- Yn.
    apply (table_product (g_area g) (zsum nlat) (zsum nlon) (earth * earth) (fun i => rad (at_ xs i)) (fun j => sin (rad (at_ ys j)))); auto; lia.
Qed.

(** The areas of a global grid add up to the area of the sphere. *)
Theorem C80_global : forall nxb nyb xbnds ybnds nlon nlat c g, axis_ok nxb xbnds nlon c -> axis_ok nyb ybnds nlat c ->
  at_ ybnds 0 = -90 -> at_ ybnds (nyb - 1) = 90 -> at_ xbnds (nxb - 1) = at_ xbnds 0 + 360 ->
  create_regular_lonlat_grid nxb nyb xbnds ybnds nlon nlat c = Ok g ->
  (forall i, (0 <= i < zsum nlon)%Z -> at_ (g_x g) (i + 1) - at_ (g_x g) i <= 180) ->
  total (g_area g) = 4 * PI * earth * earth.
Proof.
  intros nxb nyb xbnds ybnds nlon nlat c g HX HY H1 H2 H3 E W. destruct (C80_area nxb nyb xbnds ybnds nlon nlat c g) as [_ ->]; auto; try lra.
  rewrite H1, H2, H3. replace (rad 90) with (PI / 2) by (unfold rad; field). replace (rad (-90)) with (- (PI / 2)) by (unfold rad; field). rewrite sin_neg, sin_PI2. unfold rad. field.
Qed.

Lemma inc2 a b : a < b -> increasing [a; b].
Proof. intros H i j Hi Hj. change (zlen [a; b]) with 2%Z in Hj. assert (i = 0%Z) as -> by lia. assert (j = 1%Z) as -> by lia. exact H. Qed.
Lemma axis2 a b n : a < b -> (0 < n)%Z -> axis_ok 2 [a; b] [n] C_none.
Proof. intros H Hn. unfold axis_ok. split; [lia|]. split; [reflexivity|]. split; [reflexivity|]. split; [now apply inc2|]. split; [|split; [discriminate|congruence]]. intros p [<- |[]]. auto. Qed.

(** A cell of 270 degrees: its area is negative. *)
Theorem C80_wide_cell_refuted : exists xbnds ybnds nlon nlat g, axis_ok 2 xbnds nlon C_none /\ axis_ok 2 ybnds nlat C_none
  /\ -90 <= at_ ybnds 0 /\ at_ ybnds 1 <= 90 /\ at_ xbnds 1 - at_ xbnds 0 <= 360
  /\ create_regular_lonlat_grid 2 2 xbnds ybnds nlon nlat C_none = Ok g /\ at_ (g_area g) 0 < 0.
Proof.
  exists [0; 270], [0; 90], [1%Z], [1%Z]. pose proof (axis2 0 270 1 ltac:(lra) ltac:(lia)) as HX. pose proof (axis2 0 90 1 ltac:(lra) ltac:(lia)) as HY.
  unfold create_regular_lonlat_grid. destruct (axis_run _ _ _ _ HX) as (xs & -> & LX & _). destruct (axis_run _ _ _ _ HY) as (ys & -> & LY & _). cbn [bind]. change (zsum [1%Z]) with 1%Z in *.
  unfold set_regular_lonlat_grid. change (1 + 1 - 1)%Z with 1%Z.
  destruct (points_run (1 + 1) (1 + 1) xs ys) as (x & y & -> & Tx & Ty); try lia; [apply LX|apply LY|]. cbn [bind].
  destruct (row_run 1 1 x y _ _ ltac:(lia) ltac:(lia) Tx Ty (fun _ => spherical_dist) (fun j i => earth * cos (rad (at_ ys j)) * (rad (at_ xs (i + 1)) - rad (at_ xs i)))) as (dx & -> & _).
  { intros j i Hj Hi. apply sdist_row. apply (line_step _ _ _ _ _ LX). lia. }
  destruct (col_run 1 1 x y _ _ ltac:(lia) ltac:(lia) Tx Ty (fun _ => spherical_dist) (fun j _ => earth * (rad (at_ ys (j + 1)) - rad (at_ ys j)))) as (dy & -> & _).
  { intros j i Hj Hi. apply sdist_col. left. apply (line_step _ _ _ _ _ LY). lia. }
  destruct (area_run 1 1 x y _ _ ltac:(lia) ltac:(lia) Tx Ty (fun x1 y1 x2 y2 => box_area (x1 * D2R) (y1 * D2R) (x2 * D2R) (y2 * D2R))) as (area & -> & Ta).
  destruct (angle_run 1 1 ltac:(lia) ltac:(lia)) as (angle & -> & _). cbn [bind].
  eexists. do 2 (split; [assumption|]). change (at_ [0; 90] 0) with 0. change (at_ [0; 90] 1) with 90. change (at_ [0; 270] 0) with 0. change (at_ [0; 270] 1) with 270.
  do 3 (split; [lra|]). split; [reflexivity|]. cbn [g_area]. destruct Ta as [_ Ta]. specialize (Ta 0%Z 0%Z ltac:(lia) ltac:(lia)). change (0 * 1 + 0)%Z with 0%Z in Ta. change (0 + 1)%Z with 1%Z in Ta. rewrite Ta.
  destruct LX as (_ & _ & -> & ->). destruct LY as (_ & _ & -> & ->). change (at_ [0; 90] 0) with 0. change (2 - 1)%Z with 1%Z. change (at_ [0; 90] 1) with 90. change (at_ [0; 270] 0) with 0. change (at_ [0; 270] 1) with 270.
  unfold box_area. rewrite !D2R_rad. pose proof PI_RGT_0. rewrite (rlt_t PI) by (unfold rad; lra). rewrite rlt_f by (unfold rad; lra).
  replace (rad 90) with (PI / 2) by (unfold rad; field). replace (rad 0) with 0 by (unfold rad; field). rewrite sin_PI2, sin_0. unfold rad, RADIUS. lra.
Qed.

(** The grid on the f-plane of latitude [flat]: all rows have the lengths of that latitude, and the
    area of a cell is the product of its sides; the areas add up to the area of the rectangle. *)
Theorem C80_f_plane : forall nxb nyb xbnds ybnds nlon nlat flat c, axis_ok nxb xbnds nlon c -> axis_ok nyb ybnds nlat c ->
  let nx := zsum nlon in let ny := zsum nlat in
  exists g xs ys, create_f_plane_grid nxb nyb xbnds ybnds nlon nlat flat c = Ok g
    /\ lines xs nx (at_ xbnds 0) (at_ xbnds (nxb - 1)) /\ lines ys ny (at_ ybnds 0) (at_ ybnds (nyb - 1))
    /\ table (g_x g) (ny + 1) (nx + 1) (fun _ i => at_ xs i)
    /\ table (g_y g) (ny + 1) (nx + 1) (fun j _ => at_ ys j)
    /\ table (g_dx g) (ny + 1) nx (fun _ i => earth * cos (rad flat) * (rad (at_ xs (i + 1)) - rad (at_ xs i)))
    /\ table (g_dy g) ny (nx + 1) (fun j _ => earth * (rad (at_ ys (j + 1)) - rad (at_ ys j)))
    /\ table (g_angle g) (ny + 1) (nx + 1) (fun _ _ => 0)
    /\ table (g_area g) ny nx (fun j i => at_ (g_dx g) (j * nx + i) * at_ (g_dy g) (j * (nx + 1) + i))
    /\ total (g_area g) = (earth * cos (rad flat) * (rad (at_ xbnds (nxb - 1)) - rad (at_ xbnds 0))) * (earth * (rad (at_ ybnds (nyb - 1)) - rad (at_ ybnds 0))).
Proof.
  intros nxb nyb xbnds ybnds nlon nlat flat c HX HY nx ny. unfold create_f_plane_grid.
  destruct (axis_run _ _ _ _ HX) as (xs & -> & LX & PX). destruct (axis_run _ _ _ _ HY) as (ys & -> & LY & PY). cbn [bind]. fold nx ny in LX, LY, PX, PY |- *.
  unfold set_f_plane_grid. replace (nx + 1 - 1)%Z with nx by lia. replace (ny + 1 - 1)%Z with ny by lia.
  destruct (points_run (nx + 1) (ny + 1) xs ys) as (x & y & -> & Tx & Ty); try lia; [apply LX|apply LY|]. cbn [bind].
  destruct (row_run nx ny x y _ _ ltac:(lia) ltac:(lia) Tx Ty (fun _ => cartesian_dist flat) (fun j i => earth * cos (rad flat) * (rad (at_ xs (i + 1)) - rad (at_ xs i)))) as (dx & -> & Tdx).
  { intros j i Hj Hi. apply cdist_row. apply (line_step _ _ _ _ _ LX). lia. }
  destruct (col_run nx ny x y _ _ ltac:(lia) ltac:(lia) Tx Ty (fun _ => cartesian_dist flat) (fun j _ => earth * (rad (at_ ys (j + 1)) - rad (at_ ys j)))) as (dy & -> & Tdy).
  { intros j i Hj Hi. apply cdist_col. left. apply (line_step _ _ _ _ _ LY). lia. }
  destruct (area_run nx ny x y _ _ ltac:(lia) ltac:(lia) Tx Ty (cartesian_box_area flat)) as (area & -> & Ta).
  destruct (angle_run nx ny ltac:(lia) ltac:(lia)) as (angle & -> & Tan). cbn [bind].
  eexists; exists xs, ys. split; [reflexivity|]. cbn [g_x g_y g_dx g_dy g_area g_angle]. split; [exact LX|]. split; [exact LY|]. split; [exact Tx|]. split; [exact Ty|]. split; [exact Tdx|]. split; [exact Tdy|]. split; [exact Tan|].
  assert (Ta' : table area ny nx (fun j i => earth * earth * cos (rad flat) * (rad (at_ xs (i + 1)) - rad (at_ xs i)) * (rad (at_ ys (j + 1)) - rad (at_ ys j)))).
  { revert Ta. apply table_ext. intros j i Hj Hi. unfold cartesian_box_area. rewrite (D2R_rad flat). generalize (cos (rad flat)). intros q. unfold rad, earth, RADIUS, D2R. field. }
  split.
  - revert Ta'. apply table_ext. intros j i Hj Hi. destruct Tdx as [_ ->]; [|lia|lia]. destruct Tdy as [_ ->]; [|lia|lia]. ring.
  - destruct LX as (_ & _ & <- & <-). destruct LY as (_ & _ & <- & <-).
    rewrite (table_product area ny nx (earth * earth * cos (rad flat)) (fun i => rad (at_ xs i)) (fun j => rad (at_ ys j))); [ring|lia|lia|exact Ta'].
Qed.

(** The simple Cartesian grid: equally spaced points from the first to the last bound, the given
    lengths, and the area of every cell is their product. *)
Theorem C80_cartesian : forall nx ny xbnds ybnds sdx sdy, (0 < nx)%Z -> (0 < ny)%Z -> zlen xbnds = 2%Z -> zlen ybnds = 2%Z ->
  exists g, create_simple_cartesian_grid nx ny xbnds ybnds sdx sdy = Ok g
    /\ table (g_x g) (ny + 1) (nx + 1) (fun _ i => at_ xbnds 0 + IZR i * ((at_ xbnds 1 - at_ xbnds 0) / IZR nx))
    /\ table (g_y g) (ny + 1) (nx + 1) (fun j _ => at_ ybnds 0 + IZR j * ((at_ ybnds 1 - at_ ybnds 0) / IZR ny))
    /\ table (g_dx g) (ny + 1) nx (fun _ _ => sdx) /\ table (g_dy g) ny (nx + 1) (fun _ _ => sdy)
    /\ table (g_area g) ny nx (fun _ _ => sdx * sdy) /\ table (g_angle g) (ny + 1) (nx + 1) (fun _ _ => 0).
Proof.
  intros nx ny xbnds ybnds sdx sdy Hx Hy Lx Ly. unfold create_simple_cartesian_grid.
  assert (TP : forall n bnds, (0 < n)%Z -> zlen bnds = 2%Z -> exists b, two_points (n + 1) bnds = Ok b /\ vec b (n + 1) (fun i => at_ bnds 0 + IZR i * ((at_ bnds 1 - at_ bnds 0) / IZR n))).
  { clear. intros n bnds Hn L. unfold two_points.
    destruct (ofor_fill (fun g i => oset g i (IZR i + 1)) (n + 1) 0 (n + 1) (fun _ => 0) (fun i => IZR i + 1) (alloc (n + 1))) as (g2 & -> & V2); try lia; [apply vec_repeat; lia|auto|]. cbn [bind].
    assert (G2 : forall i, (0 <= i < n + 1)%Z -> at_ g2 i = IZR i + 1). { intros i Hi. rewrite (vec_at_ _ _ _ _ V2) by auto. cbv beta. destruct (Z.leb_spec 0 i), (Z.ltb_spec i (0 + (n + 1))); cbn; auto; lia. }
    assert (L2 : zlen g2 = (n + 1)%Z) by apply V2. assert (PN : 0 < IZR n) by (apply IZR_lt; lia). assert (PN1 : IZR (n + 1) = IZR n + 1) by (rewrite plus_IZR; lra).
    unfold cubic_spline. set (g1 := [1; IZR (n + 1)]). assert (I1 : increasing g1) by (apply inc2; lra).
    destruct (check_increasing_spec g1 2) as [(-> & _)|(_ & C)]; [lia|reflexivity| |contradiction]. cbn [bind].
    assert (A0 : at_ g1 0 = 1) by reflexivity. assert (A1 : at_ g1 1 = IZR (n + 1)) by reflexivity. assert (LG : zlen g1 = 2%Z) by reflexivity. clearbody g1.
    destruct (check_loop (fun k => at_ g2 k < at_ g1 0 \/ at_ g1 1 < at_ g2 k) (fun k => rlt (at_ g2 k) (at_ g1 0) || rlt (at_ g1 1) (at_ g2 k)) 2%Z 0 (n + 1)
      (fun _ i => do z <- oget g2 i ; do a <- oget g1 0 ; if rlt z a then Err 2 else do b <- oget g1 (2 - 1) ; if rlt b z then Err 2 else Ok tt)) as [(E & H)|(E & i & Hi & H)]; auto; try lia.
    - intros i Hi. rewrite !get_at by lia. cbn [bind]. change (2 - 1)%Z with 1%Z. destruct (rlt_spec (at_ g2 i) (at_ g1 0)); cbn [orb]; auto.
    - intros i Hi. destruct (rlt_spec (at_ g2 i) (at_ g1 0)); cbn [orb]; [constructor; auto|]. destruct (rlt_spec (at_ g1 1) (at_ g2 i)); constructor; [now right|]. intros [|]; contradiction.
    - unfold check_inside. rewrite E. cbn [bind Z.ltb Z.eqb Z.compare Pos.compare Pos.compare_cont Pos.eqb]. unfold interp_two. rewrite !get_at by lia. cbn [bind].
      match goal with |- context [ofor 0 (n + 1) ?f (alloc (n + 1))] => destruct (ofor_fill f (n + 1) 0 (n + 1) (fun _ => 0) (fun i => at_ bnds 0 + IZR i * ((at_ bnds 1 - at_ bnds 0) / IZR n)) (alloc (n + 1))) as (out & Eo & Vo) end; try lia.
      { apply vec_repeat; lia. }
      { intros i g F Hi _ _ _. rewrite get_at by lia. cbn [bind]. f_equal. rewrite A0, A1, PN1, G2 by lia. field. lra. }
      exists out. split; auto. revert Vo. apply vec_ext. intros i Hi. destruct (Z.leb_spec 0 i), (Z.ltb_spec i (0 + (n + 1))); cbn; auto; lia.
    - exfalso. rewrite A0, A1, G2, PN1 in H by lia. assert (0 <= IZR i <= IZR n) by (split; apply IZR_le; lia). lra. }
  destruct (TP nx xbnds) as (xb & -> & Vx); auto. destruct (TP ny ybnds) as (yb & -> & Vy); auto. cbn [bind]. clear TP.
  destruct (points_run (nx + 1) (ny + 1) xb yb) as (x & y & -> & Tx & Ty); try lia; [apply Vx|apply Vy|]. cbn [bind].
  eexists. split; [reflexivity|]. cbn [g_x g_y g_dx g_dy g_area g_angle].
  assert (C : forall v n m, (0 <= n)%Z -> (0 <= m)%Z -> table (repeat v (Z.to_nat (m * n))) n m (fun _ _ => v)).
  { intros v n m Hn Hm. split; [rewrite zlen_repeat; lia|]. intros j i Hj Hi. rewrite (vec_at_ _ (m * n) (fun _ => v)); auto; [apply vec_repeat; nia|nia]. }
  split. { revert Tx. apply table_ext. intros j i _ Hi. now rewrite (vec_at_ _ _ _ _ Vx). }
  split. { revert Ty. apply table_ext. intros j i Hj _. now rewrite (vec_at_ _ _ _ _ Vy). }
  split; [apply C; lia|]. split; [apply C; lia|]. split; apply C; lia.
Qed.

(** The spectral grid cannot be made: with four rows or more the sum of the weights is used before
    it has a value, if the search for the latitudes ends at all. *)
Theorem C80_spectral_refuted : forall fuel nx ny, (4 <= ny)%Z -> forall g, create_spectral_grid fuel nx ny <> Ok g.
Proof.
  intros fuel nx ny Hny g. unfold create_spectral_grid. set (nj := Z.quot ny 2). assert (HJ : (2 <= nj)%Z) by (unfold nj; apply Z.quot_le_lower_bound; lia). clearbody nj.
  destruct (ofor 0 (Z.quot nj 2) _ []) as [hem|e|]; cbn [bind]; try discriminate.
  destruct (ofor 0 (Z.quot nj 2) _ _) as [[sl wl]|e|]; cbn [bind]; try discriminate.
  destruct (ofor 0 nj _ _) as [lat|e|]; cbn [bind]; try discriminate.
  rewrite (ofor_S 1 (nj - 1)) by lia.
  destruct (oget wl (1 - 1)) as [o|e|]; cbn [bind]; try discriminate. destruct o; cbn [bind val]; discriminate.
Qed.

Example C80_example : axis_ok 3 [0; 180; 360] [4; 4]%Z C_c_cell /\ axis_ok 2 [-90; 90] [6]%Z C_c_cell /\ at_ [0; 180; 360] (3 - 1) = at_ [0; 180; 360] 0 + 360.
Proof.
  unfold axis_ok. split; [|split]. 3:{ change (at_ [0; 180; 360] (3 - 1)) with 360. change (at_ [0; 180; 360] 0) with 0. lra. }
  - split; [lia|]. split; [reflexivity|]. split; [reflexivity|]. split; [apply inc3; lra|]. split; [cbn; intuition; lia|]. split; [discriminate|]. intros _ p. cbn. intuition; subst; reflexivity.
  - split; [lia|]. split; [reflexivity|]. split; [reflexivity|]. split; [apply inc2; lra|]. split; [cbn; intuition; lia|]. split; [discriminate|]. intros _ p. cbn. intuition; subst; reflexivity.
Qed.
