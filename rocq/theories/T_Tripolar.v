(** * C81: the tripolar grid of make_hgrid *)
From Verif Require Import Base Loops Vec M_Interp M_GridBound M_Longitude M_Runoff M_Matrix M_Hgrid Spec_GridBound Spec_Hgrid P_Interp P_Interp2 P_Longitude P_Matrix P_Plevel3 P_Hgrid T_GridBound T_Interp T_Hgrid P_Tripolar P_Tripolar2 P_Tripolar3 P_Tripolar4.
From Coq Require Import Lra Reals.
Local Open Scope R_scope.

(** The input of a tripolar grid, with the nominal longitudes [xs] and latitudes [ys] that
    compute_grid_bound (C34) makes of it. *)
Definition tripolar_input (nxb nyb : Z) (xbnds ybnds : list R) (nlon nlat : list Z) (c : center) (start : R) (nx ny : Z) (xs ys : list R) (fuel : nat) : Prop :=
  compute_grid_bound nxb xbnds nlon c = Ok (nx, xs) /\ compute_grid_bound nyb ybnds nlat c = Ok (ny, ys)
  /\ (0 < zlen xbnds)%Z /\ at_ xbnds 0 = start /\ tripolar_axes start nx ny xs ys fuel.

Section input.
  Context (nxb nyb : Z) (xbnds ybnds : list R) (nlon nlat : list Z) (c : center) (start lat_join : R) (nx ny : Z) (xs ys : list R) (fuel : nat).
  Context (HI : tripolar_input nxb nyb xbnds ybnds nlon nlat c start nx ny xs ys fuel).
  Lemma the_join : exists J, nearest_index lat_join ys (ny + 1) = Ok J /\ (0 <= J < ny + 1)%Z
    /\ (forall j, (0 <= j < ny + 1)%Z -> Rabs (at_ ys J - lat_join) <= Rabs (at_ ys j - lat_join)).
  Proof.
    destruct HI as (_ & _ & _ & _ & (_ & _ & L & N & I & _)). destruct (proj1 (C31_nearest_index lat_join ys (ny + 1) L ltac:(lia)) (inc_nondec _ I)) as (J & E & R & M & _). eauto.
  Qed.
  Lemma made_join t J : nearest_index lat_join ys (ny + 1) = Ok J -> create_tripolar_grid (2 + fuel) nxb nyb xbnds ybnds nlon nlat c lat_join = Ok t -> t_join t = J.
  Proof.
    intros EJ. destruct HI as (EX & EY & _ & _ & HX & _ & L & N & _). unfold create_tripolar_grid. rewrite EX, EY. cbn [bind].
    destruct (points (nx + 1) (ny + 1) xs ys) as [[x y]|e|]; cbn [bind]; try discriminate. rewrite EJ. cbn [bind].
    destruct (oget ys J); cbn [bind]; try discriminate. destruct (oget xbnds 0); cbn [bind]; try discriminate.
    destruct (row_lengths _ _ _ _ _ _); cbn [bind]; try discriminate. destruct (col_lengths _ _ _ _ _ _); cbn [bind]; try discriminate.
    destruct (bipolar_rows _ _ _ _ _ _ _ _ _ _ _) as [[x' y']|e|]; cbn [bind]; try discriminate. intros E. inversion E. reflexivity.
  Qed.
  Lemma the_run t : create_tripolar_grid (2 + fuel) nxb nyb xbnds ybnds nlon nlat c lat_join = Ok t -> -90 < at_ ys (t_join t) < 90 ->
    let J := t_join t in let LJ := at_ ys J in
    (0 <= J <= ny)%Z /\ (forall j, (J <= j <= ny)%Z -> LJ <= at_ ys j <= 90 - SMALL \/ at_ ys j = 90)
    /\ table (t_x t) (ny + 1) (nx + 1) (fun j i => if (J <=? j)%Z then fst (row start LJ fuel xs (at_ ys j) i) else at_ xs i)
    /\ table (t_y t) (ny + 1) (nx + 1) (fun j i => if (J <=? j)%Z then snd (row start LJ fuel xs (at_ ys j) i) else at_ ys j)
    /\ table (t_dx t) (ny + 1) nx (fun j i => if (j <? J)%Z then earth * cos (rad (at_ ys j)) * (rad (at_ xs (i + 1)) - rad (at_ xs i)) else len_row start LJ (at_ xs i) (at_ xs (i + 1)) (at_ ys j))
    /\ table (t_dy t) ny (nx + 1) (fun j i => if (j <? J)%Z then earth * (rad (at_ ys (j + 1)) - rad (at_ ys j)) else len_col start LJ (at_ xs i) (at_ ys j) (at_ ys (j + 1))).
  Proof.
    intros E H. destruct the_join as (J & EJ & RJ & _). pose proof (made_join t J EJ E) as EQ. rewrite EQ in *. cbv zeta.
    destruct HI as (EX & EY & HB & ES & HA). rewrite <- ES in HA.
    destruct (tripolar_run fuel nxb nyb xbnds ybnds nlon nlat c lat_join nx ny J xs ys) as (t' & E' & _ & R); auto; [lia|]. rewrite E in E'. inversion E'; subst t'. rewrite <- ES.
    split; [lia|]. split; [|exact R]. intros j Hj. eapply north; eauto; lia.
  Qed.
End input.

(** The grid is made, and the join is the row nearest to the latitude asked for. *)
Theorem C81_made : forall nxb nyb xbnds ybnds nlon nlat c start lat_join nx ny xs ys fuel,
  tripolar_input nxb nyb xbnds ybnds nlon nlat c start nx ny xs ys fuel ->
  -90 < at_ ys 0 \/ at_ ys 1 <= lat_join -> lat_join <= at_ ys (ny - 1) ->
  exists t, create_tripolar_grid (2 + fuel) nxb nyb xbnds ybnds nlon nlat c lat_join = Ok t
    /\ (0 <= t_join t < ny)%Z /\ -90 < at_ ys (t_join t) < 90
    /\ forall j, (0 <= j <= ny)%Z -> Rabs (at_ ys (t_join t) - lat_join) <= Rabs (at_ ys j - lat_join).
Proof.
  intros nxb nyb xbnds ybnds nlon nlat c start lat_join nx ny xs ys fuel HI H0 H1.
  destruct (the_join nxb nyb xbnds ybnds nlon nlat c start lat_join nx ny xs ys fuel HI) as (J & EJ & RJ & M). destruct HI as (EX & EY & HB & ES & HA). subst start. pose proof HA as (_ & _ & L & N & I & Y0 & YT & _).
  assert (J1 : (J < ny)%Z). { destruct (Z.eq_dec J ny) as [->|]; [|lia]. exfalso. assert (at_ ys (ny - 1) < at_ ys ny) by (apply I; lia). specialize (M (ny - 1)%Z ltac:(lia)). rewrite !Rabs_pos_eq in M by lra. lra. }
  assert (U : at_ ys J < 90). { assert (at_ ys J < at_ ys ny) by (apply I; lia). destruct (YT ny ltac:(lia)); lra. }
  assert (LW : -90 < at_ ys J).
  { destruct (Z.eq_dec J 0) as [->|]. - destruct H0 as [|H0]; auto. exfalso. assert (at_ ys 0 < at_ ys 1) by (apply I; lia). specialize (M 1%Z ltac:(lia)). rewrite !Rabs_left1 in M by lra. lra. - assert (at_ ys 0 < at_ ys J) by (apply I; lia). lra. }
  destruct (tripolar_run fuel nxb nyb xbnds ybnds nlon nlat c lat_join nx ny J xs ys) as (t & E & EQ & _); auto; [lia|].
  exists t. rewrite EQ. split; auto. split; [lia|]. split; [lra|]. intros j Hj. apply M. lia.
Qed.

(** South of the join the grid is the regular one. *)
Theorem C81_south : forall nxb nyb xbnds ybnds nlon nlat c start lat_join nx ny xs ys fuel t,
  tripolar_input nxb nyb xbnds ybnds nlon nlat c start nx ny xs ys fuel ->
  create_tripolar_grid (2 + fuel) nxb nyb xbnds ybnds nlon nlat c lat_join = Ok t -> -90 < at_ ys (t_join t) < 90 ->
  forall j i, (0 <= j < t_join t)%Z -> (0 <= i <= nx)%Z ->
    at_ (t_x t) (j * (nx + 1) + i) = at_ xs i /\ at_ (t_y t) (j * (nx + 1) + i) = at_ ys j
    /\ at_ (t_dy t) (j * (nx + 1) + i) = earth * (rad (at_ ys (j + 1)) - rad (at_ ys j))
    /\ ((i < nx)%Z -> at_ (t_dx t) (j * nx + i) = earth * cos (rad (at_ ys j)) * (rad (at_ xs (i + 1)) - rad (at_ xs i))).
Proof.
  intros nxb nyb xbnds ybnds nlon nlat c start lat_join nx ny xs ys fuel t HI E H j i Hj Hi.
  destruct (the_run _ _ _ _ _ _ _ _ _ _ _ _ _ _ HI t E H) as (RJ & _ & Tx & Ty & Tdx & Tdy).
  destruct Tx as [_ Tx]. destruct Ty as [_ Ty]. destruct Tdx as [_ Tdx]. destruct Tdy as [_ Tdy].
  rewrite Tx, Ty, Tdy by lia. destruct (Z.leb_spec (t_join t) j); [lia|]. destruct (Z.ltb_spec j (t_join t)); [|lia]. repeat split; auto.
  intros L. rewrite Tdx by lia. destruct (Z.ltb_spec j (t_join t)); [auto|lia].
Qed.

(** Along the join the two parts fit: its points are those of the regular grid (longitudes are
    snapped to the one before if they differ by less than 0.0001 degrees), and so are the lengths. *)
Theorem C81_join : forall nxb nyb xbnds ybnds nlon nlat c start lat_join nx ny xs ys fuel t,
  tripolar_input nxb nyb xbnds ybnds nlon nlat c start nx ny xs ys fuel ->
  create_tripolar_grid (2 + fuel) nxb nyb xbnds ybnds nlon nlat c lat_join = Ok t -> -90 < at_ ys (t_join t) < 90 ->
  let J := t_join t in forall i, (0 <= i <= nx)%Z ->
    at_ (t_y t) (J * (nx + 1) + i) = at_ ys J
    /\ at_ xs i - 1 / 10000 < at_ (t_x t) (J * (nx + 1) + i) <= at_ xs i
    /\ ((forall k, (0 <= k < nx)%Z -> 1 / 10000 <= at_ xs (k + 1) - at_ xs k) -> at_ (t_x t) (J * (nx + 1) + i) = at_ xs i)
    /\ ((i < nx)%Z -> at_ (t_dx t) (J * nx + i) = earth * cos (rad (at_ ys J)) * (rad (at_ xs (i + 1)) - rad (at_ xs i))).
Proof.
  intros nxb nyb xbnds ybnds nlon nlat c start lat_join nx ny xs ys fuel t HI E H J i Hi.
  destruct (the_run _ _ _ _ _ _ _ _ _ _ _ _ _ _ HI t E H) as (RJ & YJ & Tx & Ty & Tdx & _). fold J in RJ, YJ, Tx, Ty, Tdx, H.
  destruct Tx as [_ Tx]. destruct Ty as [_ Ty]. destruct Tdx as [_ Tdx]. rewrite Tx, Ty by lia. destruct (Z.leb_spec J J); [|lia].
  destruct HI as (_ & _ & _ & _ & HX & (h & Hh & Eh) & _ & _ & _ & _ & _ & HS & HF).
  assert (YR : at_ ys J <= at_ ys J <= 90 - SMALL). { destruct (YJ J ltac:(lia)); [auto|lra]. }
  pose proof (row_run_ok start (at_ ys J) H HS fuel HF nx h xs HX Hh Eh (at_ ys J) YR) as RO.
  assert (NN : forall k, (0 <= k <= nx)%Z -> ~ near start (at_ ys J) (at_ xs k) (at_ ys J)). { intros k Hk [N _]. rewrite (ell_join _ H) in N. pose proof PI2_1. unfold SMALL in N. lra. }
  assert (LO : forall k, (0 <= k <= nx)%Z -> lon_of start (at_ ys J) (at_ xs k) (at_ ys J) = at_ xs k). { intros k Hk. unfold lon_of. rewrite (lon_join _ H) by (pose proof (line_mono _ _ _ _ k HX Hk); lra). lra. }
  destruct (RO i Hi) as (_ & A & _ & _ & _ & B). destruct (B (NN i Hi)) as (B1 & B2 & B3). rewrite B1. rewrite (lat_of_join start _ H). rewrite LO in A, B2, B3 by auto. split; auto. split; [unfold SMALL in B2; lra|]. split.
  - intros SP. assert (Hi' : (i <= nx)%Z) by lia. destruct Hi as [Hi _]. clear A B B1 B2 B3. revert i Hi Hi'. apply (natlike_ind (fun i => (i <= nx)%Z -> fst (row start (at_ ys J) fuel xs (at_ ys J) i) = at_ xs i)).
    + intros _. destruct (RO 0%Z ltac:(lia)) as (_ & A & _ & _ & _ & B). rewrite LO in A by lia. destruct HX as (_ & _ & X0 & _). rewrite X0 in *. lra.
    + intros i Hi IH Hi'. unfold Z.succ in *. specialize (IH ltac:(lia)). destruct (RO (i + 1)%Z ltac:(lia)) as (_ & A & _ & _ & _ & B). destruct (B (NN (i + 1)%Z ltac:(lia))) as (_ & _ & B3). rewrite LO in B3 by lia. apply B3.
      unfold refer. destruct (Z.eqb_spec (i + 1) 0); [lia|]. replace (i + 1 - 1)%Z with i by lia. rewrite IH. unfold SMALL. apply SP. lia.
  - intros L. rewrite Tdx by lia. destruct (Z.ltb_spec J J); [lia|]. pose proof (line_step _ _ _ _ i HX ltac:(lia)). pose proof (line_mono _ _ _ _ i HX ltac:(lia)). pose proof (line_mono _ _ _ _ (i + 1) HX ltac:(lia)).
    apply (len_join start (at_ ys J) H); try lra. destruct HX as (LX & IX & _). destruct (Z_le_gt_dec (i + 1) h) as [Q|Q].
    + left. destruct (Z.eq_dec (i + 1) h) as [->|]; [lra|]. pose proof (IX (i + 1)%Z h ltac:(lia) ltac:(lia)). lra.
    + right. destruct (Z.eq_dec i h) as [->|]; [lra|]. pose proof (IX h i ltac:(lia) ltac:(lia)). lra.
Qed.

(** North of the join the points lie between the latitude of the join and the pole; along each row
    the longitudes go once round from [start] without turning back. *)
Theorem C81_cap : forall nxb nyb xbnds ybnds nlon nlat c start lat_join nx ny xs ys fuel t,
  tripolar_input nxb nyb xbnds ybnds nlon nlat c start nx ny xs ys fuel ->
  create_tripolar_grid (2 + fuel) nxb nyb xbnds ybnds nlon nlat c lat_join = Ok t -> -90 < at_ ys (t_join t) < 90 ->
  forall j i, (t_join t <= j <= ny)%Z -> (0 <= i <= nx)%Z ->
    at_ ys (t_join t) <= at_ (t_y t) (j * (nx + 1) + i) <= 90
    /\ start <= at_ (t_x t) (j * (nx + 1) + i) <= start + 360
    /\ ((i < nx)%Z -> at_ (t_x t) (j * (nx + 1) + i) <= at_ (t_x t) (j * (nx + 1) + (i + 1)))
    /\ at_ (t_x t) (j * (nx + 1)) = start.
Proof.
  intros nxb nyb xbnds ybnds nlon nlat c start lat_join nx ny xs ys fuel t HI E H j i Hj Hi.
  destruct (the_run _ _ _ _ _ _ _ _ _ _ _ _ _ _ HI t E H) as (RJ & YJ & Tx & Ty & _ & _). set (J := t_join t) in *.
  destruct Tx as [_ Tx]. destruct Ty as [_ Ty].
  destruct HI as (_ & _ & _ & _ & HX & (h & Hh & Eh) & _ & _ & _ & _ & _ & HS & HF).
  assert (EQX : forall k, (0 <= k <= nx)%Z -> at_ (t_x t) (j * (nx + 1) + k) = fst (row start (at_ ys J) fuel xs (at_ ys j) k)). { intros k Hk. rewrite Tx by lia. destruct (Z.leb_spec J j); [auto|lia]. }
  assert (E0 : at_ (t_x t) (j * (nx + 1)) = fst (row start (at_ ys J) fuel xs (at_ ys j) 0)). { rewrite <- EQX by lia. f_equal. lia. }
  rewrite E0, EQX by auto. rewrite Ty by lia. destruct (Z.leb_spec J j); [|lia].
  pose proof (line_mono _ _ _ _ i HX Hi) as RX.
  assert (LR : forall k, (0 <= k <= nx)%Z -> at_ ys J <= at_ ys j <= 90 -> at_ ys J <= lat_of start (at_ ys J) (at_ xs k) (at_ ys j) <= 90). { intros k Hk Q. apply lat_of_range; auto. pose proof (line_mono _ _ _ _ k HX Hk). lra. }
  destruct (YJ j ltac:(lia)) as [Y|Y].
  - assert (0 < SMALL) by (unfold SMALL; lra). pose proof (row_run_ok start (at_ ys J) H HS fuel HF nx h xs HX Hh Eh (at_ ys j) Y) as RO.
    destruct (RO i Hi) as (_ & A & _ & _ & B & C). destruct (lon_range (at_ ys J) H (at_ ys j) (at_ xs i - start) ltac:(lra) ltac:(lra)) as (G & _). unfold lon_of in A. split; [|split; [|split]].
    + destruct (near_dec start (at_ ys J) H (at_ xs i) (at_ ys j) ltac:(lra) ltac:(lra)) as [(_ & N)|(_ & N)]; [rewrite (B N); cbn [snd]; lra|]. destruct (C N) as (-> & _). apply LR; [auto|lra].
    + lra.
    + intros L. rewrite EQX by lia. destruct (RO (i + 1)%Z ltac:(lia)) as (_ & _ & A' & _). unfold refer in A'. destruct (Z.eqb_spec (i + 1) 0); [lia|]. replace (i + 1 - 1)%Z with i in A' by lia. exact A'.
    + destruct (RO 0%Z ltac:(lia)) as (_ & A' & _). unfold lon_of in A'. destruct HX as (_ & _ & X0 & _). rewrite X0 in A'. replace (start - start) with 0 in A' by lra. rewrite lon_0 in A' by lra. lra.
  - rewrite Y in *. pose proof (top_run_ok start (at_ ys J) H fuel nx h xs HX Hh Eh) as TO. rewrite (proj2 (TO i Hi)). cbn [fst snd]. split; [apply LR; [auto|lra]|]. split; [|split].
    + unfold seam. destruct (Rlt_dec (at_ xs i - start) 90); [lra|]. destruct (Rle_dec (at_ xs i - start) 270); lra.
    + intros L. rewrite EQX by lia. rewrite (proj2 (TO (i + 1)%Z ltac:(lia))). cbn [fst]. pose proof (line_step _ _ _ _ i HX ltac:(lia)). unfold seam. repeat destruct (Rlt_dec _ _); repeat destruct (Rle_dec _ _); lra.
    + rewrite (proj2 (TO 0%Z ltac:(lia))). cbn [fst]. destruct HX as (_ & _ & X0 & _). rewrite X0. unfold seam. destruct (Rlt_dec (start - start) 90); lra.
Qed.

(** The edges along the rows of the cap have positive lengths. *)
Theorem C81_positive : forall nxb nyb xbnds ybnds nlon nlat c start lat_join nx ny xs ys fuel t,
  tripolar_input nxb nyb xbnds ybnds nlon nlat c start nx ny xs ys fuel ->
  create_tripolar_grid (2 + fuel) nxb nyb xbnds ybnds nlon nlat c lat_join = Ok t -> -90 < at_ ys (t_join t) < 90 ->
  forall j i, (t_join t <= j <= ny)%Z -> (0 <= i < nx)%Z -> 0 < at_ (t_dx t) (j * nx + i).
Proof.
  intros nxb nyb xbnds ybnds nlon nlat c start lat_join nx ny xs ys fuel t HI E H j i Hj Hi.
  destruct (the_run _ _ _ _ _ _ _ _ _ _ _ _ _ _ HI t E H) as (RJ & YJ & _ & _ & Tdx & _). set (J := t_join t) in *. destruct Tdx as [_ Tdx].
  rewrite Tdx by lia. destruct (Z.ltb_spec j J); [lia|]. clear Tdx.
  destruct HI as (_ & _ & _ & _ & HX & (h & Hh & Eh) & _).
  pose proof (line_step _ _ _ _ i HX ltac:(lia)). pose proof (line_mono _ _ _ _ i HX ltac:(lia)). pose proof (line_mono _ _ _ _ (i + 1) HX ltac:(lia)).
  assert (YR : at_ ys J <= at_ ys j <= 90). { assert (0 < SMALL) by (unfold SMALL; lra). destruct (YJ j ltac:(lia)); lra. }
  pose proof (metric_pos start (at_ ys J) H (at_ xs i) (at_ ys j) ltac:(lra) YR) as M1. pose proof (metric_pos start (at_ ys J) H (at_ xs (i + 1)) (at_ ys j) ltac:(lra) YR) as M2.
  assert (D : 0 < Rabs (bp_phi (at_ xs i) (start + 180) start - bp_phi (at_ xs (i + 1)) (start + 180) start)).
  { apply Rabs_pos_lt. destruct HX as (LX & IX & _). destruct (Z_le_gt_dec (i + 1) h) as [Q|Q].
    - assert (at_ xs (i + 1) - start <= 180). { destruct (Z.eq_dec (i + 1) h) as [->|]; [lra|]. pose proof (IX (i + 1)%Z h ltac:(lia) ltac:(lia)). lra. } rewrite !phi_west by lra. lra.
    - assert (180 <= at_ xs i - start). { destruct (Z.eq_dec i h) as [->|]; [lra|]. pose proof (IX h i ltac:(lia) ltac:(lia)). lra. } rewrite !phi_east by lra. lra. }
  unfold len_row, distant. set (a := Rabs _) in *. set (m1 := bp_metric (at_ xs i) _ _ _ _ _) in *. set (m2 := bp_metric (at_ xs (i + 1)) _ _ _ _ _) in *. clearbody a m1 m2. unfold D2R, RADIUS. pose proof PI_RGT_0.
  assert (0 < a * (m1 + m2)) by nra. assert (0 < a * (m1 + m2) * PI) by nra. nra.
Qed.

(** With symmetric longitudes the cap is symmetric: latitudes and lengths exactly, longitudes up to
    0.0002 degrees, except at points that are put onto the pole. *)
Theorem C81_mirror : forall nxb nyb xbnds ybnds nlon nlat c start lat_join nx ny xs ys fuel t,
  tripolar_input nxb nyb xbnds ybnds nlon nlat c start nx ny xs ys fuel -> symmetric start nx xs ->
  create_tripolar_grid (2 + fuel) nxb nyb xbnds ybnds nlon nlat c lat_join = Ok t -> -90 < at_ ys (t_join t) < 90 ->
  forall j i, (t_join t <= j <= ny)%Z -> (0 <= i <= nx)%Z ->
    at_ (t_y t) (j * (nx + 1) + (nx - i)) = at_ (t_y t) (j * (nx + 1) + i)
    /\ (at_ (t_y t) (j * (nx + 1) + i) < 90 -> Rabs (at_ (t_x t) (j * (nx + 1) + i) + at_ (t_x t) (j * (nx + 1) + (nx - i)) - (2 * start + 360)) < 2 / 10000)
    /\ ((i < nx)%Z -> at_ (t_dx t) (j * nx + (nx - 1 - i)) = at_ (t_dx t) (j * nx + i))
    /\ ((j < ny)%Z -> at_ (t_dy t) (j * (nx + 1) + (nx - i)) = at_ (t_dy t) (j * (nx + 1) + i)).
Proof.
  intros nxb nyb xbnds ybnds nlon nlat c start lat_join nx ny xs ys fuel t HI SY E H j i Hj Hi.
  destruct (the_run _ _ _ _ _ _ _ _ _ _ _ _ _ _ HI t E H) as (RJ & YJ & Tx & Ty & Tdx & Tdy). set (J := t_join t) in *.
  destruct Tx as [_ Tx]. destruct Ty as [_ Ty]. destruct Tdx as [_ Tdx]. destruct Tdy as [_ Tdy].
  destruct HI as (_ & _ & _ & _ & HX & (h & Hh & Eh) & _ & _ & _ & _ & _ & HS & HF).
  pose proof (line_mono _ _ _ _ i HX Hi) as RX. pose proof (line_mono _ _ _ _ (nx - i)%Z HX ltac:(lia)) as RX'. pose proof (SY i Hi) as ES.
  rewrite !Tx, !Ty by lia. destruct (Z.leb_spec J j); [|lia]. split; [|split; [|split]].
  - destruct (YJ j ltac:(lia)) as [Y|Y].
    + assert (0 < SMALL) by (unfold SMALL; lra). pose proof (row_run_ok start (at_ ys J) H HS fuel HF nx h xs HX Hh Eh (at_ ys j) Y) as RO.
      destruct (RO i Hi) as (_ & _ & _ & _ & B & C). destruct (RO (nx - i)%Z ltac:(lia)) as (_ & _ & _ & _ & B' & C').
      assert (NM : near start (at_ ys J) (at_ xs (nx - i)) (at_ ys j) <-> near start (at_ ys J) (at_ xs i) (at_ ys j)). { unfold near. now rewrite (phi_mirror start (at_ xs i) (at_ xs (nx - i))) by lra. }
      destruct (near_dec start (at_ ys J) H (at_ xs i) (at_ ys j) ltac:(lra) ltac:(lra)) as [(_ & N)|(_ & N)].
      * rewrite (B N), (B' (proj2 NM N)). reflexivity.
      * destruct (C N) as (-> & _). destruct (C' (fun Q => N (proj1 NM Q))) as (-> & _). apply lat_of_mirror; lra.
    + rewrite Y. pose proof (top_run_ok start (at_ ys J) H fuel nx h xs HX Hh Eh) as TO. rewrite (proj2 (TO i Hi)), (proj2 (TO (nx - i)%Z ltac:(lia))). cbn [snd]. apply lat_of_mirror; lra.
  - intros LT. destruct (YJ j ltac:(lia)) as [Y|Y].
    + assert (0 < SMALL) by (unfold SMALL; lra). pose proof (row_run_ok start (at_ ys J) H HS fuel HF nx h xs HX Hh Eh (at_ ys j) Y) as RO.
      destruct (RO i Hi) as (_ & A & _ & _ & B & C). destruct (RO (nx - i)%Z ltac:(lia)) as (_ & A' & _ & _ & B' & C').
      assert (NM : near start (at_ ys J) (at_ xs (nx - i)) (at_ ys j) <-> near start (at_ ys J) (at_ xs i) (at_ ys j)). { unfold near. now rewrite (phi_mirror start (at_ xs i) (at_ xs (nx - i))) by lra. }
      destruct (near_dec start (at_ ys J) H (at_ xs i) (at_ ys j) ltac:(lra) ltac:(lra)) as [(_ & N)|(_ & N)].
      * rewrite (B N) in LT. cbn [snd] in LT. lra.
      * destruct (C N) as (_ & Q & _). destruct (C' (fun Q => N (proj1 NM Q))) as (_ & Q' & _).
        pose proof (lon_mirror (at_ ys J) (at_ ys j) (at_ xs i - start) ltac:(lra) ltac:(lra)) as LM. replace (360 - (at_ xs i - start)) with (at_ xs (nx - i) - start) in LM by lra. unfold lon_of, SMALL in *. apply Rabs_def1; lra.
    + rewrite Y. pose proof (top_run_ok start (at_ ys J) H fuel nx h xs HX Hh Eh) as TO. rewrite (proj2 (TO i Hi)), (proj2 (TO (nx - i)%Z ltac:(lia))). cbn [fst].
      assert (Q : seam start (at_ xs i) + seam start (at_ xs (nx - i)) - (2 * start + 360) = 0). { unfold seam. repeat destruct (Rlt_dec _ _); repeat destruct (Rle_dec _ _); lra. } rewrite Q, Rabs_R0. lra.
  - intros L. rewrite !Tdx by lia. destruct (Z.ltb_spec j J); [lia|]. pose proof (SY (i + 1)%Z ltac:(lia)) as ES1. pose proof (line_mono _ _ _ _ (i + 1)%Z HX ltac:(lia)) as RX1.
    replace (nx - 1 - i + 1)%Z with (nx - i)%Z by lia. replace (nx - (i + 1))%Z with (nx - 1 - i)%Z in ES1 by lia. apply len_row_mirror; lra.
  - intros L. rewrite !Tdy by lia. destruct (Z.ltb_spec j J); [lia|]. apply len_col_mirror; lra.
Qed.

(** The last row, if it is at the pole of the nominal grid, is a seam: it runs along the meridian of
    [start] to the pole and on along the opposite meridian, and back; its points i and nx - i are the
    same point of the sphere.  So the grid can be folded there. *)
Theorem C81_fold : forall nxb nyb xbnds ybnds nlon nlat c start lat_join nx ny xs ys fuel t,
  tripolar_input nxb nyb xbnds ybnds nlon nlat c start nx ny xs ys fuel -> symmetric start nx xs -> at_ ys ny = 90 ->
  create_tripolar_grid (2 + fuel) nxb nyb xbnds ybnds nlon nlat c lat_join = Ok t -> -90 < at_ ys (t_join t) < 90 ->
  forall i, (0 <= i <= nx)%Z ->
    let x i := at_ (t_x t) (ny * (nx + 1) + i) in let y i := at_ (t_y t) (ny * (nx + 1) + i) in
    x i = (if Rlt_dec (at_ xs i - start) 90 then start else if Rle_dec (at_ xs i - start) 270 then start + 180 else start + 360)
    /\ y (nx - i)%Z = y i /\ exists k, x (nx - i)%Z = x i + 360 * IZR k.
Proof.
  intros nxb nyb xbnds ybnds nlon nlat c start lat_join nx ny xs ys fuel t HI SY YN E H i Hi x y.
  destruct (C81_mirror _ _ _ _ _ _ _ _ _ _ _ _ _ _ _ HI SY E H ny i) as (M & _); [destruct (the_run _ _ _ _ _ _ _ _ _ _ _ _ _ _ HI t E H); lia|auto|].
  destruct (the_run _ _ _ _ _ _ _ _ _ _ _ _ _ _ HI t E H) as (RJ & YJ & Tx & _ & _ & _). set (J := t_join t) in *. destruct Tx as [_ Tx].
  destruct HI as (_ & _ & _ & _ & HX & (h & Hh & Eh) & _ & _ & _ & _ & _ & HS & HF).
  pose proof (top_run_ok start (at_ ys J) H fuel nx h xs HX Hh Eh) as TO.
  assert (EQ : forall k, (0 <= k <= nx)%Z -> x k = seam start (at_ xs k)). { intros k Hk. unfold x. rewrite Tx by lia. destruct (Z.leb_spec J ny); [|lia]. rewrite YN, (proj2 (TO k Hk)). reflexivity. }
  rewrite !EQ by lia. split; [reflexivity|]. split; [exact M|]. pose proof (SY i Hi) as ES. unfold seam.
  repeat destruct (Rlt_dec _ _); repeat destruct (Rle_dec _ _); try lra; first [exists 0%Z; lra|exists 1%Z; lra|exists (-1)%Z; lra].
Qed.

Section odd.
  Context (xs ys : list R) (X0 : at_ xs 0 = 0) (X1 : at_ xs 1 = 120) (X2 : at_ xs 2 = 240) (X3 : at_ xs 3 = 360) (Y1 : at_ ys 1 = 60).
  Lemma odd_rows : steps 0 (at_ ys 1) 0 3 xs 1 1 ys /\ forall i, (0 <= i <= 3)%Z -> row 0 (at_ ys 1) 0 xs (at_ ys 1) i = (at_ xs i, at_ ys 1).
  Proof.
    assert (HJ : -90 < at_ ys 1 < 90) by lra. assert (SM : 0 < SMALL < 1) by (unfold SMALL; lra).
    assert (XR : forall i, (0 <= i <= 3)%Z -> 0 <= at_ xs i <= 360). { intros i Hi. assert (D : (i = 0 \/ i = 1 \/ i = 2 \/ i = 3)%Z) by lia. destruct D as [->|[->|[->| ->]]]; lra. }
  pose proof PI2_1 as P2.
  assert (PT : forall i ref, (0 <= i <= 3)%Z -> 0 <= ref -> ref = at_ xs i \/ ref + 120 = at_ xs i ->
    tp_trans (2 + 0) (at_ xs i) (at_ ys 1) ref 0 (fmod ((0 + 90) * D2R + 2 * PI) (2 * PI)) (0 + 90) (0 + 180) 0 (tan ((1 / 2 * PI - at_ ys 1 * D2R) / 2)) = Ok (at_ xs i, at_ ys 1)).
  { intros i ref Hi Hr HR. pose proof (XR i Hi) as Q. assert (LO : lon_of 0 (at_ ys 1) (at_ xs i) (at_ ys 1) = at_ xs i). { unfold lon_of. rewrite (lon_join _ HJ) by lra. lra. }
    destruct (tp_point 0 (at_ ys 1) HJ ltac:(lra) 0 (at_ xs i) (at_ ys 1) ref) as [(N & _)|(N & r & E & A & B & C)]; try lra.
    - rewrite Rabs_R0. cbn [INR]. lra.
    - exfalso. destruct N as [N _]. rewrite (ell_join _ HJ) in N. lra.
    - rewrite E, (lat_of_join 0 _ HJ). rewrite LO in A, B, C. do 2 f_equal. destruct HR as [HR|HR]; [lra|]. apply C. lra. }
  set (rw := row 0 (at_ ys 1) 0 xs (at_ ys 1)). set (rf := refer 0 (at_ ys 1) 0 xs (at_ ys 1)).
  assert (RE : forall i, (0 <= i <= 3)%Z -> 0 <= rf i -> rf i = at_ xs i \/ rf i + 120 = at_ xs i -> rw i = (at_ xs i, at_ ys 1)).
  { intros i Hi H1 H2. unfold rw. rewrite row_eq by lia. fold rf. rewrite PT by auto. reflexivity. }
  assert (FZ : forall i, (0 < i)%Z -> rf i = fst (rw (i - 1)%Z)) by (intros i Hi; unfold rf, refer; destruct (Z.eqb_spec i 0); [lia|]; fold rw; reflexivity). assert (F0 : rf 0%Z = at_ xs 0) by (unfold rf, refer; reflexivity). assert (R0 : rw 0%Z = (at_ xs 0, at_ ys 1)) by (apply RE; [lia|lra|lra]).
  assert (F1 : rf 1%Z = at_ xs 0) by (rewrite FZ by lia; change (1 - 1)%Z with 0%Z; rewrite R0; reflexivity). assert (R1 : rw 1%Z = (at_ xs 1, at_ ys 1)) by (apply RE; [lia|lra|lra]).
  assert (F2 : rf 2%Z = at_ xs 1) by (rewrite FZ by lia; change (2 - 1)%Z with 1%Z; rewrite R1; reflexivity). assert (R2 : rw 2%Z = (at_ xs 2, at_ ys 1)) by (apply RE; [lia|lra|lra]).
  assert (F3 : rf 3%Z = at_ xs 2) by (rewrite FZ by lia; change (3 - 1)%Z with 2%Z; rewrite R2; reflexivity). assert (R3 : rw 3%Z = (at_ xs 3, at_ ys 1)) by (apply RE; [lia|lra|lra]).
  split.
    - intros j i Hj Hi. assert (j = 1%Z) by lia. subst j. fold rw rf. assert (D : (i = 0 \/ i = 1 \/ i = 2 \/ i = 3)%Z) by lia. destruct D as [->|[->|[->| ->]]]; [rewrite F0, R0|rewrite F1, R1|rewrite F2, R2|rewrite F3, R3]; apply PT; lra || lia.
    - intros i Hi. fold rw. assert (D : (i = 0 \/ i = 1 \/ i = 2 \/ i = 3)%Z) by lia. destruct D as [->|[->|[->| ->]]]; auto.
  Qed.
End odd.

Lemma odd_input : exists xs ys, compute_grid_bound 4 [0; 120; 240; 360] [1; 1; 1]%Z C_none = Ok (3%Z, xs) /\ compute_grid_bound 2 [0; 60] [1]%Z C_none = Ok (1%Z, ys) /\ nearest_index 60 ys 2 = Ok 1%Z
  /\ zlen xs = 4%Z /\ zlen ys = 2%Z /\ Spec_Interp.increasing xs /\ Spec_Interp.increasing ys /\ at_ xs 0 = 0 /\ at_ xs 1 = 120 /\ at_ xs 2 = 240 /\ at_ xs 3 = 360 /\ at_ ys 0 = 0 /\ at_ ys 1 = 60.
Proof.
  assert (I4 : Spec_Interp.increasing [0; 120; 240; 360]).
  { intros i j Hi Hj. change (zlen [0; 120; 240; 360]) with 4%Z in Hj. assert (D : (i = 0 \/ i = 1 \/ i = 2)%Z) by lia. assert (D' : (j = 1 \/ j = 2 \/ j = 3)%Z) by lia. destruct D as [->|[->| ->]]; destruct D' as [->|[->| ->]]; try lia; unfold at_; cbn [nth_error Z.to_nat]; cbv [nth Z.to_nat Pos.to_nat Pos.iter_op Init.Nat.add]; lra. }
  destruct (C34_grid_partial 4 [0; 120; 240; 360] [1; 1; 1]%Z C_none) as (xs & EX & LX & IX & _ & _ & VX); try reflexivity; try lia; auto; try discriminate; [cbn; intuition; lia|congruence|]. specialize (VX ltac:(discriminate)).
  destruct (C34_grid_partial 2 [0; 60] [1]%Z C_none) as (ys & EY & LY & IY & Y0 & Y1 & _); try reflexivity; try lia; auto; try discriminate; [apply inc2; lra|cbn; intuition; lia|congruence|].
  change (zsum [1]%Z) with 1%Z in *. change (zsum [1; 1; 1]%Z) with 3%Z in *. change (at_ [0; 60] 0) with 0 in Y0. change (at_ [0; 60] (2 - 1)) with 60 in Y1.
  assert (X0 : at_ xs 0 = 0) by (exact (VX 0%Z ltac:(lia))). assert (X1 : at_ xs 1 = 120) by (exact (VX 1%Z ltac:(lia))). assert (X2 : at_ xs 2 = 240) by (exact (VX 2%Z ltac:(lia))). assert (X3 : at_ xs 3 = 360) by (exact (VX 3%Z ltac:(lia))). clear VX.
  assert (EJ : nearest_index 60 ys 2 = Ok 1%Z).
  { destruct (proj1 (C31_nearest_index 60 ys 2 ltac:(lia) ltac:(lia)) (inc_nondec _ IY)) as (J & E & R & M & _). assert (D : (J = 0 \/ J = 1)%Z) by lia. destruct D as [->| ->]; auto. exfalso. specialize (M 1%Z ltac:(lia)). rewrite Y0, Y1, !Rabs_left1 in M by lra. lra. }
  exists xs, ys. auto 20.
Qed.
(** The line opposite of [start] is needed: a cell across it gets the length zero, with the points
    120 degrees apart, because both its ends have the same nominal latitude of the cap. *)
Theorem C81_odd_refuted : exists t, create_tripolar_grid 2 4 2 [0; 120; 240; 360] [0; 60] [1; 1; 1]%Z [1]%Z C_none 60 = Ok t
  /\ at_ (t_x t) 5 = 120 /\ at_ (t_y t) 5 = 60 /\ at_ (t_x t) 6 = 240 /\ at_ (t_y t) 6 = 60 /\ at_ (t_dx t) 4 = 0.
Proof.
  destruct odd_input as (xs & ys & EX & EY & EJ & LX & LY & IX & IY & X0 & X1 & X2 & X3 & Y0 & Y1).
  destruct (odd_rows xs ys X0 X1 X2 X3 Y1) as (ST & RW).
  destruct (tripolar_run_gen 0 4 2 [0; 120; 240; 360] [0; 60] [1; 1; 1]%Z [1]%Z C_none 60 3 1 1 xs ys) as (t & E & _ & T1 & T2 & Tdx & _); auto; try lia; [reflexivity| |].
  { intros j Hj. assert (j = 1%Z) by lia. subst j. left. unfold SMALL. lra. }
  exists t. split; [exact E|]. change (at_ [0; 120; 240; 360] 0) with 0 in *.
  destruct T1 as [_ T1]. destruct T2 as [_ T2]. destruct Tdx as [_ Tdx].
  pose proof (T1 1%Z 1%Z ltac:(lia) ltac:(lia)) as A1. pose proof (T1 1%Z 2%Z ltac:(lia) ltac:(lia)) as A2. pose proof (T2 1%Z 1%Z ltac:(lia) ltac:(lia)) as A3. pose proof (T2 1%Z 2%Z ltac:(lia) ltac:(lia)) as A4. pose proof (Tdx 1%Z 1%Z ltac:(lia) ltac:(lia)) as A5.
  change (1 <=? 1)%Z with true in A1, A2, A3, A4. change (1 <? 1)%Z with false in A5. cbv iota in A1, A2, A3, A4, A5. rewrite RW in A1, A2, A3, A4 by lia. cbn [fst snd] in A1, A2, A3, A4.
  change (1 * (3 + 1) + 1)%Z with 5%Z in A1, A3. change (1 * (3 + 1) + 2)%Z with 6%Z in A2, A4. change (1 * 3 + 1)%Z with 4%Z in A5. change (1 + 1)%Z with 2%Z in A5.
  rewrite A1, A2, A3, A4, A5. repeat split; auto; try lra. unfold len_row, distant. rewrite (phi_west 0 (at_ xs 1)) by lra. rewrite (phi_east 0 (at_ xs 2)) by lra. rewrite X1, X2.
  match goal with |- context [Rabs ?a] => replace a with 0 by lra end. rewrite Rabs_R0. unfold Rdiv. ring.
Qed.

(** The areas by great circles: the program gives great_circle_area the first two Cartesian
    coordinates of a corner as its longitude and latitude, so the polygon is another one.
    The regular grid passes the corners themselves. *)
Definition on_sphere (x y : R) : list R := [cos (rad y) * cos (rad x); cos (rad y) * sin (rad x); sin (rad y)].
Theorem C81_great_circle_corners : forall nxp j i x y, (0 <= j)%Z -> (0 <= i)%Z -> (i + 1 < nxp)%Z -> zlen x = zlen y -> ((j + 1) * nxp + i + 1 < zlen x)%Z ->
  let p n := on_sphere (at_ x n) (at_ y n) in
  regular_corners nxp j i x y = Ok [p (j * nxp + i)%Z; p ((j + 1) * nxp + i)%Z; p ((j + 1) * nxp + i + 1)%Z; p (j * nxp + i + 1)%Z].
Proof.
  intros nxp j i x y Hj Hi Hn L HL p. unfold regular_corners, gc_corners. cbn [ofold fold_left bind].
  assert (Z0 : (0 <= j * nxp + i)%Z) by nia. assert (Z1 : ((j + 1) * nxp + i = j * nxp + i + nxp)%Z) by ring. rewrite Z1 in *. set (b := (j * nxp + i)%Z) in *. clearbody b.
  assert (G : forall l n, (0 <= n < zlen l)%Z -> oget (map (Rmult D2R) l) n = Ok (rad (at_ l n))).
  { intros l n Hq. pose proof (get_at l n Hq) as Q. unfold oget in *. destruct (zget l n) as [v|] eqn:E; [|discriminate]. injection Q as Q. rewrite zget_map, E. cbn. rewrite Q. f_equal. unfold rad, D2R. lra. }
  rewrite !G by lia. cbn [bind app]. reflexivity.
Qed.
Theorem C81_great_circle_refuted : exists x y ps, tripolar_corners 2 0 0 x y = Ok ps /\ zlen x = 4%Z /\ zlen y = 4%Z /\ nth 0 ps [] <> on_sphere (at_ x 0) (at_ y 0).
Proof.
  exists [0; 90; 0; 90], [0; 0; 60; 60]. eexists. split; [reflexivity|]. split; [reflexivity|]. split; [reflexivity|]. cbn [nth]. change (at_ [0; 90; 0; 90] 0) with 0. change (at_ [0; 0; 60; 60] 0) with 0.
  unfold on_sphere, latlon2xyz. cbn [nth fst snd combine map]. replace (rad 0) with 0 by (unfold rad; lra). rewrite !Rmult_0_r, cos_0, sin_0, !Rmult_1_l, Rmult_0_r, cos_0, sin_0, !Rmult_1_l. intros E. injection E as E _.
  pose proof PI2_1. assert (cos 1 < cos 0) by (apply cos_decreasing_1; lra). rewrite cos_0 in *. lra.
Qed.

(** Four columns and three rows, joined at 60 degrees, with the pole as last latitude. *)
Example C81_example : exists xs ys, tripolar_input 5 4 [0; 90; 180; 270; 360] [-80; 60; 75; 90] [1; 1; 1; 1]%Z [1; 1; 1]%Z C_none 0 4 3 xs ys 0
  /\ -90 < at_ ys 0 /\ 60 <= at_ ys (3 - 1) /\ at_ ys 3 = 90 /\ symmetric 0 4 xs.
Proof.
  assert (I5 : Spec_Interp.increasing [0; 90; 180; 270; 360]).
  { intros i j Hi Hj. change (zlen [0; 90; 180; 270; 360]) with 5%Z in Hj. assert (D : (i = 0 \/ i = 1 \/ i = 2 \/ i = 3)%Z) by lia. assert (D' : (j = 1 \/ j = 2 \/ j = 3 \/ j = 4)%Z) by lia. destruct D as [->|[->|[->| ->]]]; destruct D' as [->|[->|[->| ->]]]; try lia; unfold at_; cbv [nth Z.to_nat Pos.to_nat Pos.iter_op Init.Nat.add]; lra. }
  assert (I4 : Spec_Interp.increasing [-80; 60; 75; 90]).
  { intros i j Hi Hj. change (zlen [-80; 60; 75; 90]) with 4%Z in Hj. assert (D : (i = 0 \/ i = 1 \/ i = 2)%Z) by lia. assert (D' : (j = 1 \/ j = 2 \/ j = 3)%Z) by lia. destruct D as [->|[->| ->]]; destruct D' as [->|[->| ->]]; try lia; unfold at_; cbv [nth Z.to_nat Pos.to_nat Pos.iter_op Init.Nat.add]; lra. }
  destruct (C34_grid_partial 5 [0; 90; 180; 270; 360] [1; 1; 1; 1]%Z C_none) as (xs & EX & LX & IX & _ & _ & VX); try reflexivity; try lia; auto; try discriminate; [cbn; intuition; lia|congruence|]. specialize (VX ltac:(discriminate)).
  destruct (C34_grid_partial 4 [-80; 60; 75; 90] [1; 1; 1]%Z C_none) as (ys & EY & LY & IY & _ & _ & VY); try reflexivity; try lia; auto; try discriminate; [cbn; intuition; lia|congruence|]. specialize (VY ltac:(discriminate)).
  change (zsum [1; 1; 1; 1]%Z) with 4%Z in *. change (zsum [1; 1; 1]%Z) with 3%Z in *.
  assert (X0 : at_ xs 0 = 0) by (exact (VX 0%Z ltac:(lia))). assert (X1 : at_ xs 1 = 90) by (exact (VX 1%Z ltac:(lia))). assert (X2 : at_ xs 2 = 180) by (exact (VX 2%Z ltac:(lia))). assert (X3 : at_ xs 3 = 270) by (exact (VX 3%Z ltac:(lia))). assert (X4 : at_ xs 4 = 360) by (exact (VX 4%Z ltac:(lia))).
  assert (Y0 : at_ ys 0 = -80) by (exact (VY 0%Z ltac:(lia))). assert (Y1 : at_ ys 1 = 60) by (exact (VY 1%Z ltac:(lia))). assert (Y2 : at_ ys 2 = 75) by (exact (VY 2%Z ltac:(lia))). assert (Y3 : at_ ys 3 = 90) by (exact (VY 3%Z ltac:(lia))).
  exists xs, ys. split; [|split; [lra|split; [change (3 - 1)%Z with 2%Z; lra|split; [lra|]]]].
  - unfold tripolar_input, tripolar_axes, lines. repeat split; auto; try lia; try lra.
    + exists 2%Z. split; [lia|lra].
    + intros j Hj. assert (D : (j = 0 \/ j = 1 \/ j = 2 \/ j = 3)%Z) by lia. destruct D as [->|[->|[->| ->]]]; lra.
    + rewrite Rabs_R0. cbn [INR]. lra.
  - intros i Hi. assert (D : (i = 0 \/ i = 1 \/ i = 2 \/ i = 3 \/ i = 4)%Z) by lia. destruct D as [->|[->|[->|[->| ->]]]];
      [change (4 - 0)%Z with 4%Z|change (4 - 1)%Z with 3%Z|change (4 - 2)%Z with 2%Z|change (4 - 3)%Z with 1%Z|change (4 - 4)%Z with 0%Z]; lra.
Qed.

Print Assumptions C81_made.
Print Assumptions C81_join.
Print Assumptions C81_cap.
Print Assumptions C81_mirror.
Print Assumptions C81_fold.
