(** * Proofs about the tripolar grid: lengths, and the run of the program *)
From Verif Require Import Base Loops Vec M_Interp M_GridBound M_Longitude M_Runoff M_Matrix M_Hgrid Spec_Hgrid P_Interp P_Interp2 P_Longitude P_Matrix P_Plevel3 P_Hgrid T_Interp P_Tripolar P_Tripolar2 P_Tripolar3.
From Coq Require Import Lra Reals.
Local Open Scope R_scope.

Section lengths.
  Context (S LJ : R) (HJ : -90 < LJ < 90).
  Notation bpeq := (S + 90). Notation bpnp := S. Notation bpsp := (S + 180).
  Notation rp := (tan ((1 / 2 * PI - LJ * D2R) / 2)).
  Notation phi x := (bp_phi x bpsp bpnp). Notation lam x y := (bp_lam x y bpeq rp).
  Notation metric x y := (bp_metric x y bpeq bpsp bpnp rp).
  Definition len_row (x1 x2 y : R) : R := distant (phi x1) (phi x2) (metric x1 y * RADIUS) (metric x2 y * RADIUS).
  Definition len_col (x y1 y2 : R) : R := distant (lam x y1) (lam x y2) (metric x y1 * (RADIUS * cos (phi x * D2R))) (metric x y2 * (RADIUS * cos (phi x * D2R))).
  Lemma bip_row x1 x2 y : x1 < x2 -> bipolar_dist bpeq bpsp bpnp rp x1 y x2 y = Ok (len_row x1 x2 y).
  Proof. intros H. unfold bipolar_dist. rewrite reqb_f, reqb_t by (auto; lra). reflexivity. Qed.
  Lemma bip_col x y1 y2 : bipolar_dist bpeq bpsp bpnp rp x y1 x y2 = Ok (len_col x y1 y2).
  Proof. unfold bipolar_dist. rewrite reqb_t by auto. reflexivity. Qed.

  Lemma lam_mirror x x' y : 0 <= x - S <= 360 -> x + x' = 2 * S + 360 -> lam x' y = lam x y \/ lam x' y = - lam x y.
  Proof.
    intros H E. unfold bp_lam. destruct (rlt (lat_dist x' bpeq) 90), (rlt (lat_dist x bpeq) 90); [left|right|right|left]; lra.
  Qed.
  Lemma metric_mirror x x' y : 0 <= x - S <= 360 -> x + x' = 2 * S + 360 -> metric x' y = metric x y.
  Proof.
    intros H E. unfold bp_metric. rewrite (phi_mirror S x x') by auto. destruct (lam_mirror x x' y H E) as [->| ->]; auto.
    rewrite Ropp_mult_distr_l_reverse, Rabs_Ropp, cos_neg. reflexivity.
  Qed.
  Lemma len_row_mirror x1 x2 x1' x2' y : 0 <= x1 - S <= 360 -> 0 <= x2 - S <= 360 -> x1 + x1' = 2 * S + 360 -> x2 + x2' = 2 * S + 360 -> len_row x2' x1' y = len_row x1 x2 y.
  Proof.
    intros H1 H2 E1 E2. unfold len_row. rewrite (metric_mirror x1 x1'), (metric_mirror x2 x2'), (phi_mirror S x1 x1'), (phi_mirror S x2 x2') by auto. unfold distant. rewrite (Rabs_minus_sym (phi x2)). rewrite (Rplus_comm (_ * RADIUS)). reflexivity.
  Qed.
  Lemma len_col_mirror x x' y1 y2 : 0 <= x - S <= 360 -> x + x' = 2 * S + 360 -> len_col x' y1 y2 = len_col x y1 y2.
  Proof.
    intros H E. unfold len_col. rewrite !(metric_mirror x x'), (phi_mirror S x x') by auto. unfold distant. do 3 f_equal.
    unfold bp_lam. destruct (rlt (lat_dist x' bpeq) 90), (rlt (lat_dist x bpeq) 90); auto; [rewrite <- Rabs_Ropp|symmetry; rewrite <- Rabs_Ropp]; f_equal; ring.
  Qed.

  (** At the join the bipolar metric is the spherical one. *)
  Lemma metric_join x : 0 <= x - S <= 360 -> metric x LJ = cos (rad LJ).
  Proof.
    intros H. unfold bp_metric. pose proof PI_RGT_0 as HP. pose proof PI2_1 as HP2. change rp with (rp_ LJ).
    assert (EL : Rabs (bp_lam x LJ bpeq (rp_ LJ) * D2R) = PI / 2). { rewrite (lam_eq S LJ x LJ H). rewrite (ell_join LJ HJ). destruct (Rlt_dec 0 (x - S)), (Rlt_dec (x - S) 180); rewrite ?Rabs_Ropp; apply Rabs_pos_eq; lra. }
    rewrite EL. rewrite (rlt_f (PI / 2)) by (unfold SMALL; lra). rewrite orb_true_r. cbn [orb negb].
    destruct (cosine_range S LJ HJ x LJ H ltac:(lra)) as [-> _]. rewrite (ell_join LJ HJ), cos_PI2, Rmult_0_l, acos_0. replace (PI / 2 / 2) with (PI / 4) by field. rewrite tan_PI4, cos_PI4.
    assert (Q : rad LJ = PI / 2 - 2 * atan (rp_ LJ)). { unfold rp_. destruct (half_range LJ HJ LJ ltac:(lra)) as (B & C & _). rewrite atan_tan by lra. unfold rad, D2R. field. }
    rewrite Q, cos_shift. replace (2 * atan (rp_ LJ)) with (2 * atan (rp_ LJ)) by reflexivity. rewrite sin_2a. destruct (cs_atan (rp_ LJ)) as (E & C & SS). pose proof (rp_pos LJ HJ) as P. set (r := rp_ LJ) in *. set (c := cos (atan r)) in *. rewrite SS in E |- *.
    assert (E2 : c * c = / (1 + r * r)). { apply Rmult_eq_reg_l with (1 + r * r); [|nra]. rewrite Rinv_r by nra. lra. }
    assert (sqrt 2 * sqrt 2 = 2) by (apply sqrt_sqrt; lra). assert (0 < sqrt 2) by (apply sqrt_lt_R0; lra).
    replace (1 / sqrt 2 * (1 / sqrt 2)) with (/ 2). 2:{ transitivity (/ (sqrt 2 * sqrt 2)); [now rewrite H0|field; lra]. }
    transitivity (2 * r * (c * c)); [|ring]. rewrite E2. field. nra.
  Qed.
  Lemma len_join x1 x2 : x1 < x2 -> 0 <= x1 - S -> x2 - S <= 360 -> x2 - S <= 180 \/ 180 <= x1 - S -> len_row x1 x2 LJ = earth * cos (rad LJ) * (rad x2 - rad x1).
  Proof.
    intros H1 H2 H3 H. unfold len_row. rewrite !metric_join by lra. unfold distant. replace (Rabs (phi x1 - phi x2)) with (x2 - x1).
    - generalize (cos (rad LJ)). intros c. unfold earth, RADIUS, rad, D2R. field.
    - destruct H; [rewrite !phi_west by lra; rewrite Rabs_pos_eq; lra|rewrite !phi_east by lra; rewrite Rabs_left1; lra].
  Qed.
  Lemma metric_pos x y : 0 <= x - S <= 360 -> LJ <= y <= 90 -> 0 < metric x y.
  Proof.
    intros Hx Hy. unfold bp_metric. destruct (_ || _); [|lra]. change rp with (rp_ LJ). destruct (cosine_range S LJ HJ x y Hx Hy) as [-> B]. set (c := cos (ell LJ y) * cos (phi x * D2R)) in *. pose proof (rp_pos LJ HJ) as P. pose proof PI_RGT_0.
    assert (A : 0 <= acos c <= PI / 2). { destruct (acos_bound c) as [B1 B2]. split; auto. destruct (Rle_dec (acos c) (PI / 2)); auto. assert (cos (acos c) < 0) by (apply cos_lt_0; lra). rewrite cos_acos in H0 by lra. lra. }
    assert (0 < cos (acos c / 2)) by (apply cos_gt_0; lra). set (q := cos (acos c / 2)) in *. set (t := tan (acos c / 2)) in *. clearbody q t. unfold Rdiv. apply Rmult_lt_0_compat.
    - apply Rmult_lt_0_compat; auto. rewrite Rmult_1_l. apply Rinv_0_lt_compat. nra.
    - apply Rinv_0_lt_compat. assert (0 <= rp_ LJ * rp_ LJ * (t * t)) by (assert (0 <= (rp_ LJ * t) * (rp_ LJ * t)) by nra; nra). lra.
  Qed.
End lengths.

(** ** The run of the program *)
Section run_gen.
  Context (fuel : nat) (nxb nyb : Z) (xbnds ybnds : list R) (nlon nlat : list Z) (c : center) (lat_join : R) (nx ny J : Z) (xs ys : list R).
  Notation start := (at_ xbnds 0).
  Context (EX : compute_grid_bound nxb xbnds nlon c = Ok (nx, xs)) (EY : compute_grid_bound nyb ybnds nlat c = Ok (ny, ys)).
  Context (HB : (0 < zlen xbnds)%Z) (Hnx : (0 <= nx)%Z) (Hny : (0 < ny)%Z) (LX : zlen xs = (nx + 1)%Z) (LY : zlen ys = (ny + 1)%Z) (IX : Spec_Interp.increasing xs) (IY : Spec_Interp.increasing ys).
  Context (EJ : nearest_index lat_join ys (ny + 1) = Ok J) (HJ0 : (0 <= J <= ny)%Z).
  Notation LJ := (at_ ys J).
  Notation rowof y i := (row start LJ fuel xs y i).
  Context (ST : steps start LJ fuel nx xs ny J ys) (NO : forall j, (J <= j <= ny)%Z -> LJ <= at_ ys j <= 90 - SMALL \/ at_ ys j = 90).
  Lemma tripolar_run_gen : exists t, create_tripolar_grid (2 + fuel) nxb nyb xbnds ybnds nlon nlat c lat_join = Ok t /\ t_join t = J
    /\ table (t_x t) (ny + 1) (nx + 1) (fun j i => if (J <=? j)%Z then fst (rowof (at_ ys j) i) else at_ xs i)
    /\ table (t_y t) (ny + 1) (nx + 1) (fun j i => if (J <=? j)%Z then snd (rowof (at_ ys j) i) else at_ ys j)
    /\ table (t_dx t) (ny + 1) nx (fun j i => if (j <? J)%Z then earth * cos (rad (at_ ys j)) * (rad (at_ xs (i + 1)) - rad (at_ xs i)) else len_row start LJ (at_ xs i) (at_ xs (i + 1)) (at_ ys j))
    /\ table (t_dy t) ny (nx + 1) (fun j i => if (j <? J)%Z then earth * (rad (at_ ys (j + 1)) - rad (at_ ys j)) else len_col start LJ (at_ xs i) (at_ ys j) (at_ ys (j + 1))).
  Proof.
    unfold create_tripolar_grid. rewrite EX, EY. cbn [bind].
    destruct (points_run (nx + 1) (ny + 1) xs ys) as (x & y & -> & Tx & Ty); try lia. cbn [bind].
    rewrite EJ. cbn [bind]. rewrite (get_at ys J) by lia. cbn [bind]. rewrite (get_at xbnds 0) by lia. cbn [bind].
    destruct (row_run nx ny x y _ _ ltac:(lia) ltac:(lia) Tx Ty (fun j => if (j <? J)%Z then spherical_dist else bipolar_dist (start + 90) (start + 180) start (tan ((1 / 2 * PI - LJ * D2R) / 2)))
      (fun j i => if (j <? J)%Z then earth * cos (rad (at_ ys j)) * (rad (at_ xs (i + 1)) - rad (at_ xs i)) else len_row start LJ (at_ xs i) (at_ xs (i + 1)) (at_ ys j))) as (dx & -> & Tdx).
    { intros j i Hj Hi. assert (at_ xs i < at_ xs (i + 1)) by (apply IX; lia). destruct (j <? J)%Z; [now apply sdist_row|now apply bip_row]. }
    cbn [bind].
    destruct (col_run nx ny x y _ _ ltac:(lia) ltac:(lia) Tx Ty (fun j => if (j <? J)%Z then spherical_dist else bipolar_dist (start + 90) (start + 180) start (tan ((1 / 2 * PI - LJ * D2R) / 2)))
      (fun j i => if (j <? J)%Z then earth * (rad (at_ ys (j + 1)) - rad (at_ ys j)) else len_col start LJ (at_ xs i) (at_ ys j) (at_ ys (j + 1)))) as (dy & -> & Tdy).
    { intros j i Hj Hi. assert (at_ ys j < at_ ys (j + 1)) by (apply IY; lia). destruct (j <? J)%Z; [apply sdist_col; lra|apply bip_col]. }
    cbn [bind].
    destruct (rows_run_gen start LJ fuel nx xs ny J ys) with (x := x) (y := y) as (x' & y' & -> & T1 & T2); auto; try lia. cbn [bind].
    eexists. split; [reflexivity|]. cbn [t_x t_y t_dx t_dy t_join]. auto 6.
  Qed.
End run_gen.

Section run.
  Context (fuel : nat) (nxb nyb : Z) (xbnds ybnds : list R) (nlon nlat : list Z) (c : center) (lat_join : R) (nx ny J : Z) (xs ys : list R).
  Notation start := (at_ xbnds 0).
  Context (EX : compute_grid_bound nxb xbnds nlon c = Ok (nx, xs)) (EY : compute_grid_bound nyb ybnds nlat c = Ok (ny, ys)).
  Context (HB : (0 < zlen xbnds)%Z) (HA : tripolar_axes start nx ny xs ys fuel).
  Context (EJ : nearest_index lat_join ys (ny + 1) = Ok J) (HJ0 : (0 <= J <= ny)%Z) (HJ1 : -90 < at_ ys J < 90).
  Notation LJ := (at_ ys J).

  Lemma north j : (J <= j <= ny)%Z -> LJ <= at_ ys j <= 90 - SMALL \/ at_ ys j = 90.
  Proof.
    intros Hj. destruct HA as (_ & _ & L & _ & I & _ & H & _). destruct (H j ltac:(lia)) as [A|A]; [left|now right]. unfold SMALL. split; auto.
    destruct (Z.eq_dec J j) as [->|]; [lra|]. left. apply I; lia.
  Qed.
  Notation rowof y i := (row start LJ fuel xs y i).
  Lemma tripolar_run : exists t, create_tripolar_grid (2 + fuel) nxb nyb xbnds ybnds nlon nlat c lat_join = Ok t /\ t_join t = J
    /\ table (t_x t) (ny + 1) (nx + 1) (fun j i => if (J <=? j)%Z then fst (rowof (at_ ys j) i) else at_ xs i)
    /\ table (t_y t) (ny + 1) (nx + 1) (fun j i => if (J <=? j)%Z then snd (rowof (at_ ys j) i) else at_ ys j)
    /\ table (t_dx t) (ny + 1) nx (fun j i => if (j <? J)%Z then earth * cos (rad (at_ ys j)) * (rad (at_ xs (i + 1)) - rad (at_ xs i)) else len_row start LJ (at_ xs i) (at_ xs (i + 1)) (at_ ys j))
    /\ table (t_dy t) ny (nx + 1) (fun j i => if (j <? J)%Z then earth * (rad (at_ ys (j + 1)) - rad (at_ ys j)) else len_col start LJ (at_ xs i) (at_ ys j) (at_ ys (j + 1))).
  Proof.
    pose proof HA as (HX & (h & Hh & Eh) & L & N & I & _ & _ & HS & HF). apply tripolar_run_gen; auto; try apply HX.
    - destruct HX. pose proof (zlen_nonneg xs). lia.
    - eapply row_step; eauto. exact north.
    - exact north.
  Qed.
End run.
