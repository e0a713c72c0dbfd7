(** * Proofs about the bipolar transformation of make_hgrid *)
From Verif Require Import Base M_Interp M_Longitude M_Runoff M_Matrix M_Hgrid Spec_Hgrid P_Interp P_Longitude P_Matrix P_Plevel3 P_Hgrid.
From Coq Require Import Lra Reals.
Local Open Scope R_scope.

(** ** fmod *)
Lemma fmod_val x y k : 0 < y -> (0 <= k)%Z -> y * IZR k <= x < y * (IZR k + 1) -> fmod x y = x - y * IZR k.
Proof.
  intros Hy Hk H. unfold fmod. assert (K : 0 <= IZR k) by (now apply IZR_le). assert (Q : IZR k <= x / y < IZR k + 1).
  { split; [apply Rmult_le_reg_r with y; auto; unfold Rdiv; rewrite Rmult_assoc, Rinv_l by lra; lra|apply Rmult_lt_reg_r with y; auto; unfold Rdiv; rewrite Rmult_assoc, Rinv_l by lra; lra]. }
  rewrite rlt_f by lra. f_equal. f_equal. f_equal. destruct (base_Int_part (x / y)) as [A B]. set (i := Int_part (x / y)) in *.
  assert ((i < k + 1)%Z) by (apply lt_IZR; rewrite plus_IZR; lra). assert ((k < i + 1)%Z) by (apply lt_IZR; rewrite plus_IZR; lra). lia.
Qed.
Lemma fmod_turn x y : 0 < y -> 0 <= x -> exists k, fmod x y = x - y * IZR k /\ 0 <= fmod x y < y.
Proof.
  intros Hy Hx. set (k := Int_part (x / y)). destruct (base_Int_part (x / y)) as [A B]. fold k in A, B.
  assert (Q : 0 <= x / y). { unfold Rdiv. apply Rmult_le_pos; auto. left. now apply Rinv_0_lt_compat. } assert (E : x = x / y * y) by (field; lra).
  assert ((0 <= k)%Z). { assert ((-1 < k)%Z); [|lia]. apply lt_IZR. lra. }
  assert (H1 : y * IZR k <= x < y * (IZR k + 1)) by (rewrite E; split; nra).
  exists k. rewrite (fmod_val x y k) by auto. split; [reflexivity|]. lra.
Qed.

(** ** Distances on a circle of latitude *)
Lemma fmod360 d : -360 <= d <= 360 -> fmod (d + 720) 360 = if Rlt_dec d 0 then d + 360 else if Rlt_dec d 360 then d else 0.
Proof.
  intros H. destruct (Rlt_dec d 0); [rewrite (fmod_val _ _ 1) by (try lra; lia); lra|]. destruct (Rlt_dec d 360); [rewrite (fmod_val _ _ 2) by (try lra; lia); lra|]. rewrite (fmod_val _ _ 3) by (try lra; lia). lra.
Qed.
Lemma lat_dist_eq a b : -360 <= a - b <= 360 -> lat_dist a b = Rmin (Rabs (a - b)) (360 - Rabs (a - b)).
Proof.
  intros H. unfold lat_dist. rewrite !fmod360 by lra. unfold Rabs, Rmin. repeat match goal with |- context [Rlt_dec ?u ?v] => destruct (Rlt_dec u v) end; repeat match goal with |- context [Rcase_abs ?u] => destruct (Rcase_abs u) end;
  repeat match goal with |- context [Rle_dec ?u ?v] => destruct (Rle_dec u v) end; lra.
Qed.
Ltac ld := rewrite ?lat_dist_eq by lra; unfold Rabs, Rmin; repeat match goal with |- context [Rcase_abs ?u] => destruct (Rcase_abs u) end; repeat match goal with |- context [Rle_dec ?u ?v] => destruct (Rle_dec u v) end; try lra.

Section bipolar.
  Context (S : R).
  Notation bpeq := (S + 90). Notation bpnp := S. Notation bpsp := (S + 180).
  Lemma phi_west x : 0 <= x - S <= 180 -> bp_phi x bpsp bpnp = 90 - (x - S).
  Proof. intros H. unfold bp_phi. destruct (rlt_cases (lat_dist x bpsp) 90) as [[-> Q]|[-> Q]]; revert Q; ld. Qed.
  Lemma phi_east x : 180 <= x - S <= 360 -> bp_phi x bpsp bpnp = x - S - 270.
  Proof. intros H. unfold bp_phi. destruct (rlt_cases (lat_dist x bpsp) 90) as [[-> Q]|[-> Q]]; revert Q; ld. Qed.
  Lemma lam_side x : 0 <= x - S <= 360 -> (rlt (lat_dist x bpeq) 90 = true <-> 0 < x - S < 180).
  Proof. intros H. destruct (rlt_cases (lat_dist x bpeq) 90) as [[-> Q]|[-> Q]]; revert Q; ld; intros; split; intros; try lra; try discriminate; auto. Qed.
  (** Mirror images. *)
  Lemma phi_mirror x x' : 0 <= x - S <= 360 -> x + x' = 2 * S + 360 -> bp_phi x' bpsp bpnp = bp_phi x bpsp bpnp.
  Proof. intros H E. destruct (Rle_dec (x - S) 180); [rewrite (phi_west x), (phi_east x') by lra; lra|rewrite (phi_east x), (phi_west x') by lra; lra]. Qed.
  Lemma phi_range x : 0 <= x - S <= 360 -> -90 <= bp_phi x bpsp bpnp <= 90.
  Proof. intros H. destruct (Rle_dec (x - S) 180); [rewrite phi_west by lra; lra|rewrite phi_east by lra; lra]. Qed.

  Context (LJ : R) (HJ : -90 < LJ < 90).
  Definition rp_ : R := tan ((1 / 2 * PI - LJ * D2R) / 2).
  Lemma half_range y : LJ <= y <= 90 -> 0 <= (1 / 2 * PI - y * D2R) / 2 <= (1 / 2 * PI - LJ * D2R) / 2 /\ (1 / 2 * PI - LJ * D2R) / 2 < PI / 2 /\ (y < 90 -> 0 < (1 / 2 * PI - y * D2R) / 2).
  Proof. intros H. pose proof PI_RGT_0. unfold D2R. repeat split; try nra. Qed.
  Lemma rp_pos : 0 < rp_.
  Proof. unfold rp_. destruct (half_range LJ ltac:(lra)) as (A & B & C). apply tan_gt_0; [apply C; lra|auto]. Qed.
  (** The bipolar longitude without its sign, in radians. *)
  Definition ell (y : R) : R := 2 * atan (tan ((1 / 2 * PI - y * D2R) / 2) / rp_).
  Lemma lam_eq x y : 0 <= x - S <= 360 -> bp_lam x y bpeq rp_ * D2R = if Rlt_dec 0 (x - S) then if Rlt_dec (x - S) 180 then - ell y else ell y else ell y.
  Proof.
    intros H. unfold bp_lam. fold rp_. assert (E : forall t, 2 * atan t * R2D * D2R = 2 * atan t). { intros t. unfold R2D, D2R. field. apply PI_neq0. }
    destruct (rlt (lat_dist x bpeq) 90) eqn:B; destruct (Rlt_dec 0 (x - S)); try destruct (Rlt_dec (x - S) 180);
    try (apply lam_side in B; [|lra]; lra); try (assert (false = true) by (rewrite <- B; apply lam_side; lra); discriminate); rewrite ?Ropp_mult_distr_l_reverse, ?E; unfold ell; reflexivity.
  Qed.
  Lemma tan_le a b : 0 <= a -> a <= b -> b < PI / 2 -> 0 <= tan a <= tan b.
  Proof.
    intros H1 H2 H3. pose proof PI_RGT_0. split. { destruct (Req_dec a 0) as [->|]; [rewrite tan_0; lra|left; apply tan_gt_0; lra]. }
    destruct (Req_dec a b) as [->|]; [lra|]. left. apply tan_increasing; lra.
  Qed.
  Lemma atan1 : atan 1 = PI / 4.
  Proof. apply atan_1. Qed.
  Lemma ell_range y : LJ <= y <= 90 -> 0 <= ell y <= PI / 2 /\ (y < 90 -> 0 < ell y).
  Proof.
    intros H. destruct (half_range y H) as (A & B & C). pose proof rp_pos as P. set (t := (1 / 2 * PI - y * D2R) / 2) in *.
    destruct (tan_le t ((1 / 2 * PI - LJ * D2R) / 2)) as [T1 T2]; try lra. fold rp_ in T2. unfold ell. fold t.
    assert (Q : 0 <= tan t / rp_ <= 1). { split; [unfold Rdiv; apply Rmult_le_pos; auto; left; now apply Rinv_0_lt_compat|]. apply Rmult_le_reg_r with rp_; auto. unfold Rdiv. rewrite Rmult_assoc, Rinv_l by lra. lra. }
    assert (M : forall a b, a <= b -> atan a <= atan b). { intros a b [L| ->]; [left; now apply atan_increasing|lra]. }
    pose proof (M _ _ (proj1 Q)) as M1. pose proof (M _ _ (proj2 Q)) as M2. rewrite atan_0 in M1. rewrite atan1 in M2. split; [lra|].
    intros L. assert (0 < tan t) by (apply tan_gt_0; [apply C; auto|lra]). assert (0 < tan t / rp_) by (unfold Rdiv; apply Rmult_lt_0_compat; auto; now apply Rinv_0_lt_compat).
    pose proof (atan_increasing _ _ H1) as M3. rewrite atan_0 in M3. lra.
  Qed.
  Lemma ell_join : ell LJ = PI / 2.
  Proof. unfold ell. fold rp_. replace (rp_ / rp_) with 1 by (field; pose proof rp_pos; lra). rewrite atan1. field. Qed.
  Lemma ell_top : ell 90 = 0.
  Proof. unfold ell. replace ((1 / 2 * PI - 90 * D2R) / 2) with 0 by (unfold D2R; field). rewrite tan_0. unfold Rdiv. rewrite Rmult_0_l, atan_0. ring. Qed.

  (** ** The latitude *)
  Definition geo_lat (c : R) : R := (PI * (1 / 2) - 2 * atan (rp_ * tan (acos c / 2))) * R2D.
  Lemma geo_lat_range c : 0 <= c <= 1 -> LJ <= geo_lat c <= 90.
  Proof.
    intros H. pose proof PI_RGT_0 as HP. assert (A : 0 <= acos c <= PI / 2).
    { destruct (acos_bound c) as [B1 B2]. split; auto. destruct (Rle_dec (acos c) (PI / 2)); auto. assert (cos (acos c) < 0) by (apply cos_lt_0; lra). rewrite cos_acos in H0 by lra. lra. }
    destruct (tan_le (acos c / 2) (PI / 4)) as [T1 T2]; try lra. rewrite tan_PI4 in T2. pose proof rp_pos as P.
    assert (M : forall a b, a <= b -> atan a <= atan b). { intros a b [L| ->]; [left; now apply atan_increasing|lra]. }
    assert (Q : 0 <= rp_ * tan (acos c / 2) <= rp_) by nra.
    pose proof (M _ _ (proj1 Q)) as M1. pose proof (M _ _ (proj2 Q)) as M2. rewrite atan_0 in M1.
    assert (E : atan rp_ = (1 / 2 * PI - LJ * D2R) / 2). { unfold rp_. destruct (half_range LJ ltac:(lra)) as (B & C & _). apply atan_tan. lra. }
    rewrite E in M2. unfold geo_lat, R2D. set (u := atan (rp_ * tan (acos c / 2))) in *. assert (I : 0 < / PI) by (now apply Rinv_0_lt_compat). assert (PI * / PI = 1) by (apply Rinv_r; lra).
    unfold D2R in M2. unfold Rdiv in *. set (ip := / PI) in *. clearbody u ip. split.
    - assert (LJ = LJ * PI * / 180 * (180 * ip)). { transitivity (LJ * (PI * ip)); [rewrite H0; ring|field]. } rewrite H1 at 1. apply Rmult_le_compat_r; [lra|]. lra.
    - assert (90 = PI * / 2 * (180 * ip)). { transitivity (90 * (PI * ip)); [rewrite H0; ring|field]. } rewrite H1. apply Rmult_le_compat_r; [lra|]. lra.
  Qed.
  Lemma geo_lat_join : geo_lat 0 = LJ.
  Proof.
    unfold geo_lat. rewrite acos_0. replace (PI / 2 / 2) with (PI / 4) by field. rewrite tan_PI4, Rmult_1_r. unfold rp_. destruct (half_range LJ ltac:(lra)) as (B & C & _). rewrite atan_tan by (pose proof PI_RGT_0; lra).
    unfold R2D, D2R. field. apply PI_neq0.
  Qed.
  Lemma geo_lat_pole : geo_lat 1 = 90.
  Proof. unfold geo_lat. rewrite acos_1. replace (0 / 2) with 0 by field. rewrite tan_0, Rmult_0_r, atan_0. unfold R2D. field. apply PI_neq0. Qed.
  Lemma cosine_range x y : 0 <= x - S <= 360 -> LJ <= y <= 90 ->
    cos (bp_lam x y bpeq rp_ * D2R) * cos (bp_phi x bpsp bpnp * D2R) = cos (ell y) * cos (bp_phi x bpsp bpnp * D2R) /\ 0 <= cos (ell y) * cos (bp_phi x bpsp bpnp * D2R) <= 1.
  Proof.
    intros Hx Hy. rewrite lam_eq by auto. split. { destruct (Rlt_dec 0 (x - S)), (Rlt_dec (x - S) 180); rewrite ?cos_neg; reflexivity. }
    destruct (ell_range y Hy) as [L _]. pose proof (phi_range x Hx) as Q. pose proof PI_RGT_0. assert (- (PI / 2) <= bp_phi x bpsp bpnp * D2R <= PI / 2) by (unfold D2R; nra).
    assert (0 <= cos (ell y)) by (apply cos_ge_0; lra). assert (0 <= cos (bp_phi x bpsp bpnp * D2R)) by (apply cos_ge_0; lra). pose proof (COS_bound (ell y)). pose proof (COS_bound (bp_phi x bpsp bpnp * D2R)). nra.
  Qed.

  (** ** The longitude *)
  (** Degrees east of S of a point that was [d] degrees east of S, for 0 <= d <= 180. *)
  Definition half_lon (y d : R) : R := atan2 (sin (ell y) * sin (rad d)) (cos (rad d)) * R2D.
  Definition geo_lon (y d : R) : R := if Rle_dec d 180 then half_lon y d else 360 - half_lon y (360 - d).

  Lemma ell_sin y : LJ <= y < 90 -> 0 < sin (ell y) <= 1.
  Proof. intros H. destruct (ell_range y ltac:(lra)) as [L P]. pose proof PI_RGT_0. split; [apply sin_gt_0; [apply P; lra|lra]|apply SIN_bound]. Qed.
  Lemma dir_pos y d : LJ <= y < 90 -> 0 < cos (rad d) * cos (rad d) + sin (ell y) * sin (rad d) * (sin (ell y) * sin (rad d)).
  Proof.
    intros H. destruct (ell_sin y H) as [P _]. pose proof (sin2_cos2 (rad d)) as E. unfold Rsqr in E. set (s := sin (ell y)) in *. set (a := sin (rad d)) in *. set (b := cos (rad d)) in *. clearbody s a b.
    destruct (Req_dec b 0) as [->|N]; [|nra]. assert (a <> 0) by (intros ->; lra). assert (0 < a * a) by nra. nra.
  Qed.
  Lemma half_spec y d : LJ <= y < 90 -> 0 <= d <= 180 -> let t := rad (half_lon y d) in 0 <= t <= PI
    /\ exists r, 0 < r /\ cos (rad d) = r * cos t /\ sin (ell y) * sin (rad d) = r * sin t.
  Proof.
    intros Hy Hd t. pose proof (dir_pos y d Hy) as D. destruct (atan2_spec _ _ D) as (A & B & C). assert (E : t = atan2 (sin (ell y) * sin (rad d)) (cos (rad d))).
    { unfold t, half_lon, rad, R2D. field. apply PI_neq0. } rewrite E. set (r := sqrt _) in A, B. assert (R0 : 0 < r) by (apply sqrt_lt_R0; auto). pose proof PI_RGT_0.
    assert (S0 : 0 <= sin (rad d)) by (apply sin_ge_0; unfold rad; nra). destruct (ell_sin y Hy) as [P _].
    split; [|exists r; split; auto]. split; [|lra]. set (u := atan2 _ _) in *. clearbody u. destruct (Rle_dec 0 u); auto. exfalso. assert (sin u < 0) by (apply sin_lt_0_var; lra). assert (0 <= r * sin u) by (rewrite <- B; nra). nra.
  Qed.
  Lemma half_range_ y d : LJ <= y < 90 -> 0 <= d <= 180 -> 0 <= half_lon y d <= 180.
  Proof. intros Hy Hd. destruct (half_spec y d Hy Hd) as [A _]. cbv zeta in A. unfold rad in A. pose proof PI_RGT_0. nra. Qed.
  Lemma half_0 y : LJ <= y < 90 -> half_lon y 0 = 0.
  Proof. intros Hy. unfold half_lon. replace (rad 0) with 0 by (unfold rad; field). rewrite sin_0, cos_0, Rmult_0_r. unfold atan2. rewrite rlt_t by lra. unfold Rdiv. rewrite Rmult_0_l, atan_0. ring. Qed.
  Lemma half_180 y : LJ <= y < 90 -> half_lon y 180 = 180.
  Proof. intros Hy. unfold half_lon. replace (rad 180) with PI by (unfold rad; field). rewrite sin_PI, cos_PI, Rmult_0_r. unfold atan2. rewrite rlt_f by lra. rewrite rlt_t by lra. rewrite rlt_f by lra. unfold Rdiv. rewrite Rmult_0_l, atan_0. unfold R2D. field. apply PI_neq0. Qed.
  Lemma half_mono y d1 d2 : LJ <= y < 90 -> 0 <= d1 -> d1 <= d2 -> d2 <= 180 -> half_lon y d1 <= half_lon y d2.
  Proof.
    intros Hy H1 H2 H3. destruct (half_spec y d1 Hy ltac:(lra)) as (A1 & r1 & P1 & C1 & S1). destruct (half_spec y d2 Hy ltac:(lra)) as (A2 & r2 & P2 & C2 & S2). cbv zeta in *.
    destruct (Rle_dec (half_lon y d1) (half_lon y d2)) as [|N]; auto. exfalso. pose proof PI_RGT_0 as HP. set (t1 := rad (half_lon y d1)) in *. set (t2 := rad (half_lon y d2)) in *.
    assert (L : t2 < t1) by (unfold t1, t2, rad; nra). destruct (ell_sin y Hy) as [P _].
    assert (X : sin (ell y) * sin (rad d2 - rad d1) = r1 * r2 * sin (t2 - t1)). { rewrite !sin_minus. transitivity (sin (ell y) * sin (rad d2) * cos (rad d1) - cos (rad d2) * (sin (ell y) * sin (rad d1))); [ring|]. rewrite S1, S2, C1, C2. ring. }
    assert (0 <= sin (rad d2 - rad d1)) by (apply sin_ge_0; unfold rad; nra). assert (PR : 0 < r1 * r2) by nra.
    destruct (Rlt_dec (t1 - t2) PI) as [T|T].
    - assert (0 < sin (t1 - t2)) by (apply sin_gt_0; lra). replace (t2 - t1) with (- (t1 - t2)) in X by ring. rewrite sin_neg in X. nra.
    - assert (t1 = PI) by lra. assert (t2 = 0) by lra. rewrite H0 in C1, S1. rewrite H4 in C2, S2. rewrite cos_PI in C1. rewrite cos_0 in C2. rewrite sin_PI in S1.
      assert (sin (rad d1) = 0) by nra. assert (d1 = 180). { destruct (Req_dec d1 180); auto. destruct (Req_dec d1 0) as [->|]. - replace (rad 0) with 0 in C1 by (unfold rad; field). rewrite cos_0 in C1. lra. - assert (0 < sin (rad d1)) by (apply sin_gt_0; unfold rad; nra). lra. }
      assert (d2 = 180) by lra. subst. lra.
  Qed.
  Lemma half_join d : 0 <= d <= 180 -> half_lon LJ d = d.
  Proof.
    intros Hd. destruct (half_spec LJ d ltac:(lra) Hd) as (A & r & P & C & Q). cbv zeta in *. rewrite ell_join, sin_PI2, Rmult_1_l in Q. pose proof PI_RGT_0 as HP.
    set (t := rad (half_lon LJ d)) in *. assert (R1 : r = 1). { pose proof (sin2_cos2 (rad d)) as E1. pose proof (sin2_cos2 t) as E2. unfold Rsqr in *. rewrite C, Q in E1. assert (r * r = 1) by (transitivity (r * r * (sin t * sin t + cos t * cos t)); [rewrite E2; ring|lra]). nra. }
    subst r. rewrite Rmult_1_l in C, Q. assert (E : rad d = t). { apply angle_unique; auto; unfold rad; nra. } unfold t, rad in E. assert (d * PI = half_lon LJ d * PI) by lra. apply Rmult_eq_reg_r in H; lra.
  Qed.
  Lemma lon_range y d : LJ <= y < 90 -> 0 <= d <= 360 -> 0 <= geo_lon y d <= 360 /\ (d <= 180 -> geo_lon y d <= 180) /\ (180 <= d -> 180 <= geo_lon y d).
  Proof.
    intros Hy Hd. unfold geo_lon. destruct (Rle_dec d 180) as [L|N].
    - pose proof (half_range_ y d Hy ltac:(lra)). repeat split; try lra. intros. assert (d = 180) as -> by lra. rewrite half_180 by auto. lra.
    - pose proof (half_range_ y (360 - d) Hy ltac:(lra)). repeat split; try lra.
  Qed.
  Lemma lon_mono y d1 d2 : LJ <= y < 90 -> 0 <= d1 -> d1 <= d2 -> d2 <= 360 -> geo_lon y d1 <= geo_lon y d2.
  Proof.
    intros Hy H1 H2 H3. unfold geo_lon. destruct (Rle_dec d1 180), (Rle_dec d2 180); try lra.
    - apply half_mono; auto.
    - pose proof (half_range_ y d1 Hy ltac:(lra)). pose proof (half_range_ y (360 - d2) Hy ltac:(lra)). lra.
    - pose proof (half_mono y (360 - d2) (360 - d1) Hy ltac:(lra) ltac:(lra) ltac:(lra)). lra.
  Qed.
  Lemma lon_mirror y d : LJ <= y < 90 -> 0 <= d <= 360 -> geo_lon y d + geo_lon y (360 - d) = 360.
  Proof.
    intros Hy Hd. unfold geo_lon. destruct (Rle_dec d 180), (Rle_dec (360 - d) 180); try lra.
    - assert (d = 180) as -> by lra. replace (360 - 180) with 180 by lra. rewrite half_180 by auto. lra.
    - replace (360 - (360 - d)) with d by lra. lra.
  Qed.
  Lemma lon_join d : 0 <= d <= 360 -> geo_lon LJ d = d.
  Proof. intros Hd. unfold geo_lon. destruct (Rle_dec d 180); rewrite half_join by lra; lra. Qed.
  Lemma lon_0 y : LJ <= y < 90 -> geo_lon y 0 = 0.
  Proof. intros Hy. unfold geo_lon. destruct (Rle_dec 0 180); [|lra]. now apply half_0. Qed.
  Lemma lon_180 y : LJ <= y < 90 -> geo_lon y 180 = 180.
  Proof. intros Hy. unfold geo_lon. destruct (Rle_dec 180 180); [|lra]. now apply half_180. Qed.
  Lemma lon_360 y : LJ <= y < 90 -> geo_lon y 360 = 360.
  Proof. intros Hy. pose proof (lon_mirror y 0 Hy ltac:(lra)) as M. rewrite lon_0 in M by auto. replace (360 - 0) with 360 in M by lra. lra. Qed.
End bipolar.
