(** * Proofs about the bipolar transformation of make_hgrid: one point, one row *)
From Verif Require Import Base Loops Vec M_Interp M_Longitude M_Runoff M_Matrix M_Hgrid Spec_Hgrid P_Interp P_Longitude P_Matrix P_Plevel3 P_Hgrid P_Tripolar.
From Coq Require Import Lra Reals.
Local Open Scope R_scope.

Section point.
  Context (S LJ : R) (HJ : -90 < LJ < 90) (HS : -360 <= S).
  Notation bpeq := (S + 90). Notation bpnp := S. Notation bpsp := (S + 180).
  Notation lam0 := (fmod (bpeq * D2R + 2 * PI) (2 * PI)).
  Notation rp := (tan ((1 / 2 * PI - LJ * D2R) / 2)).
  Notation phi x := (bp_phi x bpsp bpnp).

  Definition lat_of (x y : R) : R := geo_lat LJ (cos (ell LJ y) * cos (phi x * D2R)).
  (** The point is so close to the pole that its longitude is not computed. *)
  Definition near (x y : R) : Prop := ell LJ y < SMALL /\ Rabs (phi x * D2R) < SMALL.

  Lemma lat_of_range x y : 0 <= x - S <= 360 -> LJ <= y <= 90 -> LJ <= lat_of x y <= 90.
  Proof. intros Hx Hy. apply geo_lat_range; auto. eapply cosine_range; eauto. Qed.
  Lemma lat_of_mirror x x' y : 0 <= x - S <= 360 -> x + x' = 2 * S + 360 -> lat_of x' y = lat_of x y.
  Proof. intros Hx E. unfold lat_of. now rewrite (phi_mirror S x x'). Qed.
  Lemma lat_of_join x : lat_of x LJ = LJ.
  Proof. unfold lat_of. rewrite (ell_join LJ HJ), cos_PI2, Rmult_0_l. now apply geo_lat_join. Qed.

  Lemma near_dec x y : 0 <= x - S <= 360 -> LJ <= y <= 90 ->
    let lamc := bp_lam x y bpeq rp * D2R in let phic := phi x * D2R in
    (rlt (Rabs lamc) SMALL && rlt (Rabs phic) SMALL = true /\ near x y) \/ (rlt (Rabs lamc) SMALL && rlt (Rabs phic) SMALL = false /\ ~ near x y).
  Proof.
    intros Hx Hy lamc phic. destruct (ell_range LJ HJ y Hy) as [L _]. assert (E : Rabs lamc = ell LJ y).
    { unfold lamc. change rp with (rp_ LJ). rewrite (lam_eq S LJ x y Hx). destruct (Rlt_dec 0 (x - S)), (Rlt_dec (x - S) 180); rewrite ?Rabs_Ropp; apply Rabs_pos_eq; lra. }
    rewrite E. unfold near. fold phic. destruct (rlt_cases (ell LJ y) SMALL) as [[-> A]|[-> A]]; destruct (rlt_cases (Rabs phic) SMALL) as [[-> B]|[-> B]]; cbn [andb]; [left|right|right|right]; split; auto; lra.
  Qed.

  (** The longitude that comes out of the formula is that of [geo_lon], up to full turns. *)
  Lemma lams_turn x y : 0 <= x - S <= 360 -> LJ <= y < 90 ->
    let lamc := bp_lam x y bpeq rp * D2R in let phic := phi x * D2R in
    let lams := fmod (lam0 + PI + PI / 2 - atan2 (sin lamc * cos phic) (sin phic)) (2 * PI) in
    0 <= lams * R2D < 360 /\ exists k, S + geo_lon LJ y (x - S) = lams * R2D + 360 * IZR k.
  Proof.
    intros Hx Hy lamc phic lams. pose proof PI_RGT_0 as HP.
    destruct (fmod_turn (bpeq * D2R + 2 * PI) (2 * PI)) as (k0 & E0 & B0); [lra|unfold D2R; nra|].
    destruct (half_spec LJ HJ y (if Rle_dec (x - S) 180 then x - S else 360 - (x - S)) Hy) as (AR & r & PR & CR & SR). { destruct (Rle_dec (x - S) 180); lra. }
    cbv zeta in AR, CR, SR. set (d := if Rle_dec (x - S) 180 then x - S else 360 - (x - S)) in *.
    assert (TH : exists s, atan2 (sin lamc * cos phic) (sin phic) = s /\ - PI <= s <= PI /\ exists k, S + geo_lon LJ y (x - S) = S - s * R2D + 360 * IZR k).
    { assert (RD : forall a, rad a * R2D = a) by (intros; unfold rad, R2D; field; lra).
      assert (EL : lamc = if Rlt_dec 0 (x - S) then if Rlt_dec (x - S) 180 then - ell LJ y else ell LJ y else ell LJ y) by (unfold lamc; change rp with (rp_ LJ); now rewrite (lam_eq S LJ x y Hx)).
      destruct (Rlt_dec 0 (x - S)) as [P0|P0]; [destruct (Rlt_dec (x - S) 180) as [P1|P1]|].
      - (* west half *)
        assert (d = x - S) as Ed by (unfold d; destruct (Rle_dec (x - S) 180); lra). rewrite Ed in *. clear Ed.
        assert (EP : phic = PI / 2 - rad (x - S)). { unfold phic. rewrite phi_west by lra. unfold rad, D2R. field. }
        assert (C1 : cos phic = sin (rad (x - S))) by (rewrite EP; apply cos_shift). assert (S1 : sin phic = cos (rad (x - S))) by (rewrite EP; apply sin_shift).
        assert (SL : sin lamc = - sin (ell LJ y)) by (rewrite EL; apply sin_neg). rewrite SL, C1, S1.
        exists (- rad (half_lon LJ y (x - S))). split; [|split; [lra|exists 0%Z; unfold geo_lon; destruct (Rle_dec (x - S) 180); [|lra]; rewrite Ropp_mult_distr_l_reverse, RD; lra]].
        pose proof (dir_pos LJ HJ y (x - S) Hy) as DP. destruct (atan2_spec (cos (rad (x - S))) (- sin (ell LJ y) * sin (rad (x - S)))) as (A1 & A2 & A3).
        { replace (- sin (ell LJ y) * sin (rad (x - S)) * (- sin (ell LJ y) * sin (rad (x - S)))) with (sin (ell LJ y) * sin (rad (x - S)) * (sin (ell LJ y) * sin (rad (x - S)))) by ring. exact DP. }
        set (r' := sqrt _) in A1, A2. set (s := atan2 (- sin (ell LJ y) * sin (rad (x - S))) (cos (rad (x - S)))) in *. assert (PR' : 0 < r'). { apply sqrt_lt_R0. replace (- sin (ell LJ y) * sin (rad (x - S)) * (- sin (ell LJ y) * sin (rad (x - S)))) with (sin (ell LJ y) * sin (rad (x - S)) * (sin (ell LJ y) * sin (rad (x - S)))) by ring. exact DP. }
        set (t := rad (half_lon LJ y (x - S))) in *. assert (ST : 0 < sin t). { destruct (ell_sin LJ HJ y Hy) as [P _]. assert (0 < sin (rad (x - S))) by (apply sin_gt_0; unfold rad; nra). assert (0 < r * sin t) by (rewrite <- SR; nra). nra. }
        assert (SS : sin s < 0) by nra. assert (s < 0). { destruct (Rlt_dec s 0); auto. exfalso. assert (0 <= sin s) by (apply sin_ge_0; lra). lra. }
        assert (TB : 0 < t < PI). { split; [destruct (Req_dec t 0) as [Q|]; [rewrite Q, sin_0 in ST; lra|lra]|destruct (Req_dec t PI) as [Q|]; [rewrite Q, sin_PI in ST; lra|lra]]. }
        assert (RR : r = r'). { apply pos_root; auto. pose proof (sin2_cos2 s) as Q1. pose proof (sin2_cos2 t) as Q2. unfold Rsqr in *.
          transitivity (r * cos t * (r * cos t) + r * sin t * (r * sin t)); [transitivity (r * r * (sin t * sin t + cos t * cos t)); [rewrite Q2; ring|ring]|]. rewrite <- CR, <- SR.
          replace (sin (ell LJ y) * sin (rad (x - S)) * (sin (ell LJ y) * sin (rad (x - S)))) with (- sin (ell LJ y) * sin (rad (x - S)) * (- sin (ell LJ y) * sin (rad (x - S)))) by ring. rewrite A1, A2.
          transitivity (r' * r' * (sin s * sin s + cos s * cos s)); [ring|]. rewrite Q1. ring. }
        assert (- s = t); [|lra]. apply angle_unique; try lra.
        + rewrite cos_neg. apply Rmult_eq_reg_l with r'; [|lra]. rewrite <- A1, CR, RR. reflexivity.
        + rewrite sin_neg. apply Rmult_eq_reg_l with r'; [|lra]. rewrite <- RR at 2. rewrite <- SR. rewrite Ropp_mult_distr_r_reverse, <- A2. ring.
      - (* east half *)
        assert (d = 360 - (x - S)) as Ed by (unfold d; destruct (Rle_dec (x - S) 180); lra). rewrite Ed in *. clear Ed.
        assert (EP : phic = PI / 2 - rad (360 - (x - S))). { unfold phic. rewrite phi_east by lra. unfold rad, D2R. field. }
        assert (C1 : cos phic = sin (rad (360 - (x - S)))) by (rewrite EP; apply cos_shift). assert (S1 : sin phic = cos (rad (360 - (x - S)))) by (rewrite EP; apply sin_shift).
        rewrite C1, S1, EL. exists (rad (half_lon LJ y (360 - (x - S)))). split; [unfold half_lon, rad, R2D; field; lra|]. split; [lra|].
        unfold geo_lon. destruct (Rle_dec (x - S) 180).
        + exists 1%Z. assert (Q : x - S = 180) by lra. rewrite Q. replace (360 - 180) with 180 by lra. rewrite RD. rewrite half_180 by auto. lra.
        + exists 1%Z. rewrite RD. lra.
      - (* x = S *)
        assert (Q : x - S = 0) by lra. assert (EP : phic = PI / 2). { unfold phic. rewrite phi_west by lra. unfold D2R. rewrite Q. field. }
        rewrite EP, cos_PI2, sin_PI2, Rmult_0_r. unfold atan2. rewrite rlt_t by lra. unfold Rdiv. rewrite Rmult_0_l, atan_0. exists 0. split; auto. split; [lra|]. exists 0%Z. rewrite Q, lon_0 by auto. lra. }
    destruct TH as (s & Es & Bs & k & Ek). unfold lams. rewrite Es.
    destruct (fmod_turn (lam0 + PI + PI / 2 - s) (2 * PI)) as (k1 & E1 & B1); [lra|lra|]. split.
    - set (m := fmod (lam0 + PI + PI / 2 - s) (2 * PI)) in *. clearbody m. assert (I : 0 < / PI) by (now apply Rinv_0_lt_compat). unfold R2D, Rdiv. assert (PI * / PI = 1) by (apply Rinv_r; lra). split; [nra|].
      replace 360 with (2 * PI * (180 * / PI)) by (field; lra). apply Rmult_lt_compat_r; lra.
    - rewrite E1, E0. exists (k + k0 + k1 - 2)%Z. rewrite Ek. rewrite minus_IZR, !plus_IZR. unfold R2D, D2R. field. lra.
  Qed.

  (** lon_in_range gives the wanted longitude [v], or the reference if they are close. *)
  Lemma lir_loop_eq : forall fuel lon k strt, (Z.to_nat (Z.abs k) < fuel)%nat -> strt <= lon + 360 * IZR k <= strt + 360 ->
    ((k < 0)%Z -> strt < lon + 360 * IZR k) -> ((0 < k)%Z -> lon + 360 * IZR k < strt + 360) -> lir_loop fuel lon strt = Ok (lon + 360 * IZR k).
  Proof.
    induction fuel as [|fuel IH]; intros lon k strt Hf H H1 H2; [lia|]. cbn [lir_loop].
    destruct (Z.lt_trichotomy k 0) as [L|[->|L]].
    - specialize (H1 L). assert (IZR k <= -1) by (apply (IZR_le k (-1)); lia). rewrite rlt_f by lra. rewrite rlt_t by lra.
      rewrite (IH (lon - 360) (k + 1)%Z strt); [f_equal; rewrite plus_IZR; lra|lia|rewrite plus_IZR; lra|rewrite plus_IZR; intros; lra|intros; lia].
    - rewrite rlt_f by lra. rewrite rlt_f by lra. f_equal. lra.
    - specialize (H2 L). assert (1 <= IZR k) by (apply (IZR_le 1 k); lia). rewrite rlt_t by lra.
      rewrite (IH (lon + 360) (k - 1)%Z strt); [f_equal; rewrite minus_IZR; lra|lia|rewrite minus_IZR; lra|intros; lia|rewrite minus_IZR; intros; lra].
  Qed.
  Lemma lir_eq fuel lon k ref : (Z.to_nat (Z.abs k) < fuel)%nat -> 0 <= lon < 360 -> -360 <= ref -> ref <= lon + 360 * IZR k <= ref + 360 - SMALL ->
    exists r, lon_in_range fuel lon ref = Ok r /\ ref <= r <= lon + 360 * IZR k /\ lon + 360 * IZR k - r < SMALL /\ (SMALL <= lon + 360 * IZR k - ref -> r = lon + 360 * IZR k).
  Proof.
    intros Hf Hl Hr H. assert (0 < SMALL < 1) by (unfold SMALL; lra). unfold lon_in_range.
    destruct (rlt_cases (Rabs (lon - ref)) SMALL) as [[-> A]|[-> A]].
    { apply Rabs_def2 in A. assert (k = 0%Z) as ->. { assert (-1 < IZR k < 1) as [B1 B2] by lra. apply (lt_IZR (-1)) in B1. apply (lt_IZR k 1) in B2. lia. } eexists; split; [reflexivity|]. lra. }
    destruct (rlt_cases (Rabs (lon - (ref + 360))) SMALL) as [[-> B]|[-> B]].
    { apply Rabs_def2 in B. assert (k = -1)%Z as ->. { assert (-2 < IZR k < 0) as [B1 B2] by lra. apply (lt_IZR (-2)) in B1. apply (lt_IZR k 0) in B2. lia. } eexists; split; [reflexivity|]. lra. }
    rewrite (lir_loop_eq fuel lon k ref); auto; [eexists; split; [reflexivity|]; lra|lra| |].
    - intros L. destruct (Rlt_dec ref (lon + 360 * IZR k)) as [|N]; auto. exfalso. assert (E : lon + 360 * IZR k = ref) by lra. assert (IZR k <= -1) by (apply (IZR_le k (-1)); lia).
      destruct (Z.eq_dec k (-1)) as [->|]. { assert (lon - (ref + 360) = 0) by lra. rewrite H2, Rabs_R0 in B. lra. } assert (IZR k <= -2) by (apply (IZR_le k (-2)); lia). lra.
    - intros; lra.
  Qed.

  (** The wanted longitude of a point. *)
  Definition lon_of (x y : R) : R := S + geo_lon LJ y (x - S).

  Lemma tp_point fuel x y ref : 0 <= x - S <= 360 -> LJ <= y <= 90 - SMALL -> Rabs S <= 360 * INR fuel -> S <= ref -> ref <= lon_of x y <= ref + 360 - SMALL ->
    (near x y /\ tp_trans (2 + fuel) x y ref S lam0 bpeq bpsp bpnp rp = Ok (ref, 90)) \/
    (~ near x y /\ exists r, tp_trans (2 + fuel) x y ref S lam0 bpeq bpsp bpnp rp = Ok (r, lat_of x y) /\ ref <= r <= lon_of x y /\ lon_of x y - r < SMALL /\ (SMALL <= lon_of x y - ref -> r = lon_of x y)).
  Proof.
    intros Hx Hy Hf Hr Hv. assert (0 < SMALL < 1) by (unfold SMALL; lra). unfold tp_trans. rewrite (rlt_f (Rabs (y - 90))). 2:{ rewrite Rabs_left1; lra. }
    destruct (near_dec x y Hx ltac:(lra)) as [[E N]|[E N]]; cbv zeta in E; rewrite E; [left|right]; (split; [assumption|]); [reflexivity|].
    destruct (lams_turn x y Hx ltac:(lra)) as (BL & k & Ek). cbv zeta in BL, Ek. set (lon := _ * R2D) in BL, Ek |- *. fold (lon_of x y) in Ek.
    destruct (lir_eq (2 + fuel) lon k ref) as (r & E1 & Q1 & Q2 & Q3); auto; try lra.
    - assert (K : Rabs (IZR k) < INR fuel + 2). { destruct (lon_range LJ HJ y (x - S) ltac:(lra) Hx) as (L1 & _ & _). unfold lon_of in Ek. revert Hf. unfold Rabs. destruct (Rcase_abs (IZR k)), (Rcase_abs S); lra. }
      rewrite <- abs_IZR in K. rewrite INR_IZR_INZ in K. replace 2 with (IZR 2) in K by reflexivity. rewrite <- plus_IZR in K. apply lt_IZR in K. lia.
    - rewrite E1. cbn [bind]. exists r. rewrite Ek. split; [|auto]. f_equal. f_equal. unfold lat_of, geo_lat. change rp with (rp_ LJ). rewrite (proj1 (cosine_range S LJ HJ x y Hx ltac:(lra))). reflexivity.
  Qed.

  Lemma tp_top fuel x ref : 0 <= x - S <= 360 ->
    tp_trans fuel x 90 ref S lam0 bpeq bpsp bpnp rp =
      (do lon <- (if rlt 0 (phi x * D2R) then lon_in_range fuel S ref else Ok (S + 180)) ; Ok (lon, lat_of x 90)).
  Proof.
    intros Hx. unfold tp_trans. rewrite (rlt_t (Rabs (90 - 90))). 2:{ replace (90 - 90) with 0 by lra. rewrite Rabs_R0. unfold SMALL. lra. }
    replace (lat_of x 90) with ((PI * (1 / 2) - 2 * atan (rp * tan (acos (cos (bp_lam x 90 bpeq rp * D2R) * cos (phi x * D2R)) / 2))) * R2D); [reflexivity|].
    unfold lat_of, geo_lat. change rp with (rp_ LJ). rewrite (proj1 (cosine_range S LJ HJ x 90 Hx ltac:(lra))). reflexivity.
  Qed.
End point.
