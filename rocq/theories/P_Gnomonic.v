(** Proofs for M_Gnomonic: the numbers. *)
From Coq Require Import Reals ZArith List Bool Lia Lra Psatz.
From Verif Require Import Base Spec_Gnomonic M_Matrix P_Matrix.
Open Scope R_scope.

Lemma s3_pos : 0 < sqrt 3. Proof. apply sqrt_lt_R0. lra. Qed.
Lemma s3_sq : sqrt 3 * sqrt 3 = 3. Proof. apply sqrt_sqrt. lra. Qed.
Lemma s2_pos : 0 < sqrt 2. Proof. apply sqrt_lt_R0. lra. Qed.
Lemma s2_sq : sqrt 2 * sqrt 2 = 2. Proof. apply sqrt_sqrt. lra. Qed.
Definition q := 1 / sqrt 3.
Lemma q_pos : 0 < q. Proof. unfold q. pose proof s3_pos. apply Rdiv_lt_0_compat; lra. Qed.
Lemma q_sq : q * q = 1 / 3.
Proof. unfold q. pose proof s3_pos. replace (1 / sqrt 3 * (1 / sqrt 3)) with (1 / (sqrt 3 * sqrt 3)) by (field; lra). rewrite s3_sq. lra. Qed.
Lemma q_bounds : 1 / 2 < q < 1. Proof. pose proof q_sq. pose proof q_pos. split; nra. Qed.

Lemma sin_h : sin half_edge = q.
Proof. unfold half_edge. fold q. pose proof q_bounds. apply sin_asin. lra. Qed.
Lemma h_bounds : 0 < half_edge < PI / 4.
Proof.
  pose proof q_bounds as Hq. pose proof (asin_bound q) as B. unfold half_edge. fold q.
  pose proof PI_RGT_0 as HP. pose proof sin_h as S. unfold half_edge in S. fold q in S.
  split.
  - apply Rnot_le_lt. intros H. assert (sin (asin q) <= 0).
    { rewrite <- (Ropp_involutive (asin q)), sin_neg. assert (0 <= sin (- asin q)) by (apply sin_ge_0; lra). lra. } lra.
  - apply Rnot_le_lt. intros H. assert (sin (PI / 4) <= sin (asin q)) by (apply sin_incr_1; lra).
    rewrite sin_PI4 in H0. rewrite S in H0. pose proof q_sq. pose proof s2_sq. pose proof s2_pos.
    assert (1 / sqrt 2 * (1 / sqrt 2) = 1 / 2). { replace (1 / sqrt 2 * (1 / sqrt 2)) with (1 / (sqrt 2 * sqrt 2)) by (field; lra). rewrite s2_sq. lra. }
    assert (0 < 1 / sqrt 2) by (apply Rdiv_lt_0_compat; lra). nra.
Qed.
Lemma cos_h : cos half_edge = sqrt 2 * q.
Proof.
  pose proof h_bounds. pose proof PI_RGT_0. pose proof q_pos. pose proof q_sq. pose proof s2_pos. pose proof s2_sq.
  apply pos_root. apply cos_gt_0; lra. nra.
  pose proof (sin2_cos2 half_edge) as E. unfold Rsqr in E. rewrite sin_h in E. nra.
Qed.

(** The angle of point [k]. *)
Definition ang (n k : Z) : R := half_edge * (2 * IZR k / IZR n - 1).
Section ang.
  Context (n : Z) (Hn : (1 <= n)%Z).
  Let N := IZR n.
  Lemma N_pos : 1 <= N. Proof. unfold N. apply (IZR_le 1). lia. Qed.
  Lemma ang_0 : ang n 0 = - half_edge. Proof. unfold ang. pose proof N_pos. fold N. field. lra. Qed.
  Lemma ang_n : ang n n = half_edge. Proof. unfold ang. pose proof N_pos. fold N. field. lra. Qed.
  Lemma ang_opp k : ang n (n - k) = - ang n k.
  Proof. unfold ang. pose proof N_pos. rewrite minus_IZR. fold N. field. lra. Qed.
  Lemma ang_incr k k' : (k < k')%Z -> ang n k < ang n k'.
  Proof.
    intros H. apply IZR_lt in H. unfold ang. fold N. pose proof N_pos. pose proof h_bounds.
    apply Rmult_lt_compat_l; [lra|]. apply Rplus_lt_compat_r. unfold Rdiv. apply Rmult_lt_compat_r; [apply Rinv_0_lt_compat; lra|lra].
  Qed.
  Lemma ang_bounds k : (0 <= k <= n)%Z -> - half_edge <= ang n k <= half_edge.
  Proof.
    intros H. pose proof ang_0 as E0. pose proof ang_n as En. rewrite <- E0. assert (ang n 0 <= ang n k <= ang n n); [|lra]. split.
    - destruct (Z.eq_dec k 0) as [->|]; [lra|]. left. apply ang_incr. lia.
    - destruct (Z.eq_dec k n) as [->|]; [lra|]. left. apply ang_incr. lia.
  Qed.
  Lemma cos_ang k : (0 <= k <= n)%Z -> sqrt 2 * q <= cos (ang n k).
  Proof.
    intros H. pose proof (ang_bounds k H). pose proof h_bounds. pose proof PI_RGT_0. rewrite <- cos_h.
    destruct (Rle_dec 0 (ang n k)). - apply cos_decr_1; lra.
    - rewrite <- (cos_neg (ang n k)). apply cos_decr_1; lra.
  Qed.
  Lemma cos_ang_pos k : (0 <= k <= n)%Z -> 0 < cos (ang n k).
  Proof. intros H. pose proof (cos_ang k H). pose proof s2_pos. pose proof q_pos. nra. Qed.
  Lemma grad_eq k : grad n k = sqrt 2 * tan (ang n k). Proof. reflexivity. Qed.
  Lemma sin_ang k : (0 <= k <= n)%Z -> sqrt 2 * sin (ang n k) = grad n k * cos (ang n k).
  Proof. intros H. rewrite grad_eq. unfold tan. pose proof (cos_ang_pos k H). field. lra. Qed.
  Lemma grad_0 : grad n 0 = -1.
  Proof.
    rewrite grad_eq, ang_0. rewrite tan_neg. unfold tan. rewrite sin_h, cos_h. pose proof q_pos. pose proof s2_pos. field. lra.
  Qed.
  Lemma grad_opp k : grad n (n - k) = - grad n k.
  Proof. rewrite !grad_eq, ang_opp, tan_neg. ring. Qed.
  Lemma grad_n : grad n n = 1.
  Proof. replace n with (n - 0)%Z at 2 by lia. rewrite grad_opp, grad_0. ring. Qed.
  Lemma grad_incr k k' : (0 <= k)%Z -> (k < k')%Z -> (k' <= n)%Z -> grad n k < grad n k'.
  Proof.
    intros H0 H1 H2. rewrite !grad_eq. apply Rmult_lt_compat_l; [apply s2_pos|].
    pose proof h_bounds. pose proof PI_RGT_0. pose proof (ang_bounds k ltac:(lia)). pose proof (ang_bounds k' ltac:(lia)).
    apply tan_increasing; [lra|apply ang_incr; lia|lra].
  Qed.
  Lemma grad_bounds k : (0 <= k <= n)%Z -> -1 <= grad n k <= 1.
  Proof.
    intros H. pose proof grad_0 as E0. pose proof grad_n as En. assert (grad n 0 <= grad n k <= grad n n); [|lra]. split.
    - destruct (Z.eq_dec k 0) as [->|]; [lra|]. left. apply grad_incr; lia.
    - destruct (Z.eq_dec k n) as [->|]; [lra|]. left. apply grad_incr; lia.
  Qed.
  Lemma grad_mid k : (2 * k = n)%Z -> grad n k = 0.
  Proof. intros H. pose proof (grad_opp k). replace (n - k)%Z with k in H0 by lia. lra. Qed.

  Lemma sin_ge x : 0 <= x <= half_edge -> x * (1 / 2) <= sin x.
  Proof.
    intros H. destruct (Req_dec x 0) as [->|]; [rewrite sin_0; lra|].
    destruct (MVT_cor2 sin cos 0 x) as (c & E & Hc); [lra|intros; apply derivable_pt_lim_sin|].
    rewrite sin_0 in E. pose proof h_bounds. pose proof PI_RGT_0.
    assert (cos half_edge <= cos c) by (apply cos_decr_1; lra). rewrite cos_h in H3.
    pose proof q_sq. pose proof s2_sq. pose proof q_pos. pose proof s2_pos.
    assert (0 < sqrt 2 * q) by nra. assert ((sqrt 2 * q) * (sqrt 2 * q) = 2 / 3).
    { replace (sqrt 2 * q * (sqrt 2 * q)) with ((sqrt 2 * sqrt 2) * (q * q)) by ring. rewrite H5, H4. lra. }
    set (w := sqrt 2 * q) in *. clearbody w. assert (1 / 2 <= cos c) by nra.
    replace (sin x) with (cos c * x) by lra. rewrite (Rmult_comm x). apply Rmult_le_compat_r; lra.
  Qed.
  (** A point that is not in the middle is not too close to it. *)
  Lemma grad_gap k : (0 <= k <= n)%Z -> (2 * k <> n)%Z -> 1 / (8 * N) <= Rabs (grad n k).
  Proof.
    assert (W : forall k, (n < 2 * k)%Z -> (k <= n)%Z -> 1 / (8 * N) <= grad n k).
    { intros k0 H1 H2. rewrite grad_eq. pose proof (ang_bounds k0 ltac:(lia)) as B. pose proof N_pos.
      assert (A : 1 / (4 * N) <= ang n k0).
      { unfold ang. fold N. assert (1 <= 2 * IZR k0 - N). { unfold N. rewrite <- mult_IZR, <- minus_IZR. apply IZR_le. lia. }
        replace (2 * IZR k0 / N - 1) with ((2 * IZR k0 - N) / N) by (field; lra).
        assert (1 / 2 <= half_edge). { pose proof q_bounds. pose proof sin_h. pose proof h_bounds. pose proof (sin_lt_x half_edge). lra. }
        apply Rle_trans with (1 / 2 * (1 / N)). { replace (1 / 2 * (1 / N)) with (2 * (1 / (4 * N))) by (field; lra). assert (0 < 1 / (4 * N)) by (apply Rdiv_lt_0_compat; lra). lra. }
        apply Rmult_le_compat; try lra. { left. apply Rdiv_lt_0_compat; lra. } unfold Rdiv. apply Rmult_le_compat_r; [left; apply Rinv_0_lt_compat; lra|lra]. }
      assert (0 < 1 / (4 * N)) by (apply Rdiv_lt_0_compat; lra).
      pose proof (sin_ge (ang n k0) ltac:(lra)) as S. pose proof (cos_ang_pos k0 ltac:(lia)) as C. pose proof (COS_bound (ang n k0)).
      assert (T : sin (ang n k0) <= tan (ang n k0)). { unfold tan. apply Rmult_le_reg_r with (cos (ang n k0)); auto. unfold Rdiv. rewrite Rmult_assoc, Rinv_l by lra. nra. }
      pose proof s2_pos. pose proof s2_sq. assert (1 <= sqrt 2) by nra.
      replace (1 / (8 * N)) with (1 / (4 * N) * (1 / 2)) by (field; lra). nra. }
    intros H H2. destruct (Z_lt_dec n (2 * k)).
    - pose proof (W k l ltac:(lia)). pose proof (Rle_abs (grad n k)). lra.
    - pose proof (W (n - k)%Z ltac:(lia) ltac:(lia)) as E. rewrite grad_opp in E. pose proof (Rle_abs (- grad n k)). rewrite Rabs_Ropp in H0. lra.
  Qed.
End ang.
