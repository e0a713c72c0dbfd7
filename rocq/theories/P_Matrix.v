(** * Proofs for C55 and C56 *)
From Coq Require Import Reals Lra Lia.
From Verif Require Import Base Loops M_Interp M_Matrix Spec_Matrix P_Longitude.
Open Scope R_scope.

Ltac gets := lazy [oget zget Z.ltb Z.compare Z.to_nat Pos.to_nat Pos.iter_op Init.Nat.add nth_error Pos.compare Pos.compare_cont bind app ofold].

Lemma sqrt_half : sqrt (1 / 2) * sqrt (1 / 2) = 1 / 2.
Proof. apply sqrt_sqrt. lra. Qed.

Lemma invert_entries M : invert_matrix_3x3 (entries M) =
  if rlt (Rabs (volume M)) EPSLN15 then Ok None else
  Ok (Some (entries (fun i j => / volume M * match i, j with
    | 0%nat, 0%nat => M 1%nat 1%nat * M 2%nat 2%nat - M 1%nat 2%nat * M 2%nat 1%nat | 0%nat, 1%nat => M 0%nat 2%nat * M 2%nat 1%nat - M 0%nat 1%nat * M 2%nat 2%nat | 0%nat, _ => M 0%nat 1%nat * M 1%nat 2%nat - M 0%nat 2%nat * M 1%nat 1%nat
    | 1%nat, 0%nat => M 1%nat 2%nat * M 2%nat 0%nat - M 1%nat 0%nat * M 2%nat 2%nat | 1%nat, 1%nat => M 0%nat 0%nat * M 2%nat 2%nat - M 0%nat 2%nat * M 2%nat 0%nat | 1%nat, _ => M 0%nat 2%nat * M 1%nat 0%nat - M 0%nat 0%nat * M 1%nat 2%nat
    | _, 0%nat => M 1%nat 0%nat * M 2%nat 1%nat - M 1%nat 1%nat * M 2%nat 0%nat | _, 1%nat => M 0%nat 1%nat * M 2%nat 0%nat - M 0%nat 0%nat * M 2%nat 1%nat | _, _ => M 0%nat 0%nat * M 1%nat 1%nat - M 0%nat 1%nat * M 1%nat 0%nat end))).
Proof.
  unfold invert_matrix_3x3, entries. gets.
  replace (M 0%nat 0%nat * (M 1%nat 1%nat * M 2%nat 2%nat - M 1%nat 2%nat * M 2%nat 1%nat) - M 0%nat 1%nat * (M 1%nat 0%nat * M 2%nat 2%nat - M 1%nat 2%nat * M 2%nat 0%nat) + M 0%nat 2%nat * (M 1%nat 0%nat * M 2%nat 1%nat - M 1%nat 1%nat * M 2%nat 0%nat)) with (volume M) by (cbn; ring).
  destruct (rlt_cases (Rabs (volume M)) EPSLN15) as [[-> _]|[-> H]]; [reflexivity|].
  assert (volume M <> 0). { intros E. rewrite E, Rabs_R0 in H. unfold EPSLN15 in H. lra. }
  f_equal. f_equal. repeat match goal with |- _ :: _ = _ :: _ => apply f_equal2; [field; auto|] end. reflexivity.
Qed.

Lemma lt3 i : (i < 3)%nat -> i = 0%nat \/ i = 1%nat \/ i = 2%nat.
Proof. lia. Qed.

Lemma rotate_eq x y z : rotate_point [x; y; z] the_rotation_matrix =
  Ok (let s := sqrt (1 / 2) in [- s * y + s * z; s * x + 1 / 2 * y + 1 / 2 * z; - s * x + 1 / 2 * y + 1 / 2 * z]).
Proof.
  unfold rotate_point, the_rotation_matrix, ofor. change (zseq 0 3) with [0%Z; 1%Z; 2%Z]. cbv zeta.
  gets.
  f_equal. f_equal; [ring|]. f_equal; [ring|]. f_equal; ring.
Qed.

(** ** atan2 *)
Lemma cs_atan t : cos (atan t) * cos (atan t) + sin (atan t) * sin (atan t) = 1 /\ 0 < cos (atan t) /\ sin (atan t) = t * cos (atan t).
Proof.
  pose proof (atan_bound t) as B. assert (C : 0 < cos (atan t)) by (apply cos_gt_0; lra). split; [|split; auto].
  - pose proof (sin2_cos2 (atan t)) as E. unfold Rsqr in E. lra.
  - pose proof (tan_atan t) as E. unfold tan in E. rewrite <- E at 2. field. lra.
Qed.
Lemma pos_root a b : 0 < a -> 0 < b -> a * a = b * b -> a = b.
Proof. intros. nra. Qed.
Lemma atan2_spec x y : 0 < x * x + y * y -> let r := sqrt (x * x + y * y) in
  x = r * cos (atan2 y x) /\ y = r * sin (atan2 y x) /\ - PI < atan2 y x <= PI.
Proof.
  intros H r. assert (Hr : 0 < r) by (apply sqrt_lt_R0; auto). assert (Er : r * r = x * x + y * y) by (apply sqrt_sqrt; lra).
  pose proof PI_RGT_0 as HP. unfold atan2. destruct (rlt_cases 0 x) as [[-> H1]|[-> H1]].
  - destruct (cs_atan (y / x)) as (E & C & S). pose proof (atan_bound (y / x)) as B.
    assert (X : x = r * cos (atan (y / x))).
    { apply pos_root; auto; [apply Rmult_lt_0_compat; auto|]. rewrite S in E. set (c := cos (atan (y / x))) in *. assert (y = y / x * x) by (field; lra). set (t := y / x) in *.
      transitivity (r * r * (c * c)); [|ring]. rewrite Er, H0. transitivity (x * x * (c * c + t * c * (t * c))); [rewrite E; ring|ring]. }
    split; auto. split; [|lra]. rewrite S. transitivity (y / x * x); [field; lra|]. rewrite X at 2. ring.
  - destruct (rlt_cases x 0) as [[-> H2]|[-> H2]].
    + destruct (cs_atan (y / x)) as (E & C & S). pose proof (atan_bound (y / x)) as B.
      assert (X : - x = r * cos (atan (y / x))).
      { apply pos_root; [lra|apply Rmult_lt_0_compat; auto|]. rewrite S in E. set (c := cos (atan (y / x))) in *. assert (y = y / x * x) by (field; lra). set (t := y / x) in *.
        transitivity (r * r * (c * c)); [|ring]. rewrite Er, H0. transitivity (x * x * (c * c + t * c * (t * c))); [rewrite E; ring|ring]. }
      assert (Y : - y = r * sin (atan (y / x))). { rewrite S. transitivity (y / x * - x); [field; lra|]. rewrite X. ring. }
      destruct (rlt_cases y 0) as [[-> H3]|[-> H3]].
      * assert (0 < y / x). { unfold Rdiv. assert (/ x < 0) by (apply Rinv_lt_0_compat; auto). nra. }
        assert (0 < atan (y / x)) by (rewrite <- atan_0; apply atan_increasing; auto).
        replace (atan (y / x) - PI) with (- (PI - atan (y / x))) by ring. rewrite cos_neg, sin_neg, cos_minus, sin_minus, cos_PI, sin_PI. repeat split; lra.
      * assert (y / x <= 0). { unfold Rdiv. assert (/ x < 0) by (apply Rinv_lt_0_compat; auto). nra. }
        assert (atan (y / x) <= 0). { destruct (Req_dec (y / x) 0) as [->|]; [rewrite atan_0; lra|]. left. rewrite <- atan_0. apply atan_increasing. lra. }
        rewrite neg_cos, neg_sin. repeat split; lra.
    + assert (x = 0) by lra. subst x. destruct (rlt_cases 0 y) as [[-> H3]|[-> H3]].
      * rewrite cos_PI2, sin_PI2. assert (r = y) by (apply pos_root; auto; lra). repeat split; lra.
      * destruct (rlt_cases y 0) as [[-> H4]|[-> H4]]; [|nra].
        rewrite cos_neg, sin_neg, cos_PI2, sin_PI2. assert (r = - y) by (apply pos_root; auto; lra). repeat split; lra.
Qed.
Lemma angle_unique a b : 0 <= a < 2 * PI -> 0 <= b < 2 * PI -> cos a = cos b -> sin a = sin b -> a = b.
Proof.
  assert (W : forall a b, 0 <= a < 2 * PI -> 0 <= b < 2 * PI -> a < b -> cos a = cos b -> sin a = sin b -> False).
  { clear a b. intros a b Ha Hb L C S. assert (E : cos (b - a) = 1). { rewrite cos_minus, C, S. pose proof (sin2_cos2 b) as E. unfold Rsqr in E. lra. }
    replace (b - a) with (2 * ((b - a) / 2)) in E by field. rewrite cos_2a_sin in E. assert (0 < sin ((b - a) / 2)) by (apply sin_gt_0; lra). nra. }
  intros Ha Hb C S. destruct (Rtotal_order a b) as [L|[->|L]]; auto; exfalso; [exact (W a b Ha Hb L C S)|exact (W b a Hb Ha L (eq_sym C) (eq_sym S))].
Qed.
Lemma wrap_cs l : cos (if rlt l 0 then 2 * PI + l else l) = cos l /\ sin (if rlt l 0 then 2 * PI + l else l) = sin l.
Proof. destruct (rlt l 0); auto. rewrite (Rplus_comm (2 * PI)), cos_plus, sin_plus, cos_2PI, sin_2PI. split; ring. Qed.

(** ** xyz2latlon *)
Lemma dot_pos x y z : 0 < x * x + y * y + z * z <-> (x, y, z) <> (0, 0, 0).
Proof.
  split; intros H. - intros E. injection E as -> -> ->. lra.
  - destruct (Req_dec x 0) as [->|]; [|nra]. destruct (Req_dec y 0) as [->|]; [|nra]. destruct (Req_dec z 0) as [->|]; [congruence|nra].
Qed.
Lemma xyz_spec x y z : 0 < x * x + y * y + z * z -> exists lon lat, xyz2latlon [x; y; z] = Ok (lon, lat) /\ 0 <= lon < 2 * PI /\ - (PI / 2) <= lat <= PI / 2 /\
  let r := sqrt (x * x + y * y + z * z) in z = r * sin lat /\
  (EPSLN10 * r <= Rabs x + Rabs y -> x = r * (cos lat * cos lon) /\ y = r * (cos lat * sin lon)) /\
  (Rabs x + Rabs y < EPSLN10 * r -> lon = 0).
Proof.
  intros H. set (r := sqrt (x * x + y * y + z * z)). assert (Hr : 0 < r) by (apply sqrt_lt_R0; auto). assert (Er : r * r = x * x + y * y + z * z) by (apply sqrt_sqrt; lra).
  unfold xyz2latlon. gets. fold r. rewrite rlt_t by auto. cbn [negb].
  set (u := x / r). set (v := y / r). set (w := z / r). assert (Ex : x = r * u) by (unfold u; field; lra). assert (Ey : y = r * v) by (unfold v; field; lra). assert (Ez : z = r * w) by (unfold w; field; lra).
  assert (E1 : u * u + v * v + w * w = 1). { apply Rmult_eq_reg_l with (r * r); [|nra]. rewrite Er at 2. rewrite Ex, Ey, Ez. ring. }
  assert (Hw : -1 <= w <= 1) by nra. pose proof (sin_asin w Hw) as Sw. pose proof (cos_asin w Hw) as Cw. pose proof (asin_bound w) as Bw. pose proof PI_RGT_0 as HP.
  assert (AB : Rabs x + Rabs y = r * (Rabs u + Rabs v)). { rewrite Ex, Ey, !Rabs_mult, (Rabs_right r) by lra. ring. }
  eexists _, _. split; [reflexivity|]. cbv zeta. rewrite Sw.
  destruct (rlt_cases (Rabs u + Rabs v) EPSLN10) as [[-> Hs]|[-> Hs]].
  - rewrite rlt_f by lra. repeat split; try lra; intros; exfalso; nra.
  - destruct (wrap_cs (atan2 v u)) as [-> ->]. assert (0 < u * u + v * v).
    { destruct (Req_dec u 0) as [->|]; [|nra]. destruct (Req_dec v 0) as [->|]; [|nra]. rewrite Rabs_R0 in Hs. unfold EPSLN10 in Hs. lra. }
    destruct (atan2_spec u v) as (A1 & A2 & A3); auto. replace (sqrt (u * u + v * v)) with (cos (asin w)) in A1, A2 by (rewrite Cw; f_equal; unfold Rsqr; lra).
    split. { destruct (rlt_cases (atan2 v u) 0) as [[-> ?]|[-> ?]]; lra. }
    split; [lra|]. split; auto. split. { intros _. split; [rewrite <- A1; auto|rewrite <- A2; auto]. } intros; exfalso; nra.
Qed.
