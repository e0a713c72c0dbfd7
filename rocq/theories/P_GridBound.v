(** * Proofs about compute_grid_bound *)
From Coq Require Import Lra Psatz.
From Verif Require Import Base Loops Vec M_Interp Spec_Interp P_Interp P_Interp2 P_Spline T_Interp M_GridBound.
Local Open Scope R_scope.

Lemma cube_strict u v : u < v -> u * u * u < v * v * v.
Proof.
  intros H. assert (0 < v * v + u * v + u * u).
  { assert (0 < (v - u) * (v - u)) by (apply Rmult_lt_0_compat; lra). pose proof (Rle_0_sqr (u + v)). unfold Rsqr in *. nra. }
  pose proof (Rmult_lt_0_compat (v - u) _ ltac:(lra) H0). lra.
Qed.
Lemma wsum w1 w2 w3 w4 X1 X2 X3 X4 : 0 <= w1 -> 0 <= w2 -> 0 <= w3 -> 0 <= w4 -> w1 + w2 + w3 + w4 = 1 -> 0 < X1 -> 0 < X2 -> 0 < X3 -> 0 < X4 ->
  0 < w1 * X1 + w2 * X2 + w3 * X3 + w4 * X4.
Proof.
  intros P1 P2 P3 P4 S Q1 Q2 Q3 Q4.
  assert (0 <= w1 * X1) by (apply Rmult_le_pos; lra). assert (0 <= w2 * X2) by (apply Rmult_le_pos; lra). assert (0 <= w3 * X3) by (apply Rmult_le_pos; lra). assert (0 <= w4 * X4) by (apply Rmult_le_pos; lra).
  destruct (Rle_lt_dec w1 0); [|pose proof (Rmult_lt_0_compat w1 X1); lra]. destruct (Rle_lt_dec w2 0); [|pose proof (Rmult_lt_0_compat w2 X2); lra].
  destruct (Rle_lt_dec w3 0); [|pose proof (Rmult_lt_0_compat w3 X3); lra]. pose proof (Rmult_lt_0_compat w4 X4). lra.
Qed.
Lemma hp_strict a b t1 t2 : 0 <= a <= 3 -> 0 <= b <= 3 -> 0 <= t1 -> t1 < t2 -> t2 <= 1 -> hp a b t1 < hp a b t2.
Proof.
  intros Ha Hb H0 H1 H2.
  assert (A1 : 0 < (3 * (t2 * t2) - 2 * (t2 * t2 * t2)) - (3 * (t1 * t1) - 2 * (t1 * t1 * t1))).
  { replace (_ - _) with ((t2 - t1) * (3 * (t1 + t2) - 2 * (t1 * t1 + t1 * t2 + t2 * t2))) by ring. apply Rmult_lt_0_compat; [lra|].
    assert (t1 * t1 <= t1) by nra. assert (t2 * t2 <= t2) by nra. assert (2 * (t1 * t2) < t1 + t2) by nra. lra. }
  assert (A2 : 0 < (1 - (1 - t2) * (1 - t2) * (1 - t2)) - (1 - (1 - t1) * (1 - t1) * (1 - t1))). { pose proof (cube_strict (1 - t2) (1 - t1) ltac:(lra)). lra. }
  assert (A3 : 0 < t2 * t2 * t2 - t1 * t1 * t1) by (pose proof (cube_strict t1 t2 H1); lra).
  assert (A4 : 0 < (1 + (2 * t2 - 1) * (2 * t2 - 1) * (2 * t2 - 1)) / 2 - (1 + (2 * t1 - 1) * (2 * t1 - 1) * (2 * t1 - 1)) / 2). { pose proof (cube_strict (2 * t1 - 1) (2 * t2 - 1) ltac:(lra)). lra. }
  assert (W : 0 <= a / 3 <= 1 /\ 0 <= b / 3 <= 1) by lra. destruct W as [Wa Wb].
  pose proof (wsum ((1 - a / 3) * (1 - b / 3)) ((a / 3) * (1 - b / 3)) ((1 - a / 3) * (b / 3)) ((a / 3) * (b / 3)) _ _ _ _ ltac:(apply Rmult_le_pos; lra) ltac:(apply Rmult_le_pos; lra) ltac:(apply Rmult_le_pos; lra) ltac:(apply Rmult_le_pos; lra) ltac:(ring) A1 A2 A3 A4) as P.
  rewrite !hp_split. lra.
Qed.

Lemma herm_strict n g y : (2 < n)%Z -> zlen g = n -> increasing g -> forall i z1 z2, (0 <= i < n - 1)%Z -> end_ok n y i -> at_ y i < at_ y (i + 1) -> at_ g i <= z1 -> z1 < z2 -> z2 <= at_ g (i + 1) ->
  herm n g y i z1 < herm n g y i z2.
Proof.
  intros Hn Lg Ig i z1 z2 Hi Hok Hy H1 H2 H3. destruct (herm_hp n g y Hn Lg Ig i Hi Hok) as (a & b & Ha & Hb & E). pose proof (hh_pos n g Lg Ig i Hi) as P. rewrite !E.
  assert (IP : 0 < / hh g i) by (now apply Rinv_0_lt_compat).
  assert (T : (z1 - at_ g i) / hh g i < (z2 - at_ g i) / hh g i) by (apply Rmult_lt_compat_r; lra).
  assert (T1 : 0 <= (z1 - at_ g i) / hh g i) by (apply Rmult_le_pos; lra).
  assert (T2 : (z2 - at_ g i) / hh g i <= 1). { apply Rmult_le_reg_r with (hh g i); auto. unfold Rdiv. rewrite Rmult_assoc, Rinv_l by lra. unfold hh. lra. }
  pose proof (hp_strict a b _ _ Ha Hb T1 T T2) as S. apply Rplus_lt_compat_l. apply Rmult_lt_compat_l; lra.
Qed.

(** Strictly increasing data give strictly increasing values that hit every node. *)
Lemma spline_strict n m g1 g2 y d2 : (2 <= n)%Z -> (0 <= m)%Z ->
  zlen g1 = n -> zlen y = n -> zlen g2 = m -> zlen d2 = m -> increasing g1 -> increasing y ->
  (forall k, (0 <= k < m)%Z -> at_ g1 0 <= at_ g2 k <= at_ g1 (n - 1)) ->
  exists out, cubic_spline_sp n m g1 g2 y d2 = Ok out /\ zlen out = m
    /\ (forall k i, (0 <= k < m)%Z -> (0 <= i < n)%Z -> at_ g2 k = at_ g1 i -> at_ out k = at_ y i)
    /\ (forall k k', (0 <= k < m)%Z -> (0 <= k' < m)%Z -> at_ g2 k < at_ g2 k' -> at_ out k < at_ out k').
Proof.
  intros Hn Hm L1 LD L2 LO I IY HB. destruct (C33_interpolates n m g1 g2 y d2) as (out & E & L & HI); auto. exists out. split; auto. split; auto. split; auto. intros k k' Hk Hk' HZ.
  destruct (Z.eq_dec n 2) as [-> |N].
  - destruct (two_nodes m g1 g2 y d2) as (out' & E' & _ & Ho); auto. rewrite E in E'. inversion E'; subst out'. rewrite !Ho by auto. unfold lin. change (0 + 1)%Z with 1%Z.
    pose proof (I 0%Z 1%Z ltac:(lia) ltac:(lia)). pose proof (IY 0%Z 1%Z ltac:(lia) ltac:(lia)). apply Rplus_lt_compat_l. apply Rmult_lt_compat_r; [lra|]. apply Rmult_lt_compat_r; [apply Rinv_0_lt_compat; lra|]. lra.
  - destruct (spline_run n g1 y ltac:(lia) L1 LD I m g2 d2) as (out' & E' & _ & Ho); auto. rewrite E in E'. inversion E'; subst out'.
    assert (NF : forall i, (0 <= i < n - 1)%Z -> at_ y i < at_ y (i + 1)) by (intros; apply IY; lia).
    assert (OK : forall i, (0 <= i < n - 1)%Z -> end_ok n y i).
    { intros i Hi. split; intros -> Q. - pose proof (NF 0%Z ltac:(lia)). cbn in H. lra. - pose proof (NF (n - 2)%Z ltac:(lia)). replace (n - 2 + 1)%Z with (n - 1)%Z in H by lia. lra. }
    destruct (Ho k Hk) as (i & Hi & Bi & ->). destruct (Ho k' Hk') as (i' & Hi' & Bi' & ->).
    destruct (Z.lt_trichotomy i i') as [Q|[-> |Q]].
    + assert (U : herm n g1 y i (at_ g2 k) <= at_ y (i + 1)).
      { rewrite <- (herm_right n g1 y L1 I i Hi). destruct (Rle_lt_or_eq_dec _ _ (proj2 Bi)) as [Z|Z]; [left; apply herm_strict; auto; try lra; lia|rewrite Z; lra]. }
      assert (U' : at_ y i' <= herm n g1 y i' (at_ g2 k')).
      { rewrite <- (herm_left n g1 y i' Hi') at 1. destruct (Rle_lt_or_eq_dec _ _ (proj1 Bi')) as [Z|Z]; [left; apply herm_strict; auto; try lra; lia|rewrite Z; lra]. }
      destruct (Z.eq_dec i' (i + 1)) as [-> |N'].
      * destruct (Rle_lt_or_eq_dec _ _ (proj2 Bi)) as [Z|Z].
        -- rewrite <- (herm_right n g1 y L1 I i Hi) in U'. eapply Rlt_le_trans; [|exact U']. apply herm_strict; auto; try lra; lia.
        -- eapply Rle_lt_trans; [exact U|]. rewrite <- (herm_left n g1 y (i + 1) Hi'). apply herm_strict; auto; try lra; lia.
      * pose proof (IY (i + 1)%Z i' ltac:(lia) ltac:(lia)). lra.
    + apply herm_strict; auto; try lra; lia.
    + pose proof (inc_nondec _ I (i' + 1)%Z i ltac:(lia) ltac:(lia)). lra.
Qed.
