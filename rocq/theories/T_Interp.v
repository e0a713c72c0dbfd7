(** * Properties C30 - C33: remapping and interpolation *)
From Coq Require Import Lra Psatz.
From Verif Require Import Base Loops Vec M_Interp Spec_Interp P_Interp P_Interp2 P_Spline.
Local Open Scope R_scope.

Lemma at_0 a l : at_ (a :: l) 0 = a. Proof. reflexivity. Qed.
Lemma at_1 a b l : at_ (a :: b :: l) 1 = b. Proof. reflexivity. Qed.
Lemma at_2 a b c l : at_ (a :: b :: c :: l) 2 = c. Proof. reflexivity. Qed.
Ltac ats := repeat (match goal with H : context [at_ _ _] |- _ => progress (rewrite ?at_0, ?at_1, ?at_2 in H) | _ => progress (rewrite ?at_0, ?at_1, ?at_2) end).

(** ** C30 *)
(** Remapping through any exchange grid with indices inside the two grids and positive areas:
    the integral over the covered area is the source integral over the exchange cells; a covered
    cell stays between any bounds of the source values that contribute to it (so a constant gives
    that constant); an uncovered cell is 0.  [data_dst] is the caller's array, whatever it holds. *)
Theorem C30_conserve_interp : forall nxs nys nxd nyd xg src dst,
  (0 <= nxs)%Z -> (0 <= nys)%Z -> (0 <= nxd)%Z -> (0 <= nyd)%Z ->
  wf_xgrid nxs nys nxd nyd xg -> zlen src = (nxs * nys)%Z -> zlen dst = (nxd * nyd)%Z ->
  exists out, conserve_interp nxs nys nxd nyd xg src dst = Ok out /\ zlen out = (nxd * nyd)%Z
    /\ rsum (fun n => at_ out n * covered_area nxd xg n) (zseq 0 (nxd * nyd)) = rsum (fun c => at_ src (source nxs c) * x_area c) xg
    /\ (forall n lo hi, (0 <= n < nxd * nyd)%Z -> covering nxd xg n <> [] ->
          (forall c, In c (covering nxd xg n) -> lo <= at_ src (source nxs c) <= hi) -> lo <= at_ out n <= hi)
    /\ (forall n, (0 <= n < nxd * nyd)%Z -> covering nxd xg n = [] -> at_ out n = 0).
Proof.
  intros nxs nys nxd nyd xg src dst H1 H2 H3 HH WF LS LD.
  destruct (conserve_run nxs nys nxd nyd xg src dst) as (out & E & LO & HO); auto. exists out. split; auto. split; auto.
  assert (PA : forall n, covering nxd xg n <> [] -> 0 < covered_area nxd xg n).
  { intros n Hn. apply rsum_pos; auto. intros c Hc. apply filter_In in Hc. apply (WF c). tauto. }
  split; [|split].
  - rewrite <- (rsum_group (target nxd) (fun c => at_ src (source nxs c) * x_area c) xg (nxd * nyd)); [|nia|].
    + apply rsum_ext. intros n Hn. apply In_zseq in Hn. rewrite HO by lia. destruct (covering nxd xg n) as [|c0 l0] eqn:EC.
      * unfold covering in EC. rewrite EC. rewrite !rsum_nil. ring.
      * assert (P : 0 < covered_area nxd xg n) by (apply PA; congruence). rewrite <- EC. unfold covering. rewrite Rmult_comm, <- rsum_scal. apply rsum_ext. intros c _. field. lra.
    + intros c Hc. destruct (WF c Hc) as ((_ & _ & ? & ?) & _). unfold target. nia.
  - intros n lo hi Hn HC HB. rewrite HO by lia. pose proof (PA n HC) as P.
    assert (W : forall c, In c (covering nxd xg n) -> 0 <= x_area c / covered_area nxd xg n). { intros c Hc. apply filter_In in Hc. left. apply Rdiv_lt_0_compat; auto. apply (WF c). tauto. }
    assert (T : rsum (fun c => x_area c / covered_area nxd xg n) (covering nxd xg n) = 1).
    { rewrite (rsum_ext _ (fun c => / covered_area nxd xg n * x_area c)) by (intros; unfold Rdiv; ring). rewrite rsum_scal. fold (covered_area nxd xg n). field. lra. }
    split.
    + replace lo with (rsum (fun c => lo * (x_area c / covered_area nxd xg n)) (covering nxd xg n)) by (rewrite rsum_scal, T; ring). apply rsum_le. intros c Hc. apply Rmult_le_compat_r; auto. now apply HB.
    + replace hi with (rsum (fun c => hi * (x_area c / covered_area nxd xg n)) (covering nxd xg n)) by (rewrite rsum_scal, T; ring). apply rsum_le. intros c Hc. apply Rmult_le_compat_r; auto. now apply HB.
  - intros n Hn HC. rewrite HO by lia. now rewrite HC.
Qed.

(** A concrete case: two source cells, two target cells, three exchange cells. *)
Example C30_example : wf_xgrid 2 1 2 1 [MkX 0 0 0 0 1; MkX 1 0 0 0 3; MkX 1 0 1 0 2] /\ covering 2 [MkX 0 0 0 0 1; MkX 1 0 0 0 3; MkX 1 0 1 0 2] 0 <> [] /\ zlen [10; 20] = (2 * 1)%Z.
Proof. repeat split; try (cbn in *; intuition; subst; cbn; (lia || lra)). discriminate. Qed.

(** ** C31 *)
(** A non-decreasing array of at least two elements: the index is in range, no element is closer,
    and of two different values at the same distance the larger one is taken.  Any other array is
    refused. *)
Theorem C31_nearest_index : forall value array ia, zlen array = ia -> (2 <= ia)%Z ->
  (nondecreasing array -> exists k, nearest_index value array ia = Ok k /\ (0 <= k < ia)%Z
     /\ (forall j, (0 <= j < ia)%Z -> Rabs (at_ array k - value) <= Rabs (at_ array j - value))
     /\ (forall j, (0 <= j < ia)%Z -> Rabs (at_ array j - value) = Rabs (at_ array k - value) -> at_ array j <= at_ array k))
  /\ (~ nondecreasing array -> nearest_index value array ia = Err 1).
Proof.
  intros v g ia L H. split; [|intros N; apply nearest_index_refuses; auto; lia]. intros S.
  assert (MON : forall i j, (0 <= i <= j)%Z -> (j < ia)%Z -> at_ g i <= at_ g j) by (intros; apply S; lia).
  assert (AB : forall x, (0 <= x -> Rabs x = x) /\ (x <= 0 -> Rabs x = - x)). { intros x. split; intros. - apply Rabs_right. lra. - apply Rabs_left1. lra. }
  destruct (nearest_index_cases v g ia L H S) as [(C & E)|[(C & E)|(k & Hk & Hb & Hs & E)]].
  - exists 0%Z. split; auto. split; [lia|]. rewrite (proj1 (AB (at_ g 0 - v))) by lra. split; intros j Hj; pose proof (MON 0%Z j ltac:(lia) ltac:(lia)); rewrite (proj1 (AB (at_ g j - v))) by lra; lra.
  - exists (ia - 1)%Z. split; auto. split; [lia|]. rewrite (proj2 (AB (at_ g (ia - 1) - v))) by lra. split; intros j Hj; pose proof (MON j (ia - 1)%Z ltac:(lia) ltac:(lia)); rewrite (proj2 (AB (at_ g j - v))) by lra; lra.
  - rewrite E. destruct (rlt_spec (v - at_ g (k - 1)) (at_ g k - v)) as [D|D].
    + exists (k - 1)%Z. split; auto. split; [lia|]. rewrite (proj2 (AB (at_ g (k - 1) - v))) by lra.
      assert (G : forall j, (0 <= j < ia)%Z -> (j <= k - 1)%Z /\ at_ g j <= at_ g (k - 1) /\ Rabs (at_ g j - v) = v - at_ g j \/ at_ g k <= at_ g j /\ Rabs (at_ g j - v) = at_ g j - v).
      { intros j Hj. destruct (Z_le_gt_dec j (k - 1)).
        - left. pose proof (MON j (k - 1)%Z ltac:(lia) ltac:(lia)). rewrite (proj2 (AB (at_ g j - v))) by lra. repeat split; auto; lra.
        - right. pose proof (MON k j ltac:(lia) ltac:(lia)). rewrite (proj1 (AB (at_ g j - v))) by lra. split; auto. }
      split; intros j Hj; destruct (G j Hj) as [(? & ? & ->)|(? & ->)]; lra.
    + exists k. split; auto. split; [lia|]. rewrite (proj1 (AB (at_ g k - v))) by lra.
      assert (G : forall j, (0 <= j < ia)%Z -> (at_ g j <= at_ g (k - 1) /\ Rabs (at_ g j - v) = v - at_ g j) \/ at_ g k <= at_ g j /\ Rabs (at_ g j - v) = at_ g j - v).
      { intros j Hj. destruct (Z_le_gt_dec j (k - 1)).
        - left. pose proof (MON j (k - 1)%Z ltac:(lia) ltac:(lia)). rewrite (proj2 (AB (at_ g j - v))) by lra. repeat split; auto; lra.
        - right. pose proof (MON k j ltac:(lia) ltac:(lia)). rewrite (proj1 (AB (at_ g j - v))) by lra. split; auto. }
      split; intros j Hj; destruct (G j Hj) as [(? & ->)|(? & ->)]; lra.
Qed.

(** Ties go to the larger index when the elements are distinct. *)
Theorem C31_ties : forall value array ia k, zlen array = ia -> (2 <= ia)%Z -> increasing array ->
  nearest_index value array ia = Ok k ->
  forall j, (0 <= j < ia)%Z -> Rabs (at_ array j - value) = Rabs (at_ array k - value) -> (j <= k)%Z.
Proof.
  intros v g ia k L H I E j Hj EQ. destruct (proj1 (C31_nearest_index v g ia L H) (inc_nondec _ I)) as (k' & E' & R & _ & T).
  rewrite E in E'. inversion E'; subst k'. specialize (T j Hj EQ). destruct (Z_le_gt_dec j k); auto. pose proof (I k j ltac:(lia) ltac:(lia)). lra.
Qed.

Example C31_example : increasing [1; 2; 4] /\ nearest_index 3 [1; 2; 4] 3 = Ok 2%Z.
Proof.
  assert (I : increasing [1; 2; 4]).
  { apply steps_inc. intros i Hi. change (zlen [1; 2; 4]) with 3%Z in Hi. assert (i = 1 \/ i = 2)%Z as [-> | ->] by lia; change (1 - 1)%Z with 0%Z; change (2 - 1)%Z with 1%Z; change (3 - 1)%Z with 2%Z; ats; lra. }
  split; auto. destruct (nearest_index_cases 3 [1; 2; 4] 3 eq_refl ltac:(lia) (inc_nondec _ I)) as [(C & _)|[(C & _)|(k & Hk & Hb & Hs & ->)]].
  - change (3 - 1)%Z with 2%Z in C; ats; lra.
  - change (3 - 1)%Z with 2%Z in C; ats; lra.
  - assert (k = 1 \/ k = 2)%Z as [-> | ->] by lia; change (1 - 1)%Z with 0%Z in *; change (2 - 1)%Z with 1%Z in *; ats; [lra|]. destruct (rlt_spec (3 - 2) (4 - 3)); auto. lra.
Qed.

(** With one element equal to the value, element 1 of the array is read: undefined behaviour. *)
Theorem C31_single_refuted : exists value array, zlen array = 1%Z /\ nearest_index value array 1 = UB.
Proof.
  exists 5, [5]. split; auto. unfold nearest_index. cbn [Z.sub]. rewrite ofor_0 by lia. cbn [bind]. change (oget [5] 0) with (Ok 5). cbn [bind].
  destruct (rlt_spec 5 5); [lra|]. change (1 - 1)%Z with 0%Z. change (oget [5] 0) with (Ok 5). cbn [bind]. destruct (rlt_spec 5 5); [lra|]. reflexivity.
Qed.

(** ** C32 *)
Theorem C32_linear_vertical : forall nx ny nk1 nk2 grid1 grid2 data1 data2,
  (0 <= nx)%Z -> (0 <= ny)%Z -> (2 <= nk1)%Z -> (1 <= nk2)%Z ->
  zlen grid1 = nk1 -> zlen grid2 = nk2 -> zlen data1 = (nk1 * (nx * ny))%Z -> zlen data2 = (nk2 * (nx * ny))%Z ->
  increasing grid1 -> increasing grid2 -> at_ grid1 0 <= at_ grid2 0 -> at_ grid2 (nk2 - 1) <= at_ grid1 (nk1 - 1) ->
  exists out, linear_vertical_interp nx ny nk1 nk2 grid1 grid2 data1 data2 = Ok out /\ zlen out = (nk2 * (nx * ny))%Z
    /\ forall k l, (0 <= k < nk2)%Z -> (0 <= l < nx * ny)%Z ->
       let value := at_ out (k * (nx * ny) + l) in
       let column m := at_ data1 (m * (nx * ny) + l) in
       let z := at_ grid2 k in
       (* coincident levels *)
       (forall m, (0 <= m < nk1)%Z -> at_ grid1 m = z -> value = column m)
       (* no new extrema *)
       /\ (forall m, (0 <= m < nk1 - 1)%Z -> at_ grid1 m <= z <= at_ grid1 (m + 1) -> betw (column m) (column (m + 1)%Z) value)
       (* linear in each interval *)
       /\ (forall m a b, (0 <= m < nk1 - 1)%Z -> at_ grid1 m <= z <= at_ grid1 (m + 1) ->
             column m = a + b * at_ grid1 m -> column (m + 1)%Z = a + b * at_ grid1 (m + 1) -> value = a + b * z).
Proof.
  intros nx ny nk1 nk2 g1 g2 d1 d2 Hx Hy H1 H2 L1 L2 LD1 LD2 I1 I2 B0 Bl.
  destruct (linear_vertical_run nx ny nk1 nk2 g1 g2 d1 d2) as (out & E & LO & HO); auto. exists out. split; auto. split; auto. intros k l Hk Hl. cbn zeta.
  destruct (HO k Hk) as (m & Hm & Bm & Hv). rewrite Hv by auto. set (c := fun m => at_ d1 (m * (nx * ny) + l)). change (at_ d1 ((m + 1) * (nx * ny) + l)) with (c (m + 1)%Z).
  assert (P : forall i, (0 <= i < nk1 - 1)%Z -> at_ g1 i < at_ g1 (i + 1)) by (intros; apply I1; lia). set (z := at_ g2 k) in *.
  assert (LL : at_ g1 m = z -> lin g1 c z m = c m). { intros <-. unfold lin. pose proof (P m Hm). field. lra. }
  assert (LR : at_ g1 (m + 1) = z -> lin g1 c z m = c (m + 1)%Z). { intros <-. unfold lin. pose proof (P m Hm). field. lra. }
  assert (CO : forall i, (0 <= i < nk1)%Z -> at_ g1 i = z -> lin g1 c z m = c i).
  { intros i Hi Ei. destruct (Z.lt_trichotomy i m) as [Q|[-> |Q]].
    - pose proof (I1 i m ltac:(lia) ltac:(lia)). lra.
    - auto.
    - destruct (Z.eq_dec i (m + 1)) as [-> |N]; auto. pose proof (I1 (m + 1)%Z i ltac:(lia) ltac:(lia)). lra. }
  assert (IN : betw (c m) (c (m + 1)%Z) (lin g1 c z m)).
  { unfold lin. pose proof (P m Hm) as Pm. set (t := (z - at_ g1 m) / (at_ g1 (m + 1) - at_ g1 m)). assert (T : 0 <= t <= 1).
    { split; [apply Rmult_le_pos; [lra|left; apply Rinv_0_lt_compat; lra]|]. apply Rmult_le_reg_r with (at_ g1 (m + 1) - at_ g1 m); [lra|]. unfold t, Rdiv. rewrite Rmult_assoc, Rinv_l by lra. lra. }
    unfold betw. clearbody t. generalize (c m) (c (m + 1)%Z). intros p q. destruct (Rle_lt_dec p q); [left|right]; nra. }
  split; [exact CO|]. split.
  - intros i Hi Bi. change (betw (c i) (c (i + 1)%Z) (lin g1 c z m)). destruct (same_interval g1 m i z) as [-> |[(-> & Q)|(-> & Q)]]; auto; try lia.
    + rewrite LR by auto. unfold betw. lra.
    + rewrite LL by auto. unfold betw. lra.
  - intros i a b Hi Bi. change (c i = a + b * at_ g1 i -> c (i + 1)%Z = a + b * at_ g1 (i + 1) -> lin g1 c z m = a + b * z). intros E1 E2.
    destruct (same_interval g1 m i z) as [-> |[(-> & Q)|(-> & Q)]]; auto; try lia.
    + unfold lin. rewrite E1, E2. pose proof (P m Hm). field. lra.
    + rewrite LR by auto. now rewrite E1, Q.
    + rewrite LL by auto. now rewrite E2, Q.
Qed.

(** Levels outside the source range, or levels that do not increase, are refused. *)
Theorem C32_refused : forall nx ny nk1 nk2 grid1 grid2 data1 data2, (1 <= nk1)%Z -> (1 <= nk2)%Z -> zlen grid1 = nk1 -> zlen grid2 = nk2 ->
  ~ increasing grid1 \/ ~ increasing grid2 \/ (exists k, (0 <= k < nk2)%Z /\ (at_ grid2 k < at_ grid1 0 \/ at_ grid1 (nk1 - 1) < at_ grid2 k)) ->
  exists e, linear_vertical_interp nx ny nk1 nk2 grid1 grid2 data1 data2 = Err e.
Proof.
  intros nx ny nk1 nk2 g1 g2 d1 d2 H1 H2 L1 L2 HB. unfold linear_vertical_interp.
  destruct (check_increasing_spec g1 nk1) as [(-> & I1)|(-> & _)]; try lia; cbn [bind]; [|eauto].
  destruct (check_increasing_spec g2 nk2) as [(-> & I2)|(-> & _)]; try lia; cbn [bind]; [|eauto].
  rewrite !get_at by lia. cbn [bind]. destruct (rlt_spec (at_ g2 0) (at_ g1 0)) as [C|C]; [eauto|]. destruct (rlt_spec (at_ g1 (nk1 - 1)) (at_ g2 (nk2 - 1))) as [D|D]; [eauto|].
  exfalso. destruct HB as [N|[N|(k & Hk & [Q|Q])]]; try contradiction.
  - pose proof (inc_nondec _ I2 0%Z k ltac:(lia) ltac:(lia)). lra.
  - pose proof (inc_nondec _ I2 k (nk2 - 1)%Z ltac:(lia) ltac:(lia)). lra.
Qed.

Lemma inc3 a b c : a < b -> b < c -> increasing [a; b; c].
Proof. intros H1 H2. apply steps_inc. intros i Hi. change (zlen [a; b; c]) with 3%Z in Hi. assert (i = 1 \/ i = 2)%Z as [-> | ->] by lia; change (1 - 1)%Z with 0%Z; change (2 - 1)%Z with 1%Z; change (3 - 1)%Z with 2%Z; ats; lra. Qed.
Example C32_example : increasing [1; 2; 4] /\ increasing [1; 3; 7 / 2] /\ at_ [1; 2; 4] 0 <= at_ [1; 3; 7 / 2] 0 /\ at_ [1; 3; 7 / 2] 2 <= at_ [1; 2; 4] 2.
Proof. repeat split; try (apply inc3; lra); change (1 - 1)%Z with 0%Z; change (2 - 1)%Z with 1%Z; change (3 - 1)%Z with 2%Z; ats; lra. Qed.

(** ** C33 *)
(** With two nodes the result is linear interpolation. *)
Lemma two_nodes m grid1 grid2 data1 data2 : (0 <= m)%Z ->
  zlen grid1 = 2%Z -> zlen data1 = 2%Z -> zlen grid2 = m -> zlen data2 = m -> increasing grid1 ->
  (forall k, (0 <= k < m)%Z -> at_ grid1 0 <= at_ grid2 k <= at_ grid1 1) ->
  exists out, cubic_spline_sp 2 m grid1 grid2 data1 data2 = Ok out /\ zlen out = m
    /\ forall k, (0 <= k < m)%Z -> at_ out k = lin grid1 (at_ data1) (at_ grid2 k) 0.
Proof.
  intros Hm L1 LD L2 LO I HB. unfold cubic_spline_sp. destruct (check_increasing_spec grid1 2) as [(-> & _)|(_ & C)]; try lia; [|contradiction]. cbn [bind].
  destruct (check_loop (fun k => at_ grid2 k < at_ grid1 0 \/ at_ grid1 1 < at_ grid2 k) (fun k => rlt (at_ grid2 k) (at_ grid1 0) || rlt (at_ grid1 1) (at_ grid2 k)) 2%Z 0 m
    (fun _ i => do z <- oget grid2 i ; do a <- oget grid1 0 ; if rlt z a then Err 2 else do b <- oget grid1 (2 - 1) ; if rlt b z then Err 2 else Ok tt)) as [(E & H)|(E & i & Hi & H)]; auto.
  - intros i Hi. rewrite !get_at by lia. cbn [bind]. change (2 - 1)%Z with 1%Z. destruct (rlt_spec (at_ grid2 i) (at_ grid1 0)); cbn [orb]; auto.
  - intros i Hi. destruct (rlt_spec (at_ grid2 i) (at_ grid1 0)); cbn [orb]; [constructor; auto|]. destruct (rlt_spec (at_ grid1 1) (at_ grid2 i)); constructor; [now right|]. intros [|]; contradiction.
  - unfold check_inside. rewrite E. cbn [bind Z.ltb Z.eqb Z.compare Pos.compare Pos.compare_cont Pos.eqb]. unfold interp_two. rewrite !get_at by lia. cbn [bind].
    match goal with |- context [ofor 0 m ?f data2] => destruct (ofor_fill f m 0 m (at_ data2) (fun k => lin grid1 (at_ data1) (at_ grid2 k) 0) data2) as (out & Eo & Vo) end; try lia.
    { now apply vec_self. }
    { intros i g F Hi _ _ _. rewrite get_at by lia. cbn [bind]. f_equal. unfold lin. change (0 + 1)%Z with 1%Z. pose proof (I 0%Z 1%Z ltac:(lia) ltac:(lia)). field. lra. }
    exists out. split; auto. split; [apply Vo|]. intros k Hk. rewrite (vec_at_ _ _ _ _ Vo) by auto. cbv beta. destruct (Z.leb_spec 0 k), (Z.ltb_spec k (0 + m)); cbn; auto; lia.
  - specialize (HB i ltac:(lia)). lra.
Qed.

Lemma inc_eq g i j : increasing g -> (0 <= i < zlen g)%Z -> (0 <= j < zlen g)%Z -> at_ g i = at_ g j -> i = j.
Proof. intros I Hi Hj E. destruct (Z.lt_trichotomy i j) as [Q|[Q|Q]]; auto. - pose proof (I i j ltac:(lia) ltac:(lia)). lra. - pose proof (I j i ltac:(lia) ltac:(lia)). lra. Qed.

(** The spline passes through every node. *)
Theorem C33_interpolates : forall n m grid1 grid2 data1 data2, (2 <= n)%Z -> (0 <= m)%Z ->
  zlen grid1 = n -> zlen data1 = n -> zlen grid2 = m -> zlen data2 = m -> increasing grid1 ->
  (forall k, (0 <= k < m)%Z -> at_ grid1 0 <= at_ grid2 k <= at_ grid1 (n - 1)) ->
  exists out, cubic_spline_sp n m grid1 grid2 data1 data2 = Ok out /\ zlen out = m
    /\ forall k i, (0 <= k < m)%Z -> (0 <= i < n)%Z -> at_ grid2 k = at_ grid1 i -> at_ out k = at_ data1 i.
Proof.
  intros n m g1 g2 y d2 Hn Hm L1 LD L2 LO I HB. destruct (Z.eq_dec n 2) as [-> |N].
  - destruct (two_nodes m g1 g2 y d2) as (out & E & L & Ho); auto. exists out. split; auto. split; auto. intros k i Hk Hi Q. rewrite Ho by auto. unfold lin. pose proof (I 0%Z 1%Z ltac:(lia) ltac:(lia)).
    change (0 + 1)%Z with 1%Z. rewrite Q. assert (i = 0 \/ i = 1)%Z as [-> | ->] by lia; field; lra.
  - destruct (spline_run n g1 y ltac:(lia) L1 LD I m g2 d2) as (out & E & L & Ho); auto. exists out. split; auto. split; auto. intros k i Hk Hi Q. destruct (Ho k Hk) as (j & Hj & Bj & ->).
    assert (i = j \/ i = j + 1)%Z as [-> | ->].
    { rewrite Q in Bj. destruct (Z.lt_trichotomy i j) as [Z|[Z|Z]]; auto. - pose proof (I i j ltac:(lia) ltac:(lia)). lra. - right. destruct (Z.eq_dec i (j + 1)); auto. pose proof (I (j + 1)%Z i ltac:(lia) ltac:(lia)). lra. }
    + rewrite Q. apply herm_left; auto.
    + rewrite Q. eapply herm_right; eauto.
Qed.

(** An end interval whose two data are equal although the next data differ. *)
Definition flat_end (n : Z) (y : list R) (i : Z) : Prop :=
  (2 < n)%Z /\ ((i = 0%Z /\ at_ y 0 = at_ y 1 /\ at_ y 1 <> at_ y 2) \/ (i = (n - 2)%Z /\ at_ y (n - 2) = at_ y (n - 1) /\ at_ y (n - 3) <> at_ y (n - 2))).

(** On every interval except a flat end interval next to a non-flat one, the result stays between
    the two data values and moves monotonically from the first to the second.  Missing: the flat
    end intervals, where the claim is false (next theorem). *)
Theorem C33_shape_partial : forall n m grid1 grid2 data1 data2, (2 <= n)%Z -> (0 <= m)%Z ->
  zlen grid1 = n -> zlen data1 = n -> zlen grid2 = m -> zlen data2 = m -> increasing grid1 ->
  (forall k, (0 <= k < m)%Z -> at_ grid1 0 <= at_ grid2 k <= at_ grid1 (n - 1)) ->
  exists out, cubic_spline_sp n m grid1 grid2 data1 data2 = Ok out /\ zlen out = m
    /\ forall i k k', (0 <= i < n - 1)%Z -> ~ flat_end n data1 i -> (0 <= k < m)%Z -> (0 <= k' < m)%Z ->
       at_ grid1 i <= at_ grid2 k -> at_ grid2 k <= at_ grid2 k' -> at_ grid2 k' <= at_ grid1 (i + 1) ->
       betw (at_ data1 i) (at_ data1 (i + 1)) (at_ out k) /\ betw (at_ out k) (at_ data1 (i + 1)) (at_ out k').
Proof.
  intros n m g1 g2 y d2 Hn Hm L1 LD L2 LO I HB. destruct (Z.eq_dec n 2) as [-> |N].
  - destruct (two_nodes m g1 g2 y d2) as (out & E & L & Ho); auto. exists out. split; auto. split; auto. intros i k k' Hi _ Hk Hk' B1 B2 B3. rewrite !Ho by auto. assert (i = 0)%Z as -> by lia. unfold lin. pose proof (I 0%Z 1%Z ltac:(lia) ltac:(lia)) as P.
    change (0 + 1)%Z with 1%Z in *. set (t := (at_ g2 k - at_ g1 0) / (at_ g1 1 - at_ g1 0)). set (t' := (at_ g2 k' - at_ g1 0) / (at_ g1 1 - at_ g1 0)).
    assert (IP : 0 < / (at_ g1 1 - at_ g1 0)) by (apply Rinv_0_lt_compat; lra).
    assert (T : 0 <= t) by (apply Rmult_le_pos; lra). assert (TT : t <= t') by (apply Rmult_le_compat_r; lra).
    assert (T1 : t' <= 1). { apply Rmult_le_reg_r with (at_ g1 1 - at_ g1 0); [lra|]. unfold t', Rdiv. rewrite Rmult_assoc, Rinv_l by lra. lra. }
    clearbody t t'. generalize (at_ y 0) (at_ y 1). intros p q. unfold betw. destruct (Rle_lt_dec p q); split; [left|left|right|right]; nra.
  - destruct (spline_run n g1 y ltac:(lia) L1 LD I m g2 d2) as (out & E & L & Ho); auto. exists out. split; auto. split; auto. intros i k k' Hi HF Hk Hk' B1 B2 B3.
    assert (OK : end_ok n y i).
    { split; intros Ei Eq.
      - destruct (Req_dec (at_ y 1) (at_ y 2)); auto. exfalso. apply HF. split; [lia|]. auto.
      - destruct (Req_dec (at_ y (n - 3)) (at_ y (n - 2))); auto. exfalso. apply HF. split; [lia|]. auto. }
    assert (V : forall k, (0 <= k < m)%Z -> at_ g1 i <= at_ g2 k <= at_ g1 (i + 1) -> at_ out k = herm n g1 y i (at_ g2 k)).
    { intros j Hj Bj. destruct (Ho j Hj) as (i' & Hi' & Bi' & ->). destruct (same_interval g1 i i' (at_ g2 j)) as [-> |[(-> & Q)|(-> & Q)]]; auto; try lia.
      - rewrite Q. rewrite herm_left by lia. symmetry. eapply herm_right; eauto.
      - rewrite Q. rewrite (herm_left n g1 y) by lia. eapply herm_right; eauto. }
    rewrite (V k), (V k') by (auto; lra). pose proof (herm_shape n g1 y ltac:(lia) L1 I i (at_ g2 k) (at_ g2 k') Hi OK B1 B2 B3). tauto.
Qed.

(** Hence monotone data without such flat ends give a monotone result. *)
Theorem C33_monotone_partial : forall n m grid1 grid2 data1 data2, (2 <= n)%Z -> (0 <= m)%Z ->
  zlen grid1 = n -> zlen data1 = n -> zlen grid2 = m -> zlen data2 = m -> increasing grid1 ->
  (forall k, (0 <= k < m)%Z -> at_ grid1 0 <= at_ grid2 k <= at_ grid1 (n - 1)) ->
  nondecreasing data1 -> (forall i, ~ flat_end n data1 i) ->
  exists out, cubic_spline_sp n m grid1 grid2 data1 data2 = Ok out
    /\ forall k k', (0 <= k < m)%Z -> (0 <= k' < m)%Z -> at_ grid2 k <= at_ grid2 k' -> at_ out k <= at_ out k'.
Proof.
  intros n m g1 g2 y d2 Hn Hm L1 LD L2 LO I HB HM HF. destruct (C33_shape_partial n m g1 g2 y d2) as (out & E & L & HS); auto. exists out. split; auto. intros k k' Hk Hk' Hz.
  assert (BR : forall k, (0 <= k < m)%Z -> exists i, (0 <= i < n - 1)%Z /\ at_ g1 i <= at_ g2 k <= at_ g1 (i + 1)).
  { intros j Hj. destruct (find_klo_spec (at_ g2 j) g1 n L1 Hn I (HB j Hj)) as (i & _ & Hi & Bi). eauto. }
  destruct (BR k Hk) as (i & Hi & Bi). destruct (BR k' Hk') as (i' & Hi' & Bi').
  assert (MI : forall i, (0 <= i < n - 1)%Z -> at_ y i <= at_ y (i + 1)) by (intros; apply HM; lia).
  assert (SAME : forall j, (0 <= j < n - 1)%Z -> at_ g1 j <= at_ g2 k <= at_ g1 (j + 1) -> at_ g1 j <= at_ g2 k' <= at_ g1 (j + 1) -> at_ out k <= at_ out k').
  { intros j Hj B1 B2. destruct (HS j k k' Hj (HF j) Hk Hk') as [P Q]; try lra. pose proof (MI j Hj). unfold betw in *. lra. }
  destruct (Z.lt_trichotomy i i') as [Q|[-> |Q]].
  - destruct (HS i k k Hi (HF i) Hk Hk) as [P _]; try lra. destruct (HS i' k' k' Hi' (HF i') Hk' Hk') as [P' _]; try lra. pose proof (MI i Hi). pose proof (MI i' Hi'). pose proof (HM (i + 1)%Z i' ltac:(lia) ltac:(lia)). unfold betw in *. lra.
  - apply (SAME i'); auto; lra.
  - pose proof (inc_nondec _ I (i' + 1)%Z i ltac:(lia) ltac:(lia)). apply (SAME i); auto; lra.
Qed.

Example C33_example : increasing [1; 2; 4] /\ nondecreasing [0; 1; 5] /\ (forall i, ~ flat_end 3 [0; 1; 5] i) /\ (forall k, (0 <= k < 2)%Z -> at_ [1; 2; 4] 0 <= at_ [3 / 2; 3] k <= at_ [1; 2; 4] (3 - 1)).
Proof.
  repeat split; try (apply inc3; lra).
  - apply inc_nondec, inc3; lra.
  - intros i (_ & [(_ & Q & _)|(_ & Q & _)]); change (3 - 2)%Z with 1%Z in *; change (3 - 1)%Z with 2%Z in *; ats; lra.
  - assert (k = 0 \/ k = 1)%Z as [-> | ->] by lia; change (1 - 1)%Z with 0%Z; change (2 - 1)%Z with 1%Z; change (3 - 1)%Z with 2%Z; ats; lra.
  - assert (k = 0 \/ k = 1)%Z as [-> | ->] by lia; change (1 - 1)%Z with 0%Z; change (2 - 1)%Z with 1%Z; change (3 - 1)%Z with 2%Z; ats; lra.
Qed.

(** The monotone data 0, 0, 1 at 1, 2, 3 give a negative value at 3/2. *)
Theorem C33_overshoot_refuted : exists grid1 data1 grid2 out, increasing grid1 /\ nondecreasing data1
  /\ cubic_spline_sp 3 1 grid1 grid2 data1 [0] = Ok out /\ at_ grid1 0 <= at_ grid2 0 <= at_ grid1 1 /\ at_ out 0 < at_ data1 0 /\ at_ data1 0 = at_ data1 1.
Proof.
  assert (I : increasing [1; 2; 3]) by (apply inc3; lra).
  destruct (spline_run 3 [1; 2; 3] [0; 0; 1] ltac:(lia) eq_refl eq_refl I 1 [3 / 2] [0]) as (out & E & L & Ho); auto; try lia.
  { intros k Hk. assert (k = 0)%Z as -> by lia. change (3 - 1)%Z with 2%Z; ats; lra. }
  exists [1; 2; 3], [0; 0; 1], [3 / 2], out. split; auto. split.
  { apply steps_nondec. intros i Hi. change (zlen [0; 0; 1]) with 3%Z in Hi. assert (i = 1 \/ i = 2)%Z as [-> | ->] by lia; change (1 - 1)%Z with 0%Z; change (2 - 1)%Z with 1%Z; change (3 - 1)%Z with 2%Z; ats; lra. }
  split; auto. split; [change (1 - 1)%Z with 0%Z; change (2 - 1)%Z with 1%Z; change (3 - 1)%Z with 2%Z; ats; lra|]. split; [|reflexivity]. destruct (Ho 0%Z ltac:(lia)) as (i & Hi & Bi & ->).
  assert (i = 0 \/ i = 1)%Z as [-> | ->] by lia; [|change (1 + 1)%Z with 2%Z in *; ats; lra].
  unfold herm, DD, ee, hh. cbn zeta. change (3 - 1)%Z with 2%Z. change (3 - 2)%Z with 1%Z. change (3 - 3)%Z with 0%Z. change (0 + 1)%Z with 1%Z. change (1 + 1)%Z with 2%Z. change (1 - 1)%Z with 0%Z. change (0 =? 2)%Z with false. change (0 =? 0)%Z with true. change (1 =? 2)%Z with false. change (1 =? 0)%Z with false. cbv iota. ats.
  unfold interior_slope, end_slope. cbn zeta.
  match goal with |- context [rlt 0 ?x] => destruct (rlt_spec 0 x) as [C|C]; [lra|] end.
  match goal with |- context [rlt ?x 0] => destruct (rlt_spec x 0) as [D|D]; [lra|] end.
  match goal with |- context [rlt ?x 0] => destruct (rlt_spec x 0) as [F|F]; [lra|] end. cbn [andb]. lra.
Qed.

Print Assumptions C30_conserve_interp.
Print Assumptions C31_nearest_index.
Print Assumptions C31_ties.
Print Assumptions C31_single_refuted.
Print Assumptions C32_linear_vertical.
Print Assumptions C32_refused.
Print Assumptions C33_interpolates.
Print Assumptions C33_shape_partial.
Print Assumptions C33_monotone_partial.
Print Assumptions C33_overshoot_refuted.
