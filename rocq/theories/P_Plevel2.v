(** * Proofs about the interpolation to pressure levels: the interpolated value *)
From Coq Require Import Reals Lra Lia.
From Verif Require Import Base Loops M_Interp P_Interp M_Runoff M_Plevel Spec_Plevel P_Plevel.
Open Scope Z_scope.

Lemma good_full_le nlev pf a b : good_full nlev pf -> 1 <= a -> a <= b -> b <= nlev -> (lv pf a <= lv pf b)%R.
Proof.
  intros. destruct (Z.eq_dec a b) as [-> |]; [apply Rle_refl|]. apply Rlt_le, (good_full_lt nlev); auto; lia.
Qed.
Lemma ln_le_compat a b : (0 < a)%R -> (a <= b)%R -> (ln a <= ln b)%R.
Proof. intros. destruct (Req_dec a b) as [-> |]; [lra|]. apply Rlt_le, ln_increasing; lra. Qed.

Lemma column_spec nlev pf kbot data p : good_full nlev pf -> (0 < p)%R -> 2 <= kbot <= nlev -> zlen data = nlev ->
  exists c v, control_of (map ln pf) kbot (ln p) = Ok c /\ pres_interp c data = Ok v /\
    interpolated pf data kbot p v /\ (c_mask c = true <-> (lv pf kbot < p)%R) /\
    2 <= c_index c <= kbot /\ (c_mask c = true -> c_index c = kbot) /\
    v = (lv data (c_index c) + c_factr c * (lv data (c_index c - 1) - lv data (c_index c)))%R.
Proof.
  intros G Hp Hb Hd. pose proof G as (Hl & Hpos & Hmon).
  destruct (control_spec nlev pf kbot p G Hp Hb) as (k & f & m & E & Hk & Hf & Hj & Hm).
  exists (Control k (Rmax (-0.5) (Rmin 1.5 f)) m), (lv data k + Rmax (-0.5) (Rmin 1.5 f) * (lv data (k - 1) - lv data k))%R.
  split; [exact E|]. split.
  { unfold pres_interp. cbn [c_index c_factr]. rewrite !at_ok by lia. reflexivity. }
  assert (Hmask : m = true <-> (lv pf kbot < p)%R).
  { destruct m; [tauto|]. split; [discriminate|]. intros.
    pose proof (good_full_le nlev pf k kbot G ltac:(lia) ltac:(lia) ltac:(lia)). lra. }
  cbn [c_mask c_index c_factr]. split; [|split; [exact Hmask|split; [lia|split; [destruct m; [intros; apply Hm|discriminate]|reflexivity]]]].
  rewrite clamp_spec.
  assert (Hlk : (ln (lv pf (k - 1)) < ln (lv pf k))%R).
  { apply ln_increasing; [apply Hpos; lia|]. apply (good_full_lt nlev); auto; lia. }
  split; [|split].
  - intros j Hj' [P1 P2].
    assert (m = false) as ->.
    { destruct m; [|reflexivity]. pose proof (good_full_le nlev pf (j + 1) kbot G ltac:(lia) ltac:(lia) ltac:(lia)). destruct Hm; lra. }
    assert (k <= j + 1).
    { destruct (Z.le_gt_cases k (j + 1)); [assumption|]. specialize (Hj (j + 1) ltac:(lia)). lra. }
    destruct (Z.eq_dec k (j + 1)) as [-> |].
    + replace (j + 1 - 1) with j in * by lia.
      assert (L1 : (ln (lv pf j) <= ln p)%R) by (apply ln_le_compat; [apply Hpos; lia|exact P1]).
      assert (L2 : (ln p <= ln (lv pf (j + 1)))%R) by (apply ln_le_compat; [lra|exact P2]).
      assert (0 <= f <= 1)%R by (split; nra).
      destruct (rlt_spec 1.5 f); [lra|]. destruct (rlt_spec f (-0.5)); [lra|].
      unfold on_line. clear - Hf. nra.
    + pose proof (good_full_le nlev pf k j G ltac:(lia) ltac:(lia) ltac:(lia)).
      assert (k = j).
      { destruct (Z.eq_dec k j); [assumption|]. pose proof (good_full_lt nlev pf k j G ltac:(lia) ltac:(lia) ltac:(lia)). lra. }
      subst k. assert (p = lv pf j) by lra. subst p.
      assert (f = 0)%R by nra. subst f.
      destruct (rlt_spec 1.5 0); [lra|]. destruct (rlt_spec 0 (-0.5)); [lra|].
      unfold on_line. ring.
  - intros P1.
    assert (m = false) as ->.
    { destruct m; [|reflexivity]. pose proof (good_full_le nlev pf 1 kbot G ltac:(lia) ltac:(lia) ltac:(lia)). destruct Hm; lra. }
    assert (k = 2).
    { destruct (Z.eq_dec k 2); [assumption|]. specialize (Hj 2 ltac:(lia)).
      pose proof (good_full_lt nlev pf 1 2 G ltac:(lia) ltac:(lia) ltac:(lia)). lra. }
    subst k. replace (2 - 1) with 1 in * by lia.
    assert (L1 : (ln p < ln (lv pf 1))%R) by (apply ln_increasing; assumption).
    assert (1 < f)%R by nra.
    destruct (rlt_spec 1.5 f).
    + exists (exp (ln (lv pf 1) - (ln (lv pf 2) - ln (lv pf 1)) / 2)). split; [apply exp_pos|].
      unfold on_line. rewrite ln_exp. replace (1 + 1) with 2 by lia. split; [replace 1.5%R with (3 / 2)%R by lra; field|]. rewrite Rmax_right; [reflexivity|nra].
    + destruct (rlt_spec f (-0.5)); [lra|]. exists p. split; [exact Hp|].
      unfold on_line. replace (1 + 1) with 2 by lia. split; [clear - Hf; nra|]. rewrite Rmax_left; [reflexivity|nra].
  - intros P1. apply Hmask in P1. subst m. destruct Hm as [-> P1].
    assert (L1 : (ln (lv pf kbot) < ln p)%R) by (apply ln_increasing; [apply Hpos; lia|assumption]).
    assert (f < 0)%R by nra.
    destruct (rlt_spec 1.5 f); [lra|]. destruct (rlt_spec f (-0.5)).
    + exists (exp (ln (lv pf kbot) + (ln (lv pf kbot) - ln (lv pf (kbot - 1))) / 2)). split; [apply exp_pos|].
      unfold on_line. rewrite ln_exp. replace (kbot - 1 + 1) with kbot by lia. split; [replace (-0.5)%R with (- (1 / 2))%R by lra; field|]. rewrite Rmin_right; [reflexivity|nra].
    + exists p. split; [exact Hp|].
      unfold on_line. replace (kbot - 1 + 1) with kbot by lia. split; [clear - Hf; nra|]. rewrite Rmin_left; [reflexivity|nra].
Qed.

Lemma interp_column_spec nlev ph kbot data p : good_half nlev ph -> (0 < p)%R -> 2 <= kbot <= nlev -> zlen data = nlev ->
  exists pf v m, compute_pres_full nlev ph = Ok pf /\ inside nlev ph pf /\
    interp_column nlev ph kbot data p = Ok (v, m) /\
    interpolated pf data kbot p v /\ (m = true <-> (lv pf kbot < p)%R).
Proof.
  intros H Hp Hb Hd. pose proof (pf_list_inside nlev ph H) as Hi. pose proof (inside_good nlev ph _ H Hi) as G.
  destruct (column_spec nlev (pf_list nlev ph) kbot data p G Hp Hb Hd) as (c & v & E1 & E2 & Hv & Hm & _).
  exists (pf_list nlev ph), v, (c_mask c). split; [apply compute_pres_full_ok; exact H|]. split; [exact Hi|].
  split; [|split; [exact Hv|exact Hm]].
  unfold interp_column. rewrite compute_pres_full_ok by exact H. cbn [bind].
  rewrite (good_full_logs nlev) by exact G. cbn [bind]. rewrite flog_ok by exact Hp. cbn [bind].
  rewrite E1. cbn [bind]. rewrite E2. reflexivity.
Qed.

(** With fewer than two levels the code reads outside its arrays. *)
Lemma few_levels nlev ph kbot data p : good_half nlev ph -> (0 < p)%R -> kbot <= 1 ->
  interp_column nlev ph kbot data p = UB.
Proof.
  intros H Hp Hb. pose proof (pf_list_inside nlev ph H) as Hi. pose proof (inside_good nlev ph _ H Hi) as G.
  unfold interp_column. rewrite compute_pres_full_ok by exact H. cbn [bind].
  rewrite (good_full_logs nlev) by exact G. cbn [bind]. rewrite flog_ok by exact Hp. cbn [bind].
  unfold control_of. replace (Z.to_nat (kbot - 1)) with O by lia. cbn [search bind].
  destruct (at_ _ kbot) eqn:E; cbn [bind]; try reflexivity.
  - unfold at_ at 1, oget, zget. destruct (Z.ltb_spec (kbot - 1 - 1) 0); [reflexivity|lia].
  - unfold at_, oget in E. destruct (zget _ _); discriminate.
Qed.

(** Consequences *)
Lemma level_above nlev pf kbot p : good_full nlev pf -> 2 <= kbot <= nlev -> (lv pf 1 <= p <= lv pf kbot)%R ->
  exists k, 1 <= k < kbot /\ (lv pf k <= p <= lv pf (k + 1))%R.
Proof.
  intros G Hb [H1 H2].
  assert (D : forall n : nat, 2 + Z.of_nat n <= kbot -> (p <= lv pf (2 + Z.of_nat n))%R ->
            exists k, 1 <= k < kbot /\ (lv pf k <= p <= lv pf (k + 1))%R).
  { induction n as [|n IH]; intros Hn Hp.
    - exists 1. split; [lia|]. split; [exact H1|exact Hp].
    - destruct (Rle_dec p (lv pf (2 + Z.of_nat n))); [apply IH; [lia|assumption]|].
      exists (2 + Z.of_nat n). split; [lia|]. replace (2 + Z.of_nat n + 1) with (2 + Z.of_nat (S n)) by lia. lra. }
  apply (D (Z.to_nat (kbot - 2))); [lia|]. replace (2 + Z.of_nat (Z.to_nat (kbot - 2))) with kbot by lia. exact H2.
Qed.
Lemma on_line_unique nlev pf data k p v v' : good_full nlev pf -> 1 <= k < nlev -> on_line pf data k p v -> on_line pf data k p v' -> v = v'.
Proof.
  intros G Hk H H'. pose proof G as (_ & Hpos & Hm). unfold on_line in *.
  assert (L : (ln (lv pf k) < ln (lv pf (k + 1)))%R) by (apply ln_increasing; [apply Hpos; lia|apply Hm; lia]). nra.
Qed.
Lemma on_line_between nlev pf data k p v : good_full nlev pf -> 1 <= k < nlev -> (lv pf k <= p <= lv pf (k + 1))%R -> on_line pf data k p v ->
  (Rmin (lv data k) (lv data (k + 1)) <= v <= Rmax (lv data k) (lv data (k + 1)))%R.
Proof.
  intros G Hk [P1 P2] H. pose proof G as (_ & Hpos & Hm). unfold on_line in H.
  assert (L : (ln (lv pf k) < ln (lv pf (k + 1)))%R) by (apply ln_increasing; [apply Hpos; lia|apply Hm; lia]).
  assert (Hp : (0 < p)%R) by (pose proof (Hpos k ltac:(lia)); lra).
  assert (L1 : (ln (lv pf k) <= ln p)%R) by (apply ln_le_compat; [apply Hpos; lia|exact P1]).
  assert (L2 : (ln p <= ln (lv pf (k + 1)))%R) by (apply ln_le_compat; assumption).
  destruct (Rle_dec (lv data k) (lv data (k + 1))).
  - rewrite Rmin_left, Rmax_right by lra. split; nra.
  - rewrite Rmin_right, Rmax_left by lra. split; nra.
Qed.
