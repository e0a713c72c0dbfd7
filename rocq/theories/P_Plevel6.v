(** * Proofs about the interpolation to pressure levels: sea level pressure *)
From Coq Require Import Reals Lra Lia.
From Verif Require Import Base Loops M_Interp P_Interp M_Runoff M_Plevel Spec_Plevel P_Plevel P_Plevel2 P_Plevel3 P_Plevel4.
Open Scope Z_scope.

(** The level that is used *)
Lemma ref_spec pf pbot kb : (0 < pbot)%R -> forall fuel k st k0, Z.of_nat fuel = kb - k + 1 -> 1 <= k -> kb <= zlen pf ->
  k <= k0 <= kb -> (0.8 * pbot < lv pf k0)%R -> (forall j, k <= j < k0 -> (lv pf j <= 0.8 * pbot)%R) ->
  ref_level fuel k kb pf pbot st = Ok (Some k0, Some (lv pf k0 / pbot)%R).
Proof.
  intros Hp. assert (Hd : forall x, (0.8 < x / pbot)%R <-> (0.8 * pbot < x)%R).
  { intros x. split; intros H.
    - apply (Rmult_lt_compat_r pbot) in H; [|exact Hp]. unfold Rdiv in H. rewrite Rmult_assoc, Rinv_l, Rmult_1_r in H by lra. exact H.
    - apply (Rmult_lt_reg_r pbot); [exact Hp|]. unfold Rdiv. rewrite Rmult_assoc, Rinv_l, Rmult_1_r by lra. exact H. }
  induction fuel as [|fuel IH]; intros k st k0 Hf Hk Hl H0 H1 H2; [lia|].
  cbn [ref_level]. rewrite at_ok by lia. cbn [bind]. rewrite fdiv_ok by lra. cbn [bind].
  destruct (rlt_spec 0.8 (lv pf k / pbot)) as [L|L].
  - destruct (Z.eq_dec k k0) as [-> |Hne]; [reflexivity|]. apply Hd in L. specialize (H2 k ltac:(lia)). lra.
  - assert (k <> k0) by (intros ->; apply L, Hd, H1).
    apply IH; try lia; try assumption. intros j Hj. apply H2. lia.
Qed.
(** No level *)
Lemma ref_none pf pbot kb : (0 < pbot)%R -> forall fuel k st, Z.of_nat fuel = kb - k + 1 -> 1 <= k -> k <= kb -> kb <= zlen pf ->
  (forall j, k <= j <= kb -> (lv pf j <= 0.8 * pbot)%R) ->
  ref_level fuel k kb pf pbot st = Ok (fst st, Some (lv pf kb / pbot)%R).
Proof.
  intros Hp. induction fuel as [|fuel IH]; intros k st Hf Hk Hk' Hl H; [lia|].
  cbn [ref_level]. rewrite at_ok by lia. cbn [bind]. rewrite fdiv_ok by lra. cbn [bind].
  destruct (rlt_spec 0.8 (lv pf k / pbot)) as [L|L].
  - exfalso. apply (Rmult_lt_compat_r pbot) in L; [|exact Hp]. unfold Rdiv in L. rewrite Rmult_assoc, Rinv_l, Rmult_1_r in L by lra.
    specialize (H k ltac:(lia)). lra.
  - destruct fuel as [|fuel].
    + cbn [ref_level fst]. replace kb with k by lia. reflexivity.
    + rewrite IH; [reflexivity|lia|lia|lia|exact Hl|]. intros j Hj. apply H. lia.
Qed.

Lemma mrgog_val : mrgog = (- (Rd * lapse / grav))%R.
Proof. unfold mrgog, gorg, GRAV, RDGAS, tlapse, Rd, lapse, grav. field; lra. Qed.
Lemma gorg_val : gorg = (grav / (Rd * lapse))%R.
Proof. reflexivity. Qed.

Lemma rpower_neg_ge1 s a : (0 < s <= 1)%R -> (0 < a)%R -> (1 <= Rpower s (- a))%R.
Proof.
  intros [H1 H2] Ha. unfold Rpower. rewrite <- exp_0.
  assert (L : (ln s <= 0)%R) by (rewrite <- ln_1; apply ln_le_compat; assumption).
  destruct (Req_dec (- a * ln s) 0) as [-> |]; [lra|]. apply Rlt_le, exp_increasing. nra.
Qed.
Lemma rpower_gt1 x a : (1 < x)%R -> (0 < a)%R -> (1 < Rpower x a)%R.
Proof.
  intros Hx Ha. unfold Rpower. rewrite <- exp_0. apply exp_increasing. apply Rmult_lt_0_compat; [exact Ha|].
  rewrite <- ln_1. apply ln_increasing; lra.
Qed.

(** A column with the numbers the computation needs *)
Definition slp_in (nlev : Z) (c : column) : Prop := slp_column_ok nlev (k_bot c) (k_zsurf c) (k_phalf c) (k_pfull c) (k_temp c).

Lemma slp_in_pos nlev c : slp_in nlev c -> (0 < lv (k_phalf c) (k_bot c + 1))%R.
Proof. intros (G & _ & _ & Hb & _). apply (good_half_pos nlev); [exact G|lia]. Qed.

Lemma pf_below_surface nlev c k : slp_in nlev c -> 1 <= k <= k_bot c -> (0 < lv (k_pfull c) k < lv (k_phalf c) (k_bot c + 1))%R.
Proof.
  intros (G & Hi & _ & Hb & _) Hk. pose proof (inside_good nlev _ _ G Hi) as GF. pose proof GF as (_ & Hp & _). split; [apply Hp; lia|].
  apply Rle_lt_trans with (lv (k_pfull c) (k_bot c)); [apply (good_full_le nlev); [exact GF|lia|lia|lia]|].
  destruct Hi as (_ & Hin). apply Hin. lia.
Qed.

Lemma slp_value nlev c kr s0 out k : slp_in nlev c -> (0.0001 < Rabs (k_zsurf c))%R ->
  1 <= k <= k_bot c -> (0.8 * lv (k_phalf c) (k_bot c + 1) < lv (k_pfull c) k)%R ->
  (forall j, 1 <= j < k -> (lv (k_pfull c) j <= 0.8 * lv (k_phalf c) (k_bot c + 1))%R) ->
  exists v sig, slp_column (kr, s0, out) c = Ok (Some k, sig, out ++ [v]) /\
    reduced (lv (k_phalf c) (k_bot c + 1)) (k_zsurf c) (lv (k_temp c) k) (lv (k_pfull c) k) v.
Proof.
  intros H Hz Hk H1 H2. pose proof H as (G & Hi & Ht & Hb & HT). pose proof (slp_in_pos nlev c H) as Hp.
  pose proof G as (_ & Hlph & _). pose proof Hi as (Hlpf & _).
  pose proof (pf_below_surface nlev c k H Hk) as Hpk.
  unfold slp_column. rewrite at_ok by lia. cbn [bind]. set (ps := lv (k_phalf c) (k_bot c + 1)) in *.
  destruct (rlt_spec 0.0001 (Rabs (k_zsurf c))) as [_|]; [|contradiction].
  rewrite (ref_spec _ ps (k_bot c) Hp _ 1 _ k) by (assumption || lia). cbn [bind defined].
  rewrite at_ok by lia. cbn [bind].
  destruct (HT k Hk) as [T1 T2]. set (T := lv (k_temp c) k) in *. set (pk := lv (k_pfull c) k) in *.
  assert (Hs : (0 < pk / ps)%R) by (apply Rdiv_lt_0_compat; lra).
  assert (Hs1 : (pk / ps <= 1)%R).
  { apply (Rmult_le_reg_r ps); [exact Hp|]. unfold Rdiv. rewrite Rmult_assoc, Rinv_l by lra. lra. }
  unfold fpow at 1. destruct (rlt_spec 0 (pk / ps)); [|contradiction]. cbn [bind].
  assert (W : (1 <= Rpower (pk / ps) mrgog)%R).
  { rewrite mrgog_val. apply rpower_neg_ge1; [lra|]. unfold Rd, lapse, grav. lra. }
  set (w := Rpower (pk / ps) mrgog) in *.
  assert (Hts : (T <= T * w)%R) by nra.
  rewrite fdiv_ok by nra. cbn [bind].
  assert (P : (0 < 1 + tlapse * k_zsurf c / (T * w))%R).
  { replace (1 + tlapse * k_zsurf c / (T * w))%R with ((T * w + tlapse * k_zsurf c) / (T * w))%R by (field; split; nra).
    apply Rdiv_lt_0_compat; [|nra]. change tlapse with lapse. lra. }
  unfold fpow. destruct (rlt_spec 0 (1 + tlapse * k_zsurf c / (T * w))); [|contradiction]. cbn [bind].
  eexists _, _. split; [reflexivity|]. unfold reduced. cbv zeta. rewrite <- mrgog_val, <- gorg_val. fold w. change tlapse with lapse. lra.
Qed.

(** What the result for one column should be *)
Definition slp_out (c : column) (v : R) : Prop := sea_level (k_bot c) (k_zsurf c) (k_phalf c) (k_pfull c) (k_temp c) v.

Lemma classic_level : forall (n : nat) pf x,
  (exists m : nat, (1 <= m < n)%nat /\ (x < lv pf (Z.of_nat m))%R) \/ (forall m : nat, (1 <= m < n)%nat -> (lv pf (Z.of_nat m) <= x)%R).
Proof.
  induction n as [|n IH]; intros pf x; [right; intros; lia|].
  destruct (IH pf x) as [(m & Hm & L)|H]; [left; exists m; split; [lia|exact L]|].
  destruct (Nat.eq_dec n 0) as [-> |]; [right; intros; lia|].
  destruct (Rlt_dec x (lv pf (Z.of_nat n))) as [L|L]; [left; exists n; split; [lia|exact L]|].
  right. intros m Hm. destruct (Nat.eq_dec m n) as [-> |]; [lra|apply H; lia].
Qed.
Lemma first_level pf b x : forall n : nat, 1 <= Z.of_nat n <= b -> (x < lv pf (Z.of_nat n))%R ->
  exists k, 1 <= k <= b /\ (x < lv pf k)%R /\ forall j, 1 <= j < k -> (lv pf j <= x)%R.
Proof.
  intros n. induction n as [n IH] using lt_wf_ind. intros Hn Hx.
  destruct (Rlt_dec x (lv pf (Z.of_nat n))) as [L|]; [|contradiction].
  destruct (classic_level n pf x) as [(m & Hm & Lm)|Hno].
  - apply (IH m); [lia|lia|exact Lm].
  - exists (Z.of_nat n). split; [exact Hn|]. split; [exact Hx|]. intros j Hj.
    specialize (Hno (Z.to_nat j)). replace (Z.of_nat (Z.to_nat j)) with j in Hno by lia. apply Hno. lia.
Qed.

Lemma slp_fold nlev : forall cols st, 
  Forall (fun c => slp_in nlev c /\ ((0.0001 < Rabs (k_zsurf c))%R -> exists k, 1 <= k <= k_bot c /\ (0.8 * lv (k_phalf c) (k_bot c + 1) < lv (k_pfull c) k)%R)) cols ->
  exists kr sig vs, ofold slp_column cols st = Ok (kr, sig, snd st ++ vs) /\ Forall2 slp_out cols vs.
Proof.
  induction cols as [|c cols IH]; intros [[kr s0] out] H.
  - exists kr, s0, []. cbn [ofold snd]. rewrite app_nil_r. split; [reflexivity|constructor].
  - inversion H as [|? ? [Hc Hex] Hr]; subst. cbn [ofold].
    assert (E : exists kr' s' v, slp_column (kr, s0, out) c = Ok (kr', s', out ++ [v]) /\ slp_out c v).
    { destruct (Rlt_dec 0.0001 (Rabs (k_zsurf c))) as [L|L].
      - destruct (Hex L) as (k1 & Hk1 & L1).
        destruct (first_level (k_pfull c) (k_bot c) (0.8 * lv (k_phalf c) (k_bot c + 1)) (Z.to_nat k1)) as (k & Hk & L2 & L3).
        { lia. } { replace (Z.of_nat (Z.to_nat k1)) with k1 by lia. exact L1. }
        destruct (slp_value nlev c kr s0 out k Hc L Hk L2 L3) as (v & sig & E & R).
        exists (Some k), sig, v. split; [exact E|]. split; [lra|]. intros _. exists k. auto.
      - exists kr, s0, (lv (k_phalf c) (k_bot c + 1) * 0.01)%R. split; [|split; [lra|intros; contradiction]].
        pose proof Hc as (G & Hi & _ & Hb & _). pose proof G as (_ & Hlph & _).
        unfold slp_column. rewrite at_ok by lia. cbn [bind].
        destruct (rlt_spec 0.0001 (Rabs (k_zsurf c))); [contradiction|reflexivity]. }
    destruct E as (kr' & s' & v & -> & Hv). cbn [bind].
    destruct (IH (kr', s', out ++ [v]) Hr) as (kr2 & s2 & vs & E2 & F). rewrite E2. cbn [snd].
    exists kr2, s2, (v :: vs). rewrite <- app_assoc. split; [reflexivity|constructor; assumption].
Qed.
Lemma slp_spec nlev cols :
  Forall (fun c => slp_in nlev c /\ ((0.0001 < Rabs (k_zsurf c))%R -> exists k, 1 <= k <= k_bot c /\ (0.8 * lv (k_phalf c) (k_bot c + 1) < lv (k_pfull c) k)%R)) cols ->
  exists vs, sea_level_pressure cols = Ok vs /\ Forall2 slp_out cols vs.
Proof.
  intros H. destruct (slp_fold nlev cols (None, None, []) H) as (kr & sig & vs & E & F). exists vs. split; [|exact F].
  unfold sea_level_pressure. rewrite E. reflexivity.
Qed.
(** Points above sea level *)
Lemma reduced_higher ps z t p v : (0 < ps)%R -> (0 < z)%R -> (0 < t)%R -> (0 < p)%R -> reduced ps z t p v -> (ps < 100 * v)%R.
Proof.
  intros Hps Hz Ht Hp H. unfold reduced in H. cbv zeta in H. rewrite H.
  assert (W : (0 < Rpower (p / ps) (- (Rd * lapse / grav)))%R) by apply exp_pos.
  set (w := Rpower (p / ps) (- (Rd * lapse / grav))) in *.
  assert (G : (1 < Rpower (1 + lapse * z / (t * w)) (grav / (Rd * lapse)))%R).
  { apply rpower_gt1; [|unfold grav, Rd, lapse; lra]. assert (0 < lapse * z / (t * w))%R by (apply Rdiv_lt_0_compat; [unfold lapse; nra|apply Rmult_lt_0_compat; assumption]). lra. }
  nra.
Qed.

(** A column where no level qualifies *)
Lemma slp_none nlev c : slp_in nlev c -> (0.0001 < Rabs (k_zsurf c))%R ->
  (forall j, 1 <= j <= k_bot c -> (lv (k_pfull c) j <= 0.8 * lv (k_phalf c) (k_bot c + 1))%R) ->
  sea_level_pressure [c] = UB.
Proof.
  intros H Hz Hj. pose proof (slp_in_pos nlev c H) as Hp. pose proof H as (G & Hi & Ht & Hb & _). pose proof G as (_ & Hl & _). pose proof Hi as (Hlf & _).
  unfold sea_level_pressure. cbn [ofold]. unfold slp_column. rewrite at_ok by lia. cbn [bind].
  destruct (rlt_spec 0.0001 (Rabs (k_zsurf c))); [|contradiction].
  rewrite (ref_none _ _ (k_bot c) Hp) by (assumption || lia). reflexivity.
Qed.
