(** * Property C58: second-order regridding with the monotone limiter *)
From Coq Require Import Lra Psatz.
From Verif Require Import Base Loops Vec M_Interp M_Runoff P_Runoff M_Fregrid Spec_Fregrid P_Interp P_Interp2 P_Fregrid P_Fregrid2 P_Mono T_Fregrid.
Local Open Scope R_scope.

(** The limiter never stops with "xdata is greater than f_bar_max" or "less than f_bar_min". *)
Theorem C58_runs : forall p T O, wf Monotone p T O -> same_width T -> tame p T O -> p_target p = false ->
  exists outs, do_scalar Monotone p T O = Ok outs /\ zlen outs = zlen O.
Proof. intros p T O HW HS HT Et. destruct (mono_run p T O HW HS HT Et) as (outs & E & L & _). eauto. Qed.

(** No output value exceeds the largest input value among the cells under it and their neighbours. *)
Theorem C58_upper : forall p T O outs q n hi, wf Monotone p T O -> same_width T -> tame p T O -> p_target p = false -> p_sum p = false -> nonneg p T O ->
  do_scalar Monotone p T O = Ok outs -> (0 <= q < zlen O)%Z -> (0 <= n < o_nx (otile_at O q) * o_ny (otile_at O q))%Z ->
  0 < weight_on Monotone p T (otile_at O q) n ->
  (forall c v, In c (used Monotone p T (otile_at O q) n) -> neighbour p T c v -> v <= hi) ->
  out_at O outs q 0 n <= hi.
Proof.
  intros p T O outs q n hi HW HS HT Et Es (HNN & _) E Hq Hn HP HB. destruct (mono_run p T O HW HS HT Et) as (outs' & E' & _ & s & H). rewrite E in E'. injection E' as <-.
  destruct (H q Hq) as (HL & _ & HO). rewrite HO by (auto; pose proof (nz_pos p T O HW); lia). clear HO. rewrite Z.mul_0_l, Z.add_0_l. unfold mono_value. cbv zeta. rewrite Es. destruct (Rlt_dec _ _); [|contradiction].
  unfold weight_on in *. set (U := used Monotone p T (otile_at O q) n) in *.
  assert (A2 : rsum (fun c => x_weight p T c * y_of p T (s q) c) U <= rsum (fun c => hi * x_weight p T c) U).
  { apply rsum_le. intros c Hc. pose proof (HNN c (used_in _ _ _ _ _ _ _ Hq Hc)) as W. unfold U, used in Hc. apply filter_In in Hc. destruct Hc as (Ho & Hv). pose proof Ho as Ho'. unfold over in Ho'. apply filter_In in Ho'. destruct Ho' as (Ho' & _).
    destruct (HL c Ho' Hv) as (_ & Hup & _). assert (y_of p T (s q) c <= hi). { apply Hup. intros v Hnv. apply (HB c v); auto. unfold U, used. apply filter_In. auto. } nra. }
  rewrite rsum_scal in A2. apply Rmult_le_reg_r with (rsum (x_weight p T) U); auto. unfold Rdiv. rewrite Rmult_assoc, Rinv_l by lra. lra.
Qed.

(** Nor is one below the smallest, if no input cell has pieces both above and below all neighbours. *)
Theorem C58_lower : forall p T O outs q n lo, wf Monotone p T O -> same_width T -> tame p T O -> p_target p = false -> p_sum p = false -> nonneg p T O ->
  do_scalar Monotone p T O = Ok outs -> (0 <= q < zlen O)%Z -> (0 <= n < o_nx (otile_at O q) * o_ny (otile_at O q))%Z ->
  0 < weight_on Monotone p T (otile_at O q) n ->
  (forall c, In c (used Monotone p T (otile_at O q) n) -> ~ (overshoots p T (otile_at O q) c /\ undershoots p T (otile_at O q) c)) ->
  (forall c v, In c (used Monotone p T (otile_at O q) n) -> neighbour p T c v -> lo <= v) ->
  lo <= out_at O outs q 0 n.
Proof.
  intros p T O outs q n lo HW HS HT Et Es (HNN & _) E Hq Hn HP HOU HB. destruct (mono_run p T O HW HS HT Et) as (outs' & E' & _ & s & H). rewrite E in E'. injection E' as <-.
  destruct (H q Hq) as (HL & _ & HO). rewrite HO by (auto; pose proof (nz_pos p T O HW); lia). clear HO. rewrite Z.mul_0_l, Z.add_0_l. unfold mono_value. cbv zeta. rewrite Es. destruct (Rlt_dec _ _); [|contradiction].
  unfold weight_on in *. set (U := used Monotone p T (otile_at O q) n) in *.
  assert (A2 : rsum (fun c => lo * x_weight p T c) U <= rsum (fun c => x_weight p T c * y_of p T (s q) c) U).
  { apply rsum_le. intros c HU. pose proof HU as Hc. pose proof (HNN c (used_in _ _ _ _ _ _ _ Hq Hc)) as W. unfold U, used in Hc. apply filter_In in Hc. destruct Hc as (Ho & Hv). unfold over in Ho. apply filter_In in Ho. destruct Ho as (Ho & _).
    destruct (HL c Ho Hv) as (_ & _ & Hlow & _). assert (lo <= y_of p T (s q) c). { apply Hlow; auto. intros v Hnv. apply (HB c v); auto. } nra. }
  rewrite rsum_scal in A2. apply Rmult_le_reg_r with (rsum (x_weight p T) U); auto. unfold Rdiv. rewrite Rmult_assoc, Rinv_l by lra. lra.
Qed.

(** Where no piece lies outside its neighbours the limiter does nothing. *)
Theorem C58_inactive : forall p T O outs outs2 q n, wf Monotone p T O -> same_width T -> tame p T O -> areas_known Order2 p T O -> p_target p = false -> p_sum p = false ->
  do_scalar Monotone p T O = Ok outs -> do_scalar Order2 p T O = Ok outs2 -> (0 <= q < zlen O)%Z -> (0 <= n < o_nx (otile_at O q) * o_ny (otile_at O q))%Z ->
  0 < weight_on Monotone p T (otile_at O q) n ->
  (forall c, In c (used Monotone p T (otile_at O q) n) -> ~ overshoots p T (otile_at O q) c /\ ~ undershoots p T (otile_at O q) c) ->
  out_at O outs q 0 n = out_at O outs2 q 0 n.
Proof.
  intros p T O outs outs2 q n HW HS HT HA Et Es E E2 Hq Hn HP HOU. destruct (mono_run p T O HW HS HT Et) as (outs' & E' & _ & s & H). rewrite E in E'. injection E' as <-.
  destruct (H q Hq) as (HL & _ & HO). pose proof (nz_pos p T O HW) as Hnz. rewrite HO by (auto; lia). clear HO. rewrite Z.mul_0_l, Z.add_0_l.
  destruct (C57_values Order2 p T O (or_intror eq_refl) HW HA) as (outs' & E' & _ & H2). rewrite E2 in E'. injection E' as <-. destruct (H2 q Hq) as (_ & HO2). rewrite HO2 by (auto; lia). clear HO2.
  unfold mono_value, remapped. cbv zeta. rewrite Es, Et. change (weight_on Order2) with (weight_on Monotone). change (used Order2) with (used Monotone).
  destruct (Rlt_dec _ _); [|contradiction]. destruct (used Monotone p T (otile_at O q) n) as [|c0 l0] eqn:Eu. { unfold weight_on in HP. rewrite Eu in HP. cbn in HP. lra. } rewrite <- Eu in *.
  unfold total. change (used Order2) with (used Monotone). f_equal. apply rsum_ext. intros c Hc. destruct (HOU c Hc) as (N1 & N2).
  unfold used in Hc. apply filter_In in Hc. destruct Hc as (Ho & Hv). unfold over in Ho. apply filter_In in Ho. destruct Ho as (Ho & _).
  destruct (HL c Ho Hv) as (_ & _ & _ & H1 & _). unfold y_of. rewrite (H1 N1 N2). change (x_value Order2 p T c 0) with (x_value Monotone p T c 0). f_equal. lra.
Qed.

(** With one output tile the limited field is conserved. *)
Theorem C58_conserved : forall p T o outs, wf Monotone p T [o] -> same_width T -> tame p T [o] -> p_target p = false -> p_sum p = false -> nonneg p T [o] ->
  complete T [o] -> centred T [o] -> do_scalar Monotone p T [o] = Ok outs ->
  out_sum [o] (fun q n => out_at [o] outs q 0 n * weight_on Monotone p T (otile_at [o] q) n) = in_total Monotone p T 0.
Proof.
  intros p T o outs HW HS HT Et Es (HNN & HZ) HC HM E. destruct (mono_run p T [o] HW HS HT Et) as (outs' & E' & _ & s & H). rewrite E in E'. injection E' as <-.
  pose proof (nz_pos p T [o] HW) as Hnz.
  rewrite <- (pieces_total Monotone p T [o] HW 0 (y_of p T (s 0%Z)) ltac:(lia) HC HZ).
  - apply out_sum_cells; auto. intros q n Hq Hn. assert (q = 0%Z) by (unfold zlen in Hq; cbn in Hq; lia). subst q. destruct (H 0%Z Hq) as (_ & _ & HO). rewrite HO by (auto; lia). rewrite Z.mul_0_l, Z.add_0_l.
    unfold mono_value. cbv zeta. rewrite Es. destruct (Rlt_dec _ _). { field. lra. }
    assert (W0 : 0 <= weight_on Monotone p T (otile_at [o] 0) n). { apply rsum_nonneg. intros x Hx. apply HNN. apply (used_in Monotone p T [o] 0 n); auto. }
    assert (W1 : weight_on Monotone p T (otile_at [o] 0) n = 0) by lra. rewrite W1, Rmult_0_r. unfold weight_on in W1.
    rewrite (rsum_ext _ (fun _ => 0)); [now rewrite rsum_zero|]. intros x Hx. rewrite (rsum_eq0 (x_weight p T) (used Monotone p T (otile_at [o] 0) n)); auto; [lra|]. intros y Hy. apply HNN. apply (used_in Monotone p T [o] 0 n); auto.
  - intros q j i Hin Hv. destruct (HM q j i Hin) as (Z1 & Z2). set (t := tile_at T q). set (nn := (0 * (t_nx t * t_ny t) + (j * t_nx t + i))%Z). set (ss := s 0%Z q (j * t_nx t + i)%Z).
    assert (EY : forall c, In c (from [o] q j i) -> x_a c * y_of p T (s 0%Z) c = x_a c * in_value Monotone T c 0 + ss * (if masked p t nn then 0 else at_ (t_gx t) nn * (x_a c * x_di c) + at_ (t_gy t) nn * (x_a c * x_dj c))).
    { intros c Hc. apply in_from in Hc. destruct Hc as (_ & Eq & Ej & Ei). unfold y_of, x_value, src_cell. cbv zeta. rewrite src_tile, Eq, Ej, Ei. fold t. fold nn. fold ss. destruct (masked p t nn); ring. }
    rewrite (rsum_ext _ _ _ EY). rewrite rsum_plus, rsum_scal. destruct (masked p t nn). { rewrite rsum_zero. ring. } rewrite rsum_plus, !rsum_scal, Z1, Z2. ring.
Qed.

(** Levels above the first are not computed: the output is filled with -1e20. *)
Theorem C58_levels_lost : forall p T O outs q k n, wf Monotone p T O -> same_width T -> tame p T O -> p_target p = false -> p_missing p = None ->
  do_scalar Monotone p T O = Ok outs -> (0 <= q < zlen O)%Z -> (1 <= k < p_nz p)%Z -> (0 <= n < o_nx (otile_at O q) * o_ny (otile_at O q))%Z ->
  out_at O outs q k n = - 10 ^ 20.
Proof.
  intros p T O outs q k n HW HS HT Et Em E Hq Hk Hn. destruct (mono_run p T O HW HS HT Et) as (outs' & E' & _ & s & H). rewrite E in E'. injection E' as <-.
  destruct (H q Hq) as (_ & _ & HO). rewrite HO by (auto; lia). set (o := otile_at O q) in *.
  assert (HI : In o O) by (apply otile_in; auto). destruct HW as (_ & Hz & _ & HWO). destruct (HWO o HI) as (_ & _ & _ & HX).
  assert (U : used Monotone p T o (k * (o_nx o * o_ny o) + n) = []).
  { unfold used, over. rewrite filter_filter. destruct (filter _ (o_xgrid o)) as [|c l] eqn:Ef; auto. exfalso. assert (Hc : In c (filter (fun x => (dst_cell o x =? k * (o_nx o * o_ny o) + n)%Z && valid p (in_value Monotone T x 0)) (o_xgrid o))) by (rewrite Ef; now left).
    apply filter_In in Hc. destruct Hc as (Hc & B). apply andb_prop in B. destruct B as (B & _). apply Z.eqb_eq in B. pose proof (dst_range T o c (HX c Hc)). nia. }
  unfold mono_value, weight_on. rewrite U. cbn [rsum fold_right]. assert (Es : p_sum p = false) by (apply Hz; lia). rewrite Es. cbv zeta. destruct (Rlt_dec 0 _) as [P|P]; [exfalso; cbn in P; lra|]. unfold fill. rewrite Em. reflexivity.
Qed.

(** ** The two conditions are needed *)
(** One input cell of area 3 and mean 0 between neighbours 1 and -1, with slope 2; pieces at +1 (area 2)
    and -2 (area 1). *)
Local Ltac ev := cbn; change (Pos.to_nat 1) with 1%nat; change (Pos.to_nat 4) with 4%nat; cbn.
Local Definition mt : tile := MkTile 1 1 [3] [] [1; 0; 0; 0; 0; 0; 0; 0; -1] [] [2] [0] [0%Z].
Local Definition c1 : xc := MkXc 0 0 0 0 0 2 1 0.
Local Definition c2 : xc := MkXc 0 0 0 1 0 1 (-2) 0.
Local Definition c2' : xc := MkXc 0 0 0 0 0 1 (-2) 0.
Local Definition one_out : list otile := [MkOtile 2 1 [2; 1] [c1; c2]].
Local Definition two_out : list otile := [MkOtile 1 1 [2] [c1]; MkOtile 1 1 [1] [c2']].
Local Definition mp : opts := ex_opts None false.
Local Lemma big : 100 < 10 ^ 20.
Proof. assert (H : 10 ^ 2 < 10 ^ 20) by (apply Rlt_pow; [lra|lia]). lra. Qed.
Local Lemma mwf O : O = one_out \/ O = two_out -> wf Monotone mp [mt] O.
Proof.
  intros HO. split; [cbn; lia|]. split; [cbn; lia|]. split.
  - intros t [<-|[]]. repeat split; cbn; auto; discriminate.
  - destruct HO as [-> | ->]; intros o Ho; cbn in Ho; repeat (destruct Ho as [<-|Ho]); try contradiction; (split; [cbn; lia|]; split; [cbn; lia|]; split; [reflexivity|]); cbn; intros c Hc; repeat (destruct Hc as [<-|Hc]); try contradiction; repeat split; cbn; lia.
Qed.
Local Lemma mwidth : same_width [mt]. Proof. intros t t' [<-|[]] [<-|[]]. reflexivity. Qed.
Local Lemma mval : x_value Monotone mp [mt] c1 0 = 2 /\ x_value Monotone mp [mt] c2 0 = -4 /\ x_value Monotone mp [mt] c2' 0 = -4.
Proof. unfold x_value, in_value, cell_mean, at_, src. ev. repeat split; lra. Qed.
Local Lemma mmean c : In c [c1; c2; c2'] -> in_value Monotone [mt] c 0 = 0 /\ src_cell [mt] c = 0%Z /\ x_t c = 0%Z.
Proof. intros [<-|[<-|[<-|[]]]]; repeat split. Qed.
Local Lemma mtame O : O = one_out \/ O = two_out -> tame mp [mt] O.
Proof.
  intros HO. pose proof big. split; [|split].
  - intros t v [<-|[]] Hv _. cbn in Hv. repeat (destruct Hv as [<-|Hv]; [lra|]). contradiction.
  - intros c Hc _. assert (Hin : In c [c1; c2; c2']). { destruct HO as [-> | ->]; cbn in Hc |- *; intuition. }
    destruct (mmean c Hin) as (E0 & _). rewrite E0. destruct mval as (A & B & D). change (fill mp) with (- (10 ^ 20)). destruct Hin as [<-|[<-|[<-|[]]]]; rewrite ?A, ?B, ?D; (split; [lra|left; lra]).
  - intros _ t g [<-|[]] Hg. cbn in Hg. intuition.
Qed.
Local Lemma mnonneg O : O = one_out \/ O = two_out -> nonneg mp [mt] O.
Proof.
  intros HO. split.
  - intros c Hc. assert (Hin : In c [c1; c2; c2']). { destruct HO as [-> | ->]; cbn in Hc |- *; intuition. } destruct Hin as [<-|[<-|[<-|[]]]]; unfold x_weight, per_area; cbn; lra.
  - intros q j i (Hq & Hj & Hi). unfold zlen in Hq. cbn in Hq. assert (q = 0%Z) by lia. subst q. unfold tile_at in *. cbn in Hi, Hj. assert (i = 0%Z) by lia. assert (j = 0%Z) by lia. subst. unfold cell_area, tile_at, at_. cbn. apply Rgt_not_eq. lra.
Qed.
Local Lemma mcover O : O = one_out \/ O = two_out -> complete [mt] O /\ centred [mt] O.
Proof.
  intros HO. split; intros q j i (Hq & Hj & Hi); unfold zlen in Hq; cbn in Hq; (assert (q = 0%Z) by lia); subst q; unfold tile_at in *; cbn in Hi, Hj; (assert (i = 0%Z) by lia); (assert (j = 0%Z) by lia); subst i j;
    (destruct HO as [-> | ->]; unfold cell_area, tile_at, at_; cbn; try (split; lra); lra).
Qed.
Local Lemma mneigh c v : In c [c1; c2; c2'] -> neighbour mp [mt] c v -> v = 1 \/ v = 0 \/ v = -1.
Proof.
  intros Hin (dj & di & Hdj & Hdi & -> & _). assert (E : x_j c = 0%Z /\ x_i c = 0%Z /\ src [mt] c = mt) by (destruct Hin as [<-|[<-|[<-|[]]]]; repeat split). destruct E as (-> & -> & ->).
  assert (Dj : dj = (-1)%Z \/ dj = 0%Z \/ dj = 1%Z) by lia. assert (Di : di = (-1)%Z \/ di = 0%Z \/ di = 1%Z) by lia.
  destruct Dj as [-> | [-> | ->]]; destruct Di as [-> | [-> | ->]]; cbn; auto.
Qed.
Local Lemma mtop c : In c [c1; c2; c2'] -> neighbour mp [mt] c 1.
Proof. intros Hin. exists (-1)%Z, (-1)%Z. destruct Hin as [<-|[<-|[<-|[]]]]; repeat split; lia. Qed.
Local Lemma mbot c : In c [c1; c2; c2'] -> neighbour mp [mt] c (-1).
Proof. intros Hin. exists 1%Z, 1%Z. destruct Hin as [<-|[<-|[<-|[]]]]; repeat split; lia. Qed.

(** An input cell with pieces on both sides: only the upper bound is enforced. *)
Theorem C58_lower_refuted : ~ (forall p T O outs q n lo, wf Monotone p T O -> same_width T -> tame p T O -> p_target p = false -> p_sum p = false -> nonneg p T O ->
  do_scalar Monotone p T O = Ok outs -> (0 <= q < zlen O)%Z -> (0 <= n < o_nx (otile_at O q) * o_ny (otile_at O q))%Z ->
  0 < weight_on Monotone p T (otile_at O q) n ->
  (forall c v, In c (used Monotone p T (otile_at O q) n) -> neighbour p T c v -> lo <= v) ->
  lo <= out_at O outs q 0 n).
Proof.
  intros C. destruct (mono_run mp [mt] one_out (mwf _ (or_introl eq_refl)) mwidth (mtame _ (or_introl eq_refl)) eq_refl) as (outs & E & _ & s & H).
  assert (Hq : (0 <= 0 < zlen one_out)%Z) by (unfold zlen; cbn; lia).
  assert (U : used Monotone mp [mt] (otile_at one_out 0) 1 = [c2]) by reflexivity.
  specialize (C mp [mt] one_out outs 0%Z 1%Z (-1) (mwf _ (or_introl eq_refl)) mwidth (mtame _ (or_introl eq_refl)) eq_refl eq_refl (mnonneg _ (or_introl eq_refl)) E Hq ltac:(cbn; lia)).
  unfold weight_on in C. rewrite U in C.
  assert (HC : -1 <= out_at one_out outs 0 0 1). { apply C. - cbn. unfold x_weight, per_area. cbn. lra. - intros c v [<-|[]] HN. apply mneigh in HN; [|cbn; auto]. destruct HN as [-> | [-> | ->]]; lra. } clear C.
  destruct (H 0%Z Hq) as (HL & _ & HO). rewrite HO in HC by (cbn; lia). change (0 * _ + 1)%Z with 1%Z in HC. unfold mono_value, weight_on in HC. rewrite U in HC. cbn [rsum fold_right p_sum mp ex_opts] in HC. cbv zeta in HC.
  destruct (HL c2 ltac:(cbn; auto) eq_refl) as (_ & _ & _ & _ & X & _). destruct mval as (A & B & _).
  specialize (X 1 c1 (mtop c2 ltac:(cbn; auto)) ltac:(intros v HN; apply mneigh in HN; [|cbn; auto]; destruct HN as [-> | [-> | ->]]; lra) ltac:(cbn; auto) ltac:(repeat split) ltac:(intros c [<-|[<-|[]]] _; rewrite ?A, ?B; lra) ltac:(rewrite A; lra)).
  destruct (mmean c2 ltac:(cbn; auto)) as (E0 & E1 & E2). rewrite A, E0, E1, E2 in X. unfold y_of in HC. rewrite B, E0, E1, E2 in HC.
  replace (x_weight mp [mt] c2) with 1 in HC by (unfold x_weight, per_area; cbn; lra). destruct (Rlt_dec 0 (1 + 0)) as [P|P]; [|lra]. change (s 0%Z 0%Z 0%Z * (2 - 0) = 1 - 0) in X. assert (s 0%Z 0%Z 0%Z = 1 / 2) by lra. rewrite H0 in HC. lra.
Qed.
(** Two output tiles: each is limited by itself and the field is not conserved. *)
Theorem C58_conserved_refuted : ~ (forall p T O outs, wf Monotone p T O -> same_width T -> tame p T O -> p_target p = false -> p_sum p = false -> nonneg p T O ->
  complete T O -> centred T O -> do_scalar Monotone p T O = Ok outs ->
  out_sum O (fun q n => out_at O outs q 0 n * weight_on Monotone p T (otile_at O q) n) = in_total Monotone p T 0).
Proof.
  intros C. set (W := mwf two_out (or_intror eq_refl)). destruct (mcover two_out (or_intror eq_refl)) as (K1 & K2).
  destruct (mono_run mp [mt] two_out W mwidth (mtame _ (or_intror eq_refl)) eq_refl) as (outs & E & _ & s & H).
  specialize (C mp [mt] two_out outs W mwidth (mtame _ (or_intror eq_refl)) eq_refl eq_refl (mnonneg _ (or_intror eq_refl)) K1 K2 E).
  destruct mval as (A & _ & B).
  assert (U0 : used Monotone mp [mt] (otile_at two_out 0) 0 = [c1]) by reflexivity. assert (U1 : used Monotone mp [mt] (otile_at two_out 1) 0 = [c2']) by reflexivity.
  destruct (H 0%Z ltac:(unfold zlen; cbn; lia)) as (L0 & _ & O0). destruct (H 1%Z ltac:(unfold zlen; cbn; lia)) as (L1 & _ & O1).
  specialize (O0 0%Z 0%Z ltac:(cbn; lia) ltac:(cbn; lia)). specialize (O1 0%Z 0%Z ltac:(cbn; lia) ltac:(change (otile_at two_out 1) with (MkOtile 1 1 [1] [c2']); cbn; lia)). change (0 * _ + 0)%Z with 0%Z in O0, O1.
  destruct (L0 c1 ltac:(cbn; auto) eq_refl) as (_ & _ & _ & _ & X & _).
  specialize (X 1 c1 (mtop c1 ltac:(cbn; auto)) ltac:(intros v HN; apply mneigh in HN; [|cbn; auto]; destruct HN as [-> | [-> | ->]]; lra) ltac:(cbn; auto) ltac:(repeat split) ltac:(intros c [<-|[]] _; lra) ltac:(rewrite A; lra)).
  destruct (mmean c1 ltac:(cbn; auto)) as (E0 & E1 & E2). rewrite A, E0, E1, E2 in X.
  destruct (mmean c2' ltac:(cbn; auto)) as (F0 & F1 & F2). change (otile_at two_out 1) with (MkOtile 1 1 [1] [c2']) in L1.
  destruct (L1 c2' ltac:(cbn; auto) eq_refl) as (_ & _ & _ & _ & _ & Y).
  specialize (Y (-1) c2').
  assert (NO : ~ overshoots mp [mt] (MkOtile 1 1 [1] [c2']) c2').
  { intros (c & [<-|[]] & _ & HN). specialize (HN 1 (mtop c2' ltac:(cbn; auto))). lra. }
  specialize (Y NO (mbot c2' ltac:(cbn; auto)) ltac:(intros v HN; apply mneigh in HN; [|cbn; auto]; destruct HN as [-> | [-> | ->]]; lra) ltac:(cbn; auto) ltac:(repeat split) ltac:(intros c [<-|[]] _; lra) ltac:(rewrite B; lra)).
  rewrite B, F0, F1, F2 in Y.
  unfold out_sum in C. change (zseq 0 (zlen two_out)) with [0%Z; 1%Z] in C. rewrite !rsum_cons, rsum_nil in C.
  change (zseq 0 (o_nx (otile_at two_out 0) * o_ny (otile_at two_out 0))) with [0%Z] in C. change (zseq 0 (o_nx (otile_at two_out 1) * o_ny (otile_at two_out 1))) with [0%Z] in C. rewrite !rsum_cons, !rsum_nil in C.
  rewrite O0, O1 in C. unfold mono_value, weight_on in C. rewrite U0, U1 in C. cbn [rsum fold_right p_sum mp ex_opts] in C. cbv zeta in C. unfold y_of in C. rewrite A, B, E0, E1, E2, F0, F1, F2 in C.
  replace (x_weight mp [mt] c2') with 1 in C by (unfold x_weight, per_area; cbn; lra). replace (x_weight mp [mt] c1) with 2 in C by (unfold x_weight, per_area; cbn; lra).
  destruct (Rlt_dec 0 (2 + 0)) as [P|P]; [|lra]. destruct (Rlt_dec 0 (1 + 0)) as [P'|P']; [|lra].
  assert (IT : in_total Monotone mp [mt] 0 = 0). { change (in_total Monotone mp [mt] 0) with (0 * 1 * 3 + 0 + 0 + 0). lra. }
  rewrite IT in C. set (a := s 0%Z 0%Z 0%Z) in *. set (b := s 1%Z 0%Z 0%Z) in *. assert (a = 1 / 2) by lra. assert (b = 1 / 4) by lra. rewrite H0, H1 in C. lra.
Qed.

(** The cell of the refutations meets every hypothesis of [C58_upper] and [C58_conserved]; the limiter
    halves the slope. *)
Example C58_example :
  wf Monotone mp [mt] one_out /\ same_width [mt] /\ tame mp [mt] one_out /\ nonneg mp [mt] one_out /\ complete [mt] one_out /\ centred [mt] one_out
  /\ exists outs, do_scalar Monotone mp [mt] one_out = Ok outs /\ out_at one_out outs 0 0 0 = 1 /\ out_at one_out outs 0 0 1 = -2.
Proof.
  pose (I := @or_introl (one_out = one_out) (one_out = two_out) eq_refl). destruct (mcover one_out I) as (K1 & K2).
  split; [exact (mwf _ I)|]. split; [exact mwidth|]. split; [exact (mtame _ I)|]. split; [exact (mnonneg _ I)|]. split; auto. split; auto.
  destruct (mono_run mp [mt] one_out (mwf _ I) mwidth (mtame _ I) eq_refl) as (outs & E & _ & s & H). exists outs. split; auto.
  destruct (H 0%Z ltac:(unfold zlen; cbn; lia)) as (HL & _ & HO). rewrite !HO by (cbn; lia). change (0 * _ + 1)%Z with 1%Z. change (0 * _ + 0)%Z with 0%Z. destruct mval as (A & B & _).
  assert (U0 : used Monotone mp [mt] (otile_at one_out 0) 0 = [c1]) by reflexivity. assert (U1 : used Monotone mp [mt] (otile_at one_out 0) 1 = [c2]) by reflexivity.
  unfold mono_value, weight_on. rewrite U0, U1. cbn [rsum fold_right p_sum mp ex_opts]. cbv zeta. unfold y_of.
  destruct (HL c1 ltac:(cbn; auto) eq_refl) as (_ & _ & _ & _ & X & _).
  specialize (X 1 c1 (mtop c1 ltac:(cbn; auto)) ltac:(intros v HN; apply mneigh in HN; [|cbn; auto]; destruct HN as [-> | [-> | ->]]; lra) ltac:(cbn; auto) ltac:(repeat split) ltac:(intros c [<-|[<-|[]]] _; rewrite ?A, ?B; lra) ltac:(rewrite A; lra)).
  destruct (mmean c1 ltac:(cbn; auto)) as (E0 & E1 & E2). destruct (mmean c2 ltac:(cbn; auto)) as (F0 & F1 & F2). rewrite A, E0, E1, E2 in X. rewrite A, B, E0, E1, E2, F0, F1, F2.
  replace (x_weight mp [mt] c2) with 1 by (unfold x_weight, per_area; cbn; lra). replace (x_weight mp [mt] c1) with 2 by (unfold x_weight, per_area; cbn; lra).
  destruct (Rlt_dec 0 (2 + 0)) as [P|P]; [|lra]. destruct (Rlt_dec 0 (1 + 0)) as [P'|P']; [|lra]. set (a := s 0%Z 0%Z 0%Z) in *. assert (a = 1 / 2) by lra. rewrite H0. split; field.
Qed.
(** With the lower neighbour at -9 only the upper side is violated: [C58_lower] applies too.  In the
    second tile of the same output no piece is outside and [C58_inactive] applies. *)
Example C58_example_lower :
  let t := MkTile 1 1 [3] [] [1; 0; 0; 0; 0; 0; 0; 0; -9] [] [2] [0] [0%Z] in
  (forall c, In c [c1; c2] -> ~ (overshoots mp [t] (otile_at one_out 0) c /\ undershoots mp [t] (otile_at one_out 0) c))
  /\ (exists c, In c [c1; c2] /\ overshoots mp [t] (otile_at one_out 0) c)
  /\ ~ overshoots mp [t] (otile_at two_out 1) c2' /\ ~ undershoots mp [t] (otile_at two_out 1) c2'.
Proof.
  cbv zeta. set (t := MkTile _ _ _ _ _ _ _ _ _).
  assert (V1 : x_value Monotone mp [t] c1 0 = 2 /\ x_value Monotone mp [t] c2 0 = -4 /\ x_value Monotone mp [t] c2' 0 = -4) by (unfold x_value, in_value, cell_mean, at_, src; ev; repeat split; lra).
  destruct V1 as (A & B & D).
  assert (Hn : forall c, In c [c1; c2; c2'] -> neighbour mp [t] c (-9) /\ neighbour mp [t] c 1).
  { intros c Hin. split; [exists 1%Z, 1%Z | exists (-1)%Z, (-1)%Z]; destruct Hin as [<-|[<-|[<-|[]]]]; repeat split; lia. }
  split; [|split; [|split]].
  - intros c Hc (_ & c' & [<-|[<-|[]]] & _ & HN); destruct (Hn c ltac:(cbn in *; intuition)) as (H9 & _); specialize (HN _ H9); rewrite ?A, ?B in HN; lra.
  - exists c1. split; [cbn; auto|]. exists c1. split; [cbn; auto|]. split; [repeat split|]. intros v (dj & di & Hdj & Hdi & Ev & _). rewrite A. assert (E3 : v = 1 \/ v = 0 \/ v = -9); [|destruct E3 as [-> | [-> | ->]]; lra]. subst v.
    assert (Dj : dj = (-1)%Z \/ dj = 0%Z \/ dj = 1%Z) by lia. assert (Di : di = (-1)%Z \/ di = 0%Z \/ di = 1%Z) by lia.
    destruct Dj as [-> | [-> | ->]]; destruct Di as [-> | [-> | ->]]; cbn; auto.
  - intros (c' & [<-|[]] & _ & HN). destruct (Hn c2' ltac:(cbn; auto)) as (_ & H1). specialize (HN _ H1). rewrite D in HN. lra.
  - intros (c' & [<-|[]] & _ & HN). destruct (Hn c2' ltac:(cbn; auto)) as (H9 & _). specialize (HN _ H9). rewrite D in HN. lra.
Qed.
Print Assumptions C58_runs.
Print Assumptions C58_upper.
Print Assumptions C58_lower.
Print Assumptions C58_inactive.
Print Assumptions C58_conserved.
Print Assumptions C58_levels_lost.
Print Assumptions C58_lower_refuted.
Print Assumptions C58_conserved_refuted.
