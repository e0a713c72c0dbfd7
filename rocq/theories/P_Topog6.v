(** * process_topo: the results seen by the processors *)
From Coq Require Import Lra Lia.
From Verif Require Import Base Loops Grid2 Vec M_Interp M_Runoff M_Topog Spec_Interp Spec_Topog P_Interp P_Runoff P_Topog P_Topog2 P_Topog3 P_Topog4 P_Topog5.
Local Open Scope Z_scope.

Section results.
Variables (ni nj : Z) (zw : list R) (o : options) (tmp : list R) (D : Z -> Z -> R).
Hypothesis (Hi : 1 <= ni) (Hj : 1 <= nj) (Hv : vertical_grid zw) (Ht : fields tmp ni nj D).
Let nk := zlen zw.

Definition fitted : Prop := o_adjust o = true -> o_kmt_min o <= nk /\ one_rule o.
Hypothesis (Hopt : fitted).

Lemma fitted_flags : o_adjust o = true -> o_kmt_min o <= nk /\ o_deepen o && o_fill o = false /\ o_round o && (o_deepen o || o_fill o) = false.
Proof. intros A. destruct (Hopt A) as (K & R). split; auto. unfold one_rule, Z.b2z in R. destruct (o_round o), (o_fill o), (o_deepen o); auto; lia. Qed.

Lemma gives_cells : gives ni nj zw o tmp (fun x y => fst (cell2 ni nj nk zw o D x y)) (fun x y => snd (cell2 ni nj nk zw o D x y) + 1).
Proof.
  destruct Hv as (V1 & V2 & V3). intros isc iec jsc jec A1 A2 A3 A4.
  apply (process_run ni nj nk zw o D Hi Hj eq_refl V1 (inc_nd zw nk eq_refl V2) fitted_flags tmp isc iec jsc jec); auto.
  - intros x y. apply (okc_lv ni nj nk zw o D eq_refl V1). now apply lv_cell1.
  - intros x y. apply (okc_restrict ni nj nk zw o D eq_refl V1). now apply lv_cell1.
Qed.

Lemma gives_unique H N : gives ni nj zw o tmp H N -> forall x y, 0 <= x < ni -> 0 <= y < nj ->
  H x y = fst (cell2 ni nj nk zw o D x y) /\ N x y = snd (cell2 ni nj nk zw o D x y) + 1.
Proof.
  intros G x y Rx Ry. destruct (G x x y y ltac:(lia) ltac:(lia) ltac:(lia) ltac:(lia)) as (d & l & E & Hd & Hl).
  destruct (gives_cells x x y y ltac:(lia) ltac:(lia) ltac:(lia) ltac:(lia)) as (d' & l' & E' & Hd' & Hl'). rewrite E in E'. injection E' as <- <-.
  destruct Hd as [_ Hd], Hl as [_ Hl], Hd' as [_ Hd'], Hl' as [_ Hl'].
  specialize (Hd 0 0 ltac:(lia) ltac:(lia)). specialize (Hl 0 0 ltac:(lia) ltac:(lia)). specialize (Hd' 0 0 ltac:(lia) ltac:(lia)). specialize (Hl' 0 0 ltac:(lia) ltac:(lia)). cbv beta in *.
  rewrite Hd in Hd'. rewrite Hl in Hl'. rewrite !Z.add_0_r in *. injection Hd' as ->. split; auto. congruence.
Qed.

Lemma thin_pmin : o_adjust o = true -> thickness_ok zw o -> thin_ok zw nk o.
Proof.
  intros _ T k Rk. specialize (T (k + 1) ltac:(unfold nk in *; lia)). unfold thin_limit in T. unfold pmin. replace (k + 1 - 1) with k in T by lia. replace (k + 1 - 2) with (k - 1) in T by lia. exact T.
Qed.
Lemma limit_pmin n : pmin zw o (n - 1) = thin_limit zw (o_min_thickness o) (o_fraction o) n.
Proof. unfold pmin, thin_limit. now replace (n - 1 - 1) with (n - 2) by lia. Qed.

Let c1 := cell1 ni nj nk zw o D.
Let c2 := cell2 ni nj nk zw o D.

Lemma lv_cell2 x y : (o_adjust o = true -> thickness_ok zw o) -> lvc zw (c2 x y).
Proof.
  destruct Hv as (V1 & V2 & V3). intros T. unfold c2, cell2. destruct (o_adjust o) eqn:EA; [|now apply lv_cell1].
  apply (lv_shallow zw nk); auto. { now apply Hopt. } apply (lv_restrict zw nk); auto. { now apply thin_pmin; auto. } now apply lv_cell1.
Qed.

Lemma c2_adjusted x y : o_adjust o = true -> thickness_ok zw o -> c2 x y = shallow_fun zw o (restrict_fun zw o (c1 x y)) /\ lvc zw (c1 x y) /\ lvc zw (restrict_fun zw o (c1 x y)).
Proof.
  destruct Hv as (V1 & V2 & V3). intros A T. unfold c2, cell2. rewrite A. split; auto. split; [now apply lv_cell1|].
  apply (lv_restrict zw nk); auto. { now apply thin_pmin; auto. } now apply lv_cell1.
Qed.

Lemma c2_land x y : 0 <= x < ni -> 0 <= y < nj -> (D x y <= 0)%R -> c2 x y = (D x y, -1).
Proof.
  destruct Hv as (V1 & V2 & V3). intros Rx Ry L. pose proof (cell0_land nk zw o D x y L) as E0.
  assert (E1 : c1 x y = (D x y, -1)). { unfold c1. rewrite (cell1_land ni nj nk zw o D eq_refl V1 V2 V3 x y Rx Ry); auto. now rewrite E0. }
  unfold c2, cell2. fold c1. rewrite E1. destruct (o_adjust o); auto. unfold restrict_fun. cbn. destruct (rlt_spec 0 (D x y)); [lra|]. reflexivity.
Qed.

Lemma restrict_open_level c : o_open_thin o = true -> snd (restrict_fun zw o c) = snd c.
Proof. destruct c as (h, k). intros E. unfold restrict_fun. destruct (0 <? k); auto. destruct (rlt _ _); auto. now rewrite E. Qed.

Lemma restrict_mask c : 0 <= snd c -> 0 <= snd (restrict_fun zw o c).
Proof. destruct c as (h, k). cbn [snd]. intros P. unfold restrict_fun. destruct (Z.ltb_spec 0 k); auto. destruct (rlt _ _); auto. destruct (o_open_thin o); auto. destruct (rlt _ _); cbn [snd]; lia. Qed.

Lemma level_open x y : o_adjust o = true -> thickness_ok zw o -> o_open_thin o = true -> snd (c2 x y) = raise zw o (snd (c1 x y)).
Proof.
  destruct Hv as (V1 & V2 & V3). intros A T O. destruct (c2_adjusted x y A T) as (-> & L1 & L2). rewrite (raise_shallow zw nk eq_refl V1); auto. now rewrite restrict_open_level.
Qed.

Lemma around_c2 x y : 0 <= snd (world ni nj o c1 x y) -> o_adjust o = true -> thickness_ok zw o -> o_open_thin o = true ->
  around ni nj (o_tripolar o) (o_cyclic_x o) (o_cyclic_y o) (fun x y => snd (c2 x y) + 1) x y = raise zw o (snd (world ni nj o c1 x y)) + 1.
Proof.
  intros P A T O. unfold around, world in *. destruct (place ni nj _ _ _ x y) as [(a, b)|]; [|cbn in P; lia]. now rewrite level_open.
Qed.

Theorem supported_run x y : o_adjust o = true -> thickness_ok zw o -> o_open_thin o = true -> o_fill_isolated o = true ->
  0 <= x < ni -> 0 <= y < nj -> y < (if o_tripolar o then nj - 1 else nj) -> 0 <= snd (c2 x y) ->
  let N := fun x y => snd (c2 x y) + 1 in let W := around ni nj (o_tripolar o) (o_cyclic_x o) (o_cyclic_y o) N in
  supported W x y (N x y) \/ (o_keep_mask o = true /\ ~ supported W x y 1).
Proof.
  destruct Hv as (V1 & V2 & V3). intros A T O F Rx Ry Ly P N W. pose proof (lv_cell1 ni nj nk zw o D eq_refl V1 V2 V3 x y) as L1. destruct (lv_range zw nk eq_refl V1 _ _ L1) as (R1 & _). fold c1 in R1.
  assert (Km : o_kmt_min o <= nk) by now apply Hopt.
  assert (P1 : 0 <= snd (c1 x y)).
  { destruct (Z.eq_dec (snd (c1 x y)) (-1)) as [E|]; [|lia]. rewrite level_open in P by auto. rewrite E, raise_neg in P. lia. }
  assert (EN : N x y = raise zw o (snd (c1 x y)) + 1) by (unfold N; now rewrite level_open).
  assert (RW : forall p q, -1 <= snd (world ni nj o c1 p q) < nk).
  { intros p q. pose proof (lv_world ni nj nk zw o eq_refl c1 (lv_cell1 ni nj nk zw o D eq_refl V1 V2 V3) p q) as L. destruct (lv_range zw nk eq_refl V1 _ _ L) as (R & _). exact R. }
  destruct (c1_supported ni nj nk zw o D Hi Hj eq_refl V1 V2 V3 A F x y Rx Ry Ly P1) as [(K & Q)|(sx & sy & Hsx & Hsy & B1 & B2 & B3)].
  - right. split; auto. intros (sx & sy & Hsx & Hsy & B1 & B2 & B3). apply (Q sx sy Hsx Hsy). fold c1.
    assert (Up : forall p q, 1 <= W p q -> 0 <= snd (world ni nj o c1 p q)).
    { intros p q B. destruct (Z_lt_le_dec (snd (world ni nj o c1 p q)) 0) as [Neg|]; auto. exfalso. pose proof (RW p q) as R.
      unfold W, around, world in *. destruct (place ni nj _ _ _ p q) as [(a, b)|]; [|lia]. unfold N in B. rewrite level_open in B by auto. replace (snd (c1 a b)) with (-1) in B by lia. rewrite raise_neg in B. lia. }
    auto.
  - left. fold c1 in B1, B2, B3. exists sx, sy. split; auto. split; auto. rewrite EN.
    assert (Up : forall p q, snd (c1 x y) <= snd (world ni nj o c1 p q) -> raise zw o (snd (c1 x y)) + 1 <= W p q).
    { intros p q B. unfold W, N. rewrite around_c2 by (auto; lia). pose proof (RW p q). pose proof (raise_mono zw nk eq_refl V2 o (snd (c1 x y)) (snd (world ni nj o c1 p q)) Km ltac:(lia) B ltac:(lia)). lia. }
    unfold corner_open. auto.
Qed.
Theorem floor_run x y : o_kmt_min o <= 1 -> o_adjust o = true -> thickness_ok zw o -> o_open_thin o = true -> o_fill_isolated o = true ->
  0 <= x < ni -> 0 <= y < nj -> y < (if o_tripolar o then nj - 1 else nj) ->
  let N0 := fun x y => snd (cell0 nk zw o D x y) + 1 in let W0 := around ni nj (o_tripolar o) (o_cyclic_x o) (o_cyclic_y o) N0 in
  let n := snd (c2 x y) + 1 in
  n <= N0 x y
  /\ ((supported W0 x y n /\ forall n', n' <= N0 x y -> supported W0 x y n' -> n' <= n) \/ (o_keep_mask o = true /\ n = N0 x y /\ ~ supported W0 x y 1)).
Proof.
  destruct Hv as (V1 & V2 & V3). intros Km A T O F Rx Ry Ly N0 W0 n. set (c0 := cell0 nk zw o D) in *.
  assert (EW : forall p q, W0 p q = ks (world ni nj o c0) p q + 1).
  { intros p q. unfold W0, around, ks, world, N0. destruct (place ni nj _ _ _ p q) as [(a, b)|]; auto. }
  assert (Er : forall k, raise zw o k = k). { intros k. unfold raise. destruct (Z.leb_spec 0 k), (Z.ltb_spec k (o_kmt_min o - 1)); auto; lia. }
  assert (En : n = snd (c1 x y) + 1) by (unfold n; rewrite level_open, Er; auto).
  assert (E0 : ks (world ni nj o c0) x y = snd (c0 x y)) by (unfold ks; now rewrite world_in).
  assert (S : forall m, supported W0 x y m <-> open_at (ks (world ni nj o c0)) x y (m - 1)).
  { intros m. unfold supported, corner_open, open_at. split; intros (sx & sy & Hsx & Hsy & B1 & B2 & B3); exists sx, sy; rewrite ?EW in *; (split; [auto|]; split; [auto|]); lia. }
  destruct (c1_value ni nj nk zw o D eq_refl V1 V2 V3 A F x y Rx Ry Ly) as [(K & E1 & E2)|E1]; [fold c0 c1 in E1, E2|fold c0 c1 in E1].
  - split; [unfold N0; lia|]. destruct (Z_lt_le_dec (snd (c0 x y)) 0) as [Neg|Pos].
    + left. pose proof (fun p q => K0_range ni nj nk zw o D eq_refl V1 V2 V3 p q) as R. fold c0 in R. pose proof (R x y). split.
      * apply S. exists 1, 1. split; auto. split; auto. pose proof (R (x + 1) y). pose proof (R x (y + 1)). pose proof (R (x + 1) (y + 1)). lia.
      * intros n' L _. unfold N0 in L. lia.
    + right. split; auto. split; [unfold N0; lia|]. intros Q. apply S in Q.
      pose proof (open_kmx ni nj nk zw o D A F x y (1 - 1) ltac:(fold c0; lia) Q) as B. fold c0 in B. lia.
  - pose proof (kmx_le (ks (world ni nj o c0)) x y). split; [unfold N0; lia|]. left. split.
    + apply S. replace (n - 1) with (snd (c1 x y)) by lia. rewrite E1. apply (kmx_open ni nj nk zw o D A F x y).
    + intros n' L Q. apply S in Q. pose proof (open_kmx ni nj nk zw o D A F x y (n' - 1) ltac:(fold c0; unfold N0 in L; lia) Q) as B. fold c0 in B. lia.
Qed.
End results.

(** The levels without adjustment. *)
Lemma cell2_unadjusted ni nj nk zw o D x y : cell2 ni nj nk zw (unadjusted o) D x y = cell0 nk zw o D x y.
Proof. reflexivity. Qed.

(** ** Cells before the adjustment *)
Section before.
Variables (zw : list R) (o : options).
Local Notation nk := (zlen zw).
Hypothesis (V1 : 2 <= nk) (V2 : increasing zw) (V3 : (0 < at_ zw 0)%R).

Lemma level_depth h : (0 < h)%R -> let c := level_fun nk zw o (h, -1) in
  fst c = h \/ (at_ zw (nk - 1) < h)%R /\ fst c = at_ zw (nk - 1)
  \/ exists k, 0 <= k < nk /\ fst c = at_ zw k /\ (at_ zw k < h < at_ zw k + o_min_thickness o)%R.
Proof.
  intros P c. unfold c, level_fun. cbn [fst]. destruct (rlt_spec 0 h); [|lra].
  destruct (nearest_ok nk zw eq_refl V1 (inc_nd zw nk eq_refl V2) h) as (k & -> & Rk).
  destruct (rlt_spec (at_ zw k) h) as [G|G]; [|now left]. destruct (rlt_spec (h - at_ zw k) (o_min_thickness o)) as [M|M].
  { right. right. exists k. cbn. repeat split; auto; try lia; lra. }
  destruct (Z.eqb_spec k (nk - 1)) as [->|]; [right; left; cbn; auto|now left].
Qed.

Lemma level_wet h : (0 < h)%R -> (0 < fst (level_fun nk zw o (h, (-1)%Z)))%R.
Proof.
  intros P. destruct (level_depth h P) as [->|[(_ & ->)|(k & Rk & -> & _)]]; auto; apply (zw_pos zw nk eq_refl V2 V3); lia.
Qed.

(** A cell no deeper than the grid keeps its depth if min_thickness is 0. *)
Lemma level_plain h k : (0 < h)%R -> o_min_thickness o = 0%R -> layers zw h (k + 1) -> level_fun nk zw o (h, -1) = (h, k).
Proof.
  intros P M L. pose proof (lv_level zw nk eq_refl V1 V2 V3 o h) as L'.
  assert (E : fst (level_fun nk zw o (h, -1)) = h).
  { destruct (level_depth h P) as [->|[(G & _)|(j & _ & _ & G)]]; auto; [|lra].
    destruct (proj1 (lv_iff zw nk eq_refl h k) L) as [(A & _)|(A & B & C & E)]; [lra|]. pose proof (zw_le zw nk eq_refl V2 k (nk - 1) ltac:(lia) ltac:(lia)). lra. }
  unfold lvc in L'. rewrite E in L'.
  pose proof (lv_mono zw nk eq_refl V2 _ _ _ _ L L' (Rle_refl _)). pose proof (lv_mono zw nk eq_refl V2 _ _ _ _ L' L (Rle_refl _)).
  rewrite (surjective_pairing (level_fun nk zw o (h, -1))), E. f_equal. lia.
Qed.
End before.
