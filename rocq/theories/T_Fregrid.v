(** * Property C57: first- and second-order conservative regridding *)
From Coq Require Import Lra Psatz.
From Verif Require Import Base Loops Vec M_Interp M_Runoff P_Runoff M_Fregrid Spec_Fregrid P_Interp P_Interp2 P_Fregrid P_Fregrid2.
Local Open Scope R_scope.

(** Every output cell gets the weighted mean (or sum) of the valid values that overlap it, the
    missing value if there is none, and 0 if they have no weight. *)
Theorem C57_values : forall m p T O, m = Order1 \/ m = Order2 -> wf m p T O -> areas_known m p T O ->
  exists outs, do_scalar m p T O = Ok outs /\ zlen outs = zlen O
   /\ forall q, (0 <= q < zlen O)%Z -> zlen (nth (Z.to_nat q) outs []) = (o_nx (otile_at O q) * o_ny (otile_at O q) * p_nz p)%Z
   /\ forall k n, (0 <= k < p_nz p)%Z -> (0 <= n < o_nx (otile_at O q) * o_ny (otile_at O q))%Z ->
        out_at O outs q k n = remapped m p T (otile_at O q) k n.
Proof.
  intros m p T O Hm HW HA. destruct (do_scalar_run m p T O Hm HW HA) as (outs & E & F). exists outs. split; auto.
  apply (values_at (remapped m p T) p O outs F).
Qed.

(** A mean lies between the values it is made of; so a constant field stays constant. *)
Theorem C57_bounds : forall m p T O outs q k n lo hi, m = Order1 \/ m = Order2 -> wf m p T O -> areas_known m p T O ->
  p_sum p = false -> p_target p = false -> nonneg p T O -> do_scalar m p T O = Ok outs ->
  (0 <= q < zlen O)%Z -> (0 <= k < p_nz p)%Z -> (0 <= n < o_nx (otile_at O q) * o_ny (otile_at O q))%Z ->
  (forall c, In c (used m p T (otile_at O q) n) -> lo <= x_value m p T c k <= hi) ->
  0 < weight_on m p T (otile_at O q) n ->
  lo <= out_at O outs q k n <= hi.
Proof.
  intros m p T O outs q k n lo hi Hm HW HA Es Et (HN & _) E Hq Hk Hn HB HP.
  destruct (C57_values m p T O Hm HW HA) as (outs' & E' & _ & H). rewrite E in E'. injection E' as <-.
  destruct (H q Hq) as (_ & H1). rewrite H1 by auto. clear H H1. unfold remapped. rewrite Es, Et.
  destruct (used m p T (otile_at O q) n) as [|c l] eqn:Eu. { unfold weight_on in HP. rewrite Eu in HP. cbn in HP. lra. }
  destruct (Rlt_dec _ _); [|contradiction]. unfold total, weight_on in *. apply weighted_bounds; auto; rewrite Eu; auto.
  intros x Hx. apply HN. apply (used_in m p T O q n); auto. now rewrite Eu.
Qed.

(** Regridding a mean conserves it: summed over all output cells, value times the weight it was
    computed with is what the valid input cells hold. *)
Theorem C57_conserved : forall m p T O outs k, m = Order1 \/ (m = Order2 /\ centred T O) -> wf m p T O -> areas_known m p T O ->
  p_sum p = false -> p_target p = false -> nonneg p T O -> complete T O -> do_scalar m p T O = Ok outs -> (0 <= k < p_nz p)%Z ->
  out_sum O (fun q n => out_at O outs q k n * weight_on m p T (otile_at O q) n) = in_total m p T k.
Proof.
  intros m p T O outs k Hm HW HA Es Et (HN & HZ) HC E Hk.
  destruct (C57_values m p T O ltac:(tauto) HW HA) as (outs' & E' & _ & H). rewrite E in E'. injection E' as <-.
  rewrite <- (mean_total m p T O HW k Hk HC HZ) by tauto. apply out_sum_cells; auto.
  intros q n Hq Hn. destruct (H q Hq) as (_ & ->); auto. unfold remapped. rewrite Es, Et. fold (total m p T (otile_at O q) k n).
  destruct (used m p T (otile_at O q) n) as [|c l] eqn:Eu. { unfold total, weight_on. rewrite Eu. cbn. lra. }
  destruct (Rlt_dec _ _). { field. lra. }
  assert (W0 : 0 <= weight_on m p T (otile_at O q) n). { apply rsum_nonneg. intros x Hx. apply HN. apply (used_in m p T O q n); auto. }
  assert (W1 : rsum (x_weight p T) (used m p T (otile_at O q) n) = 0) by (unfold weight_on in *; lra).
  rewrite Rmult_0_l. unfold total. rewrite (rsum_ext _ (fun _ => 0)); [now rewrite rsum_zero|].
  intros x Hx. rewrite (rsum_eq0 (x_weight p T) (used m p T (otile_at O q) n)); auto; [lra|]. intros y Hy. apply HN. apply (used_in m p T O q n); auto.
Qed.

(** A field of sums: the output adds up to the input. *)
Theorem C57_conserved_sum : forall m p T O outs k, m = Order1 \/ (m = Order2 /\ centred T O) -> wf m p T O -> areas_known m p T O ->
  p_sum p = true -> nonneg p T O -> complete T O -> do_scalar m p T O = Ok outs -> (0 <= k < p_nz p)%Z ->
  out_sum O (fun q n => match used m p T (otile_at O q) n with [] => 0 | _ => out_at O outs q k n end) = in_total m p T k.
Proof.
  intros m p T O outs k Hm HW HA Es (HN & HZ) HC E Hk.
  destruct (C57_values m p T O ltac:(tauto) HW HA) as (outs' & E' & _ & H). rewrite E in E'. injection E' as <-.
  rewrite <- (mean_total m p T O HW k Hk HC HZ) by tauto. apply out_sum_cells; auto.
  intros q n Hq Hn. destruct (H q Hq) as (_ & ->); auto. unfold remapped. rewrite Es. fold (total m p T (otile_at O q) k n).
  destruct (used m p T (otile_at O q) n) as [|c l] eqn:Eu. { unfold total. rewrite Eu. reflexivity. }
  destruct (Req_EM_T _ 0) as [W1|]; auto. unfold weight_on in W1. symmetry.
  unfold total. rewrite (rsum_ext _ (fun _ => 0)); [now rewrite rsum_zero|].
  intros x Hx. rewrite (rsum_eq0 (x_weight p T) (used m p T (otile_at O q) n)); auto; [lra|]. intros y Hy. apply HN. apply (used_in m p T O q n); auto.
Qed.

(** Relative to the area of the target cells: conserved if nothing is missing and there is no weight field
    (and no mean happens to equal the fill value). *)
Theorem C57_conserved_target : forall m p T O outs k, m = Order1 \/ (m = Order2 /\ centred T O) -> wf m p T O -> areas_known m p T O ->
  p_sum p = false -> p_target p = true -> p_weight p = false -> nonneg p T O -> complete T O -> do_scalar m p T O = Ok outs -> (0 <= k < p_nz p)%Z ->
  (forall c, In c (all_cells O) -> valid p (in_value m T c 0) = true) ->
  (forall c, In c (all_cells O) -> fill p < x_value m p T c k) \/ (forall c, In c (all_cells O) -> x_value m p T c k < fill p) ->
  fill p <> 0 ->
  (forall q n, (0 <= q < zlen O)%Z -> (0 <= n < o_nx (otile_at O q) * o_ny (otile_at O q))%Z -> at_ (o_cell (otile_at O q)) n <> 0) ->
  out_sum O (fun q n => match over (otile_at O q) n with [] => 0 | _ => out_at O outs q k n * at_ (o_cell (otile_at O q)) n end) = in_total m p T k.
Proof.
  intros m p T O outs k Hm HW HA Es Et Ew (HN & HZ) HC E Hk HV HF HF0 HO.
  destruct (C57_values m p T O ltac:(tauto) HW HA) as (outs' & E' & _ & H). rewrite E in E'. injection E' as <-.
  rewrite <- (mean_total m p T O HW k Hk HC HZ) by tauto. apply out_sum_cells; auto.
  intros q n Hq Hn. destruct (H q Hq) as (_ & H1). specialize (H1 k n Hk Hn). pose proof (HO q n Hq Hn) as HO'.
  assert (UO : used m p T (otile_at O q) n = over (otile_at O q) n).
  { unfold used. assert (G : forall l, (forall c, In c l -> In c (all_cells O)) -> filter (fun c => valid p (in_value m T c 0)) l = l).
    { induction l as [|c l IH]; intros Hl; auto. cbn. rewrite HV by (apply Hl; now left). f_equal. apply IH. intros; apply Hl; now right. }
    apply G. intros c Hc. unfold over in Hc. apply filter_In in Hc. destruct Hc as (Hc & _). apply in_flat_map. exists (otile_at O q). split; auto. now apply otile_in. }
  unfold remapped in H1. rewrite Es, Et in H1. set (o := otile_at O q) in *. fold (total m p T o k n).
  assert (AW : area_on p T o n = weight_on m p T o n).
  { unfold area_on, weight_on. rewrite UO. apply rsum_ext. intros c _. unfold x_weight, per_area. rewrite Es, Ew. destruct (p_measures p); [unfold Rdiv; ring|ring]. }
  destruct (over o n) as [|c l] eqn:Eo. { unfold total. rewrite UO. reflexivity. } rewrite UO in H1. cbv zeta in H1. rewrite AW in H1. rewrite H1. clear H1.
  assert (IN : forall x, In x (used m p T o n) -> In x (all_cells O)). { intros x Hx. apply (used_in m p T O q n); auto. }
  destruct (Rlt_dec 0 (weight_on m p T o n)) as [P|P].
  - assert (NF : total m p T o k n / weight_on m p T o n <> fill p).
    { unfold total, weight_on in *. set (U := used m p T o n) in *. clearbody U. clear UO Eo.
      assert (D : total m p T o k n = total m p T o k n) by auto. clear D.
      assert (ST : exists x, In x U /\ 0 < x_weight p T x).
      { clear - P IN HN. induction U as [|a U IH]; [cbn in P; lra|]. rewrite rsum_cons in P. destruct (Rlt_dec 0 (x_weight p T a)) as [Q|Q]. { exists a. split; [now left|auto]. }
        destruct IH as (x & Hx & Hp). { intros; apply IN; now right. } { pose proof (HN a (IN a (or_introl eq_refl))). lra. } exists x. split; [now right|auto]. }
      destruct ST as (x0 & Hx0 & Hp0). intros C.
      assert (C' : rsum (fun c => x_weight p T c * (x_value m p T c k - fill p)) U = 0).
      { rewrite (rsum_ext _ (fun c => x_weight p T c * x_value m p T c k + (- fill p) * x_weight p T c)) by (intros; ring). rewrite rsum_plus, rsum_scal.
        apply (f_equal (fun z => z * rsum (x_weight p T) U)) in C. unfold Rdiv in C. rewrite Rmult_assoc, Rinv_l in C by lra. lra. }
      destruct HF as [HF|HF].
      - assert (Q := rsum_eq0 (fun c => x_weight p T c * (x_value m p T c k - fill p)) U ltac:(intros y Hy; apply Rmult_le_pos; [apply HN; auto|left; pose proof (HF y (IN y Hy)); lra]) C' x0 Hx0). cbv beta in Q. pose proof (HF x0 (IN x0 Hx0)). apply Rmult_integral in Q. destruct Q; lra.
      - assert (C2 : rsum (fun c => x_weight p T c * (fill p - x_value m p T c k)) U = 0).
        { rewrite (rsum_ext _ (fun c => (-1) * (x_weight p T c * (x_value m p T c k - fill p)))) by (intros; ring). rewrite rsum_scal, C'. ring. }
        assert (Q := rsum_eq0 (fun c => x_weight p T c * (fill p - x_value m p T c k)) U ltac:(intros y Hy; apply Rmult_le_pos; [apply HN; auto|left; pose proof (HF y (IN y Hy)); lra]) C2 x0 Hx0). cbv beta in Q. pose proof (HF x0 (IN x0 Hx0)). apply Rmult_integral in Q. destruct Q; lra. }
    destruct (Req_EM_T _ (fill p)); [contradiction|]. field. split; [exact HO'|lra].
  - destruct (Req_EM_T 0 (fill p)); [congruence|].
    assert (W0 : 0 <= weight_on m p T o n). { apply rsum_nonneg. intros x Hx. apply HN. auto. }
    assert (W1 : rsum (x_weight p T) (used m p T o n) = 0) by (unfold weight_on in *; lra).
    rewrite !Rmult_0_l. unfold total. rewrite (rsum_ext _ (fun _ => 0)); [now rewrite rsum_zero|].
    intros x Hx. rewrite (rsum_eq0 (x_weight p T) (used m p T o n)); auto; lra.
Qed.

Local Ltac ev := cbn; change (Pos.to_nat 1) with 1%nat; change (Pos.to_nat 4) with 4%nat; cbn.
(** ** A concrete case: two input cells of area 1 and 3 under one output cell *)
Definition ex_opts mv tgt : opts := MkOpts mv 0 false false false tgt 1.
Definition ex_tile v : tile := MkTile 2 1 [1; 3] [] [5; v] [] [] [] [].
Definition ex_out : otile := MkOtile 1 1 [4] [MkXc 0 0 0 0 0 1 0 0; MkXc 0 1 0 0 0 3 0 0].
Lemma ex_wf mv tgt v : wf Order1 (ex_opts mv tgt) [ex_tile v] [ex_out].
Proof.
  split; [cbn; lia|]. split; [cbn; lia|]. split.
  - intros t [<-|[]]. repeat split; cbn; auto; discriminate.
  - intros o [<-|[]]. split; [cbn; lia|]. split; [cbn; lia|]. split; [reflexivity|]. intros c [<-|[<-|[]]]; repeat split; cbn; lia.
Qed.
Lemma ex_input v q j i : input_cell [ex_tile v] q j i -> q = 0%Z /\ j = 0%Z /\ (i = 0%Z \/ i = 1%Z).
Proof. intros (Hq & Hj & Hi). unfold zlen in Hq. cbn in Hq. assert (q = 0%Z) by lia. subst q. unfold tile_at in *. cbn in Hi, Hj. split; [auto|]. split; lia. Qed.
Lemma ex_complete v : complete [ex_tile v] [ex_out].
Proof. intros q j i H. apply ex_input in H. destruct H as (-> & -> & [-> | ->]); ev; lra. Qed.
Lemma ex_nonneg mv tgt v : nonneg (ex_opts mv tgt) [ex_tile v] [ex_out].
Proof.
  split. - intros c [<-|[<-|[]]]; unfold x_weight, per_area; cbn; lra.
  - intros q j i H. apply ex_input in H. destruct H as (-> & -> & [-> | ->]); ev; apply Rgt_not_eq; lra.
Qed.

Example C57_example :
  wf Order1 (ex_opts None false) [ex_tile 9] [ex_out] /\ areas_known Order1 (ex_opts None false) [ex_tile 9] [ex_out]
  /\ nonneg (ex_opts None false) [ex_tile 9] [ex_out] /\ complete [ex_tile 9] [ex_out]
  /\ exists outs, do_scalar Order1 (ex_opts None false) [ex_tile 9] [ex_out] = Ok outs /\ out_at [ex_out] outs 0 0 0 = 8.
Proof.
  split; [apply ex_wf|]. assert (A : areas_known Order1 (ex_opts None false) [ex_tile 9] [ex_out]) by (intros H; discriminate H).
  split; [exact A|]. split; [apply ex_nonneg|]. split; [apply ex_complete|].
  destruct (C57_values Order1 (ex_opts None false) [ex_tile 9] [ex_out] (or_introl eq_refl) (ex_wf _ _ _) A) as (outs & E & _ & H). exists outs. split; auto.
  destruct (H 0%Z) as (_ & H1); [cbn; lia|]. rewrite H1 by (cbn; lia). unfold remapped. cbn. unfold total, weight_on. cbn. unfold x_weight, per_area, in_value, at_. ev.
  destruct (Rlt_dec _ _) as [P|P]; [field|exfalso; apply P; lra].
Qed.

(** With a missing value the target-area correction does not conserve: the area without a value is counted. *)
Theorem C57_target_refuted : ~ (forall m p T O outs k, m = Order1 \/ (m = Order2 /\ centred T O) -> wf m p T O -> areas_known m p T O ->
  p_sum p = false -> p_target p = true -> p_weight p = false -> nonneg p T O -> complete T O -> do_scalar m p T O = Ok outs -> (0 <= k < p_nz p)%Z ->
  (forall c, In c (all_cells O) -> valid p (in_value m T c 0) = true -> fill p < x_value m p T c k) -> fill p <> 0 ->
  (forall q n, (0 <= q < zlen O)%Z -> (0 <= n < o_nx (otile_at O q) * o_ny (otile_at O q))%Z -> at_ (o_cell (otile_at O q)) n <> 0) ->
  out_sum O (fun q n => match over (otile_at O q) n with [] => 0 | _ => out_at O outs q k n * at_ (o_cell (otile_at O q)) n end) = in_total m p T k).
Proof.
  intros C. set (p := ex_opts (Some (-1)) true). set (T := [ex_tile (-1)]). set (O := [ex_out]).
  assert (A : areas_known Order1 p T O) by (intros H; discriminate H).
  destruct (C57_values Order1 p T O (or_introl eq_refl) (ex_wf _ _ _) A) as (outs & E & _ & H).
  assert (V0 : valid p (in_value Order1 T (MkXc 0 0 0 0 0 1 0 0) 0) = true). { unfold valid, in_value, at_. ev. destruct (Req_EM_T 5 (-1)); [lra|reflexivity]. }
  assert (V1 : valid p (in_value Order1 T (MkXc 0 1 0 0 0 3 0 0) 0) = false). { unfold valid, in_value, at_. ev. destruct (Req_EM_T (-1) (-1)); [reflexivity|lra]. }
  specialize (C Order1 p T O outs 0%Z (or_introl eq_refl) (ex_wf _ _ _) A eq_refl eq_refl eq_refl (ex_nonneg _ _ _) (ex_complete _) E ltac:(cbn; lia)).
  assert (U : used Order1 p T ex_out 0 = [MkXc 0 0 0 0 0 1 0 0]). { unfold used. change (over ex_out 0) with [MkXc 0 0 0 0 0 1 0 0; MkXc 0 1 0 0 0 3 0 0]. cbn [filter]. now rewrite V0, V1. }
  assert (HC := C ltac:(intros c [<-|[<-|[]]] HV; [unfold in_value, at_; cbn; lra | rewrite V1 in HV; discriminate]) ltac:(cbn; apply Rlt_not_eq; lra)
     ltac:(intros q n Hq Hn; unfold O, zlen in Hq; cbn in Hq; assert (q = 0%Z) by lia; subst q; cbn in Hn; assert (n = 0%Z) by lia; subst n; cbn; apply Rgt_not_eq; lra)). clear C.
  destruct (H 0%Z) as (_ & H1); [cbn; lia|]. specialize (H1 0%Z 0%Z ltac:(cbn; lia) ltac:(cbn; lia)).
  unfold out_sum in HC. change (zseq 0 (zlen O)) with [0%Z] in HC. rewrite rsum_cons, rsum_nil in HC. change (zseq 0 (o_nx (otile_at O 0) * o_ny (otile_at O 0))) with [0%Z] in HC. rewrite rsum_cons, rsum_nil in HC. change (over (otile_at O 0) 0) with [MkXc 0 0 0 0 0 1 0 0; MkXc 0 1 0 0 0 3 0 0] in HC. cbv iota in HC. rewrite H1 in HC.
  change (otile_at O 0) with ex_out in HC. unfold remapped in HC. rewrite U in HC. cbn [p_sum p_target p ex_opts] in HC.
  unfold weight_on, total in HC. rewrite U in HC. cbn [rsum fold_right] in HC.
  replace (x_weight p T (MkXc 0 0 0 0 0 1 0 0)) with 1 in HC by (unfold x_weight, per_area; cbn; lra).
  change (x_value Order1 p T (MkXc 0 0 0 0 0 1 0 0) 0) with 5 in HC.
  destruct (Rlt_dec 0 (1 + 0)) as [P|P]; [|lra]. change (fill p) with (-1) in HC. destruct (Req_EM_T _ (-1)) as [Q|Q]; [lra|].
  assert (IT : in_total Order1 p T 0 = holds Order1 p T 0 0 0 0 + (holds Order1 p T 0 0 0 1 + 0) + 0 + 0) by reflexivity. rewrite IT in HC. clear IT.
  assert (I0 : holds Order1 p T 0 0 0 0 = 5). { unfold holds, cell_mean, valid, at_. ev. destruct (Req_EM_T 5 (-1)); lra. }
  assert (I1 : holds Order1 p T 0 0 0 1 = 0). { unfold holds, cell_mean, valid, at_. ev. destruct (Req_EM_T (-1) (-1)); [reflexivity|lra]. }
  rewrite I0, I1 in HC. unfold area_on, over in HC. cbn in HC. lra.
Qed.

(** Second order: one input cell of area 2 with gradient 2, cut in two halves. *)
Example C57_example_order2 :
  let p := ex_opts None false in
  let T := [MkTile 1 1 [2] [] [0; 0; 0; 0; 7; 0; 0; 0; 0] [] [2] [0] [0%Z]] in
  let O := [MkOtile 2 1 [1; 1] [MkXc 0 0 0 0 0 1 1 0; MkXc 0 0 0 1 0 1 (-1) 0]] in
  wf Order2 p T O /\ areas_known Order2 p T O /\ nonneg p T O /\ complete T O /\ centred T O
  /\ exists outs, do_scalar Order2 p T O = Ok outs /\ out_at O outs 0 0 0 = 9 /\ out_at O outs 0 0 1 = 5.
Proof.
  cbv zeta. set (p := ex_opts None false). set (T := [_]). set (O := [_]).
  assert (A : areas_known Order2 p T O) by (intros H; discriminate H).
  assert (W : wf Order2 p T O).
  { split; [cbn; lia|]. split; [cbn; lia|]. split.
    - intros t [<-|[]]. repeat split; cbn; auto; discriminate.
    - intros o [<-|[]]. split; [cbn; lia|]. split; [cbn; lia|]. split; [reflexivity|]. intros c [<-|[<-|[]]]; repeat split; cbn; lia. }
  assert (I : forall q j i, input_cell T q j i -> q = 0%Z /\ j = 0%Z /\ i = 0%Z).
  { intros q j i (Hq & Hj & Hi). unfold T, zlen in Hq. cbn in Hq. assert (q = 0%Z) by lia. subst q. unfold tile_at in *. cbn in Hi, Hj. split; [auto|]. split; lia. }
  split; [exact W|]. split; [exact A|]. split; [|split; [|split]].
  - split. + intros c [<-|[<-|[]]]; unfold x_weight, per_area; cbn; lra. + intros q j i H. apply I in H. destruct H as (-> & -> & ->). apply Rgt_not_eq. unfold cell_area, tile_at, at_. ev. lra.
  - intros q j i H. apply I in H. destruct H as (-> & -> & ->). unfold cell_area, tile_at, at_. ev. lra.
  - intros q j i H. apply I in H. destruct H as (-> & -> & ->). ev. split; lra.
  - destruct (C57_values Order2 p T O (or_intror eq_refl) W A) as (outs & E & _ & H). exists outs. split; auto.
    destruct (H 0%Z) as (_ & H1); [cbn; lia|]. rewrite !H1 by (cbn; lia). unfold remapped. cbn. unfold total, weight_on. cbn. unfold x_weight, per_area, in_value, at_. ev.
    split; (destruct (Rlt_dec _ _) as [P|P]; [field|exfalso; apply P; lra]).
Qed.
Print Assumptions C57_values.
Print Assumptions C57_bounds.
Print Assumptions C57_conserved.
Print Assumptions C57_conserved_sum.
Print Assumptions C57_conserved_target.
Print Assumptions C57_target_refuted.
