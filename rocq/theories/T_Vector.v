(** * C63: regridding of vector fields with fregrid *)
From Coq Require Import Reals Lra Lia.
From Verif Require Import Base Loops Vec M_Interp M_Runoff Spec_Interp P_Interp P_Interp2 M_Vert M_Fregrid P_Fregrid2 M_Vector Spec_Vector P_Vector P_Vector2 P_Vector3.
Local Open Scope R_scope.

(** Eastward and northward components of the result are the area-weighted means of those of the input; cells with
    nothing valid below them are missing in both components. *)
Theorem C63_values_partial : forall missing T O, Forall wf_vtile T -> Forall (smaller missing) T -> Forall (wf_vout T) O ->
  exists outs, do_vector missing false T O = Ok outs /\ zlen outs = zlen O
  /\ forall q, (0 <= q < zlen O)%Z ->
     let o := nth (Z.to_nat q) O (MkVout 0 0 (MkRot [] [] false) None []) in
     let u := fst (nth (Z.to_nat q) outs ([], [])) in let v := snd (nth (Z.to_nat q) outs ([], [])) in
     zlen u = (w_nx o * w_ny o)%Z /\ zlen v = (w_nx o * w_ny o)%Z
     /\ forall n, (0 <= n < w_nx o * w_ny o)%Z ->
        (vused missing T o n = [] -> at_ u n = missing /\ at_ v n = missing)
        /\ (vused missing T o n <> [] ->
            east (at_ (r_cos (w_rot o)) n) (at_ (r_sin (w_rot o)) n) (at_ u n) (at_ v n) = vmean (in_east T) (vused missing T o n)
            /\ north (at_ (r_cos (w_rot o)) n) (at_ (r_sin (w_rot o)) n) (at_ u n) (at_ v n) = vmean (in_north T) (vused missing T o n)).
Proof.
  intros m T O WT SM WO. destruct (do_vector_run m T O WT SM WO) as (outs & E & F). exists outs. split; auto.
  destruct (Forall2_at _ (MkVout 0 0 (MkRot [] [] false) None []) ([], []) _ _ F) as (L & H). split; auto.
Qed.

(** The angles of an output tile: one for each cell of the processor's part, read at the lower left corner of the
    cell; the switch is off only if all sines are below 1e-10. *)
Theorem C63_output_angle : forall nx ny isc jsc nxc nyc angle, (0 <= isc)%Z -> (0 <= jsc)%Z -> (0 <= nxc)%Z -> (0 <= nyc)%Z -> (isc + nxc <= nx)%Z -> (jsc + nyc <= ny)%Z ->
  zlen angle = ((2 * nx + 1) * (2 * ny + 1))%Z ->
  exists r, output_rotation nx isc jsc nxc nyc angle = Ok r /\ zlen (r_cos r) = (nxc * nyc)%Z /\ zlen (r_sin r) = (nxc * nyc)%Z
  /\ (forall i j, (0 <= i < nxc)%Z -> (0 <= j < nyc)%Z ->
       let a := at_ angle (2 * (j + jsc) * (2 * nx + 1) + 2 * (i + isc)) * (PI / 180) in
       at_ (r_cos r) (j * nxc + i) = cos a /\ at_ (r_sin r) (j * nxc + i) = sin a)
  /\ (r_on r = false -> forall n, (0 <= n < nxc * nyc)%Z -> Rabs (at_ (r_sin r) n) <= 1 / 10 ^ 10).
Proof.
  intros nx ny isc jsc nxc nyc angle H1 H2 H3 H4 H5 H6 HL. destruct (output_rotation_run nx ny isc jsc nxc nyc angle H1 H2 H3 H4 H5 H6 HL) as (r & E & C & S & OFF).
  assert (VC := vec_map (fun n => cos (used_angle nx isc jsc angle (n mod nxc) (n / nxc) * D2R)) (nyc * nxc) ltac:(nia)). rewrite <- C in VC.
  assert (VS := vec_map (fun n => sin (used_angle nx isc jsc angle (n mod nxc) (n / nxc) * D2R)) (nyc * nxc) ltac:(nia)). rewrite <- S in VS.
  exists r. split; auto. split; [rewrite (proj1 VC); lia|]. split; [rewrite (proj1 VS); lia|]. split.
  - intros i j Hi Hj a. assert (R : (0 <= j * nxc + i < nyc * nxc)%Z) by nia. rewrite (vec_at_ _ _ _ _ VC R), (vec_at_ _ _ _ _ VS R). cbn beta. rewrite rowmajor_div, rowmajor_mod by auto. split; reflexivity.
  - intros O n Hn. specialize (OFF O). rewrite Forall_forall in OFF. apply OFF. unfold at_. apply nth_In. pose proof (proj1 VS). unfold zlen in *. nia.
Qed.

(** The angle at the corner is not the angle at the centre of the cell, where the vector is. *)
Theorem C63_centre_refuted : exists angle r, zlen angle = 9%Z /\ output_rotation 1 0 0 1 1 angle = Ok r /\ at_ (r_cos r) 0 <> cos (at_ angle (1 * 3 + 1) * (PI / 180)).
Proof.
  exists [180; 0; 0; 0; 0; 0; 0; 0; 0]. destruct (C63_output_angle 1 1 0 0 1 1 [180; 0; 0; 0; 0; 0; 0; 0; 0]) as (r & E & _ & _ & V & _); try lia; try reflexivity.
  exists r. split; [reflexivity|]. split; [exact E|]. destruct (V 0%Z 0%Z) as (V0 & _); try lia. change (0 * 1 + 0)%Z with 0%Z in V0. rewrite V0.
  change (at_ [180; 0; 0; 0; 0; 0; 0; 0; 0] (2 * (0 + 0) * (2 * 1 + 1) + 2 * (0 + 0))) with 180. change (at_ [180; 0; 0; 0; 0; 0; 0; 0; 0] (1 * 3 + 1)) with 0.
  replace (180 * (PI / 180)) with PI by field. rewrite Rmult_0_l, cos_PI, cos_0. lra.
Qed.
(** Reading the angles of an input tile leaves the array, for every grid: fields on the A grid cannot be regridded. *)
Theorem C63_input_angle_refuted : forall nx ny angle, (1 <= nx)%Z -> (1 <= ny)%Z -> zlen angle = ((2 * nx + 1) * (2 * ny + 1))%Z -> input_rotation nx ny angle = UB.
Proof. exact input_rotation_ub. Qed.
(** With --target_grid the area of the target cells is used but never set. *)
Theorem C63_target_refuted : forall missing T o O, Forall wf_vtile T -> Forall (smaller missing) T -> wf_vout T o -> w_area o = None -> (0 < w_nx o * w_ny o)%Z ->
  do_vector missing true T (o :: O) = UB.
Proof. exact target_ub. Qed.

(** One input cell of unit size over one output cell. *)
Definition one_in (u v : R) : vtile := MkVtile 1 1 (MkRot [1] [0] false) [u] [v].
Definition one_out (r : rotation) : vout := MkVout 1 1 r None [MkXc 0 0 0 0 0 1 0 0].
Lemma one_in_wf u v : wf_vtile (one_in u v).
Proof.
  unfold wf_vtile, one_in. cbn [v_nx v_ny v_u v_v v_rot]. split; [lia|]. split; [lia|]. split; [reflexivity|]. split; [reflexivity|].
  split; [reflexivity|]. split; [reflexivity|]. split; intros; assert (i = 0)%Z as -> by lia; cbn; try split; ring.
Qed.
Lemma one_out_wf r T : (exists u v, T = [one_in u v]) -> wf_rotation r 1 -> wf_vout T (one_out r).
Proof.
  intros (u & v & ->) W. unfold wf_vout, one_out. cbn [w_nx w_ny w_rot w_xgrid]. split; [lia|]. split; [lia|]. split; [exact W|].
  intros c [<-|[]]. cbn [x_t x_i x_j x_io x_jo x_a vsrc v_nx v_ny]. change (zlen [one_in u v]) with 1%Z. cbn. repeat split; try lia. lra.
Qed.
(** Axes of the output turned by 180 degrees: the components ought to change sign, but the switch stays off because
    the sine is zero. *)
Theorem C63_reversed_refuted : exists angle r, zlen angle = 9%Z /\ (forall i, (0 <= i < 9)%Z -> at_ angle i = 180) /\ output_rotation 1 0 0 1 1 angle = Ok r
  /\ do_vector 100 false [one_in 1 0] [one_out r] = Ok [([1], [0])]
  /\ east (at_ (r_cos r) 0) (at_ (r_sin r) 0) 1 0 = -1.
Proof.
  exists (repeat 180 9).
  assert (AT : forall i, (0 <= i < 9)%Z -> at_ (repeat 180 9) i = 180). { intros i Hi. apply (vec_at_ (repeat 180 (Z.to_nat 9)) 9 _ i (vec_repeat 180 9 ltac:(lia)) Hi). }
  assert (C : cos (180 * D2R) = -1). { unfold D2R. replace (180 * (PI / 180)) with PI by field. apply cos_PI. }
  assert (S : sin (180 * D2R) = 0). { unfold D2R. replace (180 * (PI / 180)) with PI by field. apply sin_PI. }
  exists (MkRot [-1] [0] false). split; [reflexivity|]. split; [exact AT|]. split.
  - unfold output_rotation. cbn [ofor ofold zseq]. cbv -[rlt IZR cos sin D2R Rabs EPSLN10 Rmult Rlt]. rewrite C, S, Rabs_R0. destruct (rlt_spec EPSLN10 0) as [L|L]; [exfalso; unfold EPSLN10 in L; lra|reflexivity].
  - split; [|cbn; unfold east; lra].
    unfold do_vector, rotate_in, one_in, one_out. cbn [ofold v_nx v_ny v_rot v_u v_v rotate r_on bind fst snd app].
    cbv -[rlt IZR reqb Rplus Rmult Rdiv Rlt]. unfold reqb. destruct (Req_EM_T 1 100); [lra|]. destruct (Req_EM_T 0 100); [lra|].
    destruct (rlt_spec 0 (0 + 1)); [|lra]. do 4 f_equal; [f_equal; field|field].
Qed.

(** The hypotheses can be met: output axes turned by 90 degrees; a vector to the north has no second component and a
    first component of its size. *)
Example C63_example : wf_vtile (one_in 0 5) /\ smaller 100 (one_in 0 5) /\ wf_vout [one_in 0 5] (one_out (MkRot [0] [1] true))
  /\ exists u v, do_vector 100 false [one_in 0 5] [one_out (MkRot [0] [1] true)] = Ok [(u, v)] /\ at_ u 0 = 5 /\ at_ v 0 = 0.
Proof.
  assert (W : wf_vtile (one_in 0 5)) by apply one_in_wf.
  assert (S : smaller 100 (one_in 0 5)). { intros i Hi _ _. cbn in Hi. assert (i = 0)%Z as -> by lia. cbn. unfold Rabs. destruct (Rcase_abs 0), (Rcase_abs 5), (Rcase_abs 100); lra. }
  assert (O : wf_vout [one_in 0 5] (one_out (MkRot [0] [1] true))). { apply one_out_wf; [eauto|]. split; [reflexivity|]. split; [reflexivity|]. split; [|discriminate]. intros i Hi. assert (i = 0)%Z as -> by lia. cbn. ring. }
  split; auto. split; auto. split; auto.
  destruct (C63_values_partial 100 [one_in 0 5] [one_out (MkRot [0] [1] true)]) as (outs & E & L & V); auto.
  destruct outs as [|(u, v) [|? ?]]; [discriminate L| |unfold zlen in L; cbn [length] in L; lia]. exists u, v. split; auto. destruct (V 0%Z ltac:(cbn; lia)) as (_ & _ & V0). cbn [nth Z.to_nat fst snd one_out w_nx w_ny w_rot r_cos r_sin] in V0.
  destruct (V0 0%Z ltac:(lia)) as (_ & V1).
  assert (U : vused 100 [one_in 0 5] (one_out (MkRot [0] [1] true)) 0 = [MkXc 0 0 0 0 0 1 0 0]). { unfold vused, one_out, one_in, vto, in_u, in_v, vsrc, vfrom. cbn. destruct (Req_EM_T 0 100); [lra|]. destruct (Req_EM_T 5 100); [lra|]. reflexivity. }
  unfold one_out in U, V1. rewrite U in V1. destruct V1 as (A & B); [discriminate|].
  unfold vmean, in_east, in_north, in_u, in_v, vsrc, vfrom, one_in, east, north in A, B. cbn in A, B. lra.
Qed.

Print Assumptions C63_values_partial.
Print Assumptions C63_output_angle.
Print Assumptions C63_centre_refuted.
Print Assumptions C63_input_angle_refuted.
Print Assumptions C63_target_refuted.
Print Assumptions C63_reversed_refuted.
