(** * Proofs about the rotation angles *)
From Coq Require Import Reals Lra Lia.
From Verif Require Import Base Loops Vec Lst M_Interp M_Runoff Spec_Interp P_Interp P_Interp2 M_Vert M_Fregrid M_Vector Spec_Vector P_Vector P_Vector2.
Local Open Scope R_scope.

(** The angle used for cell (i, j) of the part of an output tile *)
Definition used_angle (nx isc jsc : Z) (angle : list R) (i j : Z) : R := at_ angle (2 * (j + jsc) * (2 * nx + 1) + 2 * (i + isc))%Z.

Lemma output_rotation_run nx ny isc jsc nxc nyc angle : (0 <= isc)%Z -> (0 <= jsc)%Z -> (0 <= nxc)%Z -> (0 <= nyc)%Z -> (isc + nxc <= nx)%Z -> (jsc + nyc <= ny)%Z -> zlen angle = ((2 * nx + 1) * (2 * ny + 1))%Z ->
  exists r, output_rotation nx isc jsc nxc nyc angle = Ok r
    /\ r_cos r = map (fun n => cos (used_angle nx isc jsc angle (n mod nxc) (n / nxc) * D2R)) (zseq 0 (nyc * nxc))
    /\ r_sin r = map (fun n => sin (used_angle nx isc jsc angle (n mod nxc) (n / nxc) * D2R)) (zseq 0 (nyc * nxc))
    /\ (r_on r = false -> Forall (fun s => Rabs s <= 1 / 10 ^ 10) (r_sin r)).
Proof.
  intros H1 H2 H3 H4 H5 H6 HL. unfold output_rotation. rewrite ofor_nest by auto.
  match goal with |- context [ofor 0 (nyc * nxc) ?f _] => destruct (ofor_inv (fun n st =>
     fst (fst st) = map (fun n => cos (used_angle nx isc jsc angle (n mod nxc) (n / nxc) * D2R)) (zseq 0 n)
     /\ snd (fst st) = map (fun n => sin (used_angle nx isc jsc angle (n mod nxc) (n / nxc) * D2R)) (zseq 0 n)
     /\ (snd st = false -> Forall (fun s => Rabs s <= 1 / 10 ^ 10) (snd (fst st)))) f 0 (nyc * nxc)%Z ([], [], false)) as (((cs, ss), on) & E & A & B & C) end.
  - nia.
  - cbn. auto.
  - intros n ((cs, ss), on) Hn (A & B & C). cbn [fst snd] in A, B, C. destruct (divmod_range nyc nxc n H3 ltac:(lia)) as (_ & D1 & D2 & _).
    unfold rot_cell. rewrite (get_at angle) by (rewrite HL; nia). cbn [bind]. eexists. split; [reflexivity|]. cbn [fst snd].
    assert (Es : zseq 0 (n + 1) = zseq 0 n ++ [n]) by (rewrite zseq_snoc by lia; f_equal).
    rewrite Es, !map_app. cbn [map]. unfold used_angle at 2 4. split; [f_equal; exact A|]. split; [f_equal; exact B|].
    unfold EPSLN10. destruct (rlt_spec (1 / 10 ^ 10) (Rabs (sin (at_ angle (2 * (n / nxc + jsc) * (2 * nx + 1) + 2 * (n mod nxc + isc)) * D2R)))) as [L|L]; [discriminate|].
    intros Ho. apply Forall_app. split; [exact (C Ho)|]. constructor; [lra|constructor].
  - rewrite E. cbn [bind fst snd] in *. eexists. split; [reflexivity|]. cbn [r_cos r_sin r_on]. auto.
Qed.

Lemma ofold_ub {A S} (f : S -> A -> outcome S) l (s : S) : (forall x s, In x l -> f s x = UB \/ exists s', f s x = Ok s') -> (exists x, In x l /\ forall s, f s x = UB) -> ofold f l s = UB.
Proof.
  revert s. induction l as [|a l IH]; intros s H (x & Hx & U); [contradiction|]. cbn [ofold]. destruct (H a s (or_introl eq_refl)) as [E|(s' & E)]; rewrite E; [reflexivity|]. cbn [bind].
  destruct Hx as [-> |Hx]; [rewrite U in E; discriminate|]. apply IH; [intros; apply H; now right|]. exists x. auto.
Qed.
Lemma ofold_tot {A S} (f : S -> A -> outcome S) l : forall s, (forall x s, In x l -> f s x = UB \/ exists s', f s x = Ok s') -> ofold f l s = UB \/ exists s', ofold f l s = Ok s'.
Proof.
  induction l as [|a l IH]; intros s H; [right; eexists; reflexivity|]. cbn [ofold]. destruct (H a s (or_introl eq_refl)) as [E|(s' & E)]; rewrite E; [now left|]. cbn [bind]. apply IH. intros; apply H; now right.
Qed.
Lemma input_rotation_ub nx ny angle : (1 <= nx)%Z -> (1 <= ny)%Z -> zlen angle = ((2 * nx + 1) * (2 * ny + 1))%Z -> input_rotation nx ny angle = UB.
Proof.
  intros Hx Hy HL. unfold input_rotation.
  assert (RC : forall p st, rot_cell angle p st = UB \/ exists s', rot_cell angle p st = Ok s').
  { intros p ((cs, ss), on). unfold rot_cell. unfold oget. destruct (zget angle p); [right; eexists; reflexivity|now left]. }
  match goal with |- bind (ofor 0 ny ?f ?s) _ = UB => assert (E : ofor 0 ny f s = UB) end; [|rewrite E; reflexivity].
  apply ofold_ub.
  - intros j s Hj. apply ofold_tot. intros; apply RC.
  - exists (ny - 1)%Z. split; [apply In_zseq; lia|]. intros s. apply ofold_ub; [intros; apply RC|]. exists (nx - 1)%Z. split; [apply In_zseq; lia|].
    intros ((cs, ss), on). unfold rot_cell. assert (G : oget angle ((2 * (ny - 1) + 2) * (2 * nx + 2) + 2 * (nx - 1) + 2) = UB).
    { unfold oget. assert (Z0 : zget angle ((2 * (ny - 1) + 2) * (2 * nx + 2) + 2 * (nx - 1) + 2) = None); [|rewrite Z0; reflexivity]. unfold zget. destruct (Z.ltb_spec ((2 * (ny - 1) + 2) * (2 * nx + 2) + 2 * (nx - 1) + 2) 0); auto. apply nth_error_None. unfold zlen in HL. nia. }
    rewrite G. reflexivity.
Qed.
Lemma target_ub m T o O : Forall wf_vtile T -> Forall (smaller m) T -> wf_vout T o -> w_area o = None -> (0 < w_nx o * w_ny o)%Z -> do_vector m true T (o :: O) = UB.
Proof.
  intros WT SM WO NA HN. unfold do_vector. destruct (rotate_in_run m T WT) as (T' & -> & FT). cbn [bind ofold]. unfold vtile_out.
  assert (VA : vec (alloc (w_nx o * w_ny o)) (w_nx o * w_ny o) (fun _ => 0)) by (apply vec_repeat; lia).
  destruct (vadd_all (vcell m T' (w_nx o)) (fun c => okb m (in_u T c) (in_v T c)) (vto o) (in_east T) (in_north T) (w_nx o * w_ny o) (w_xgrid o) _ _ _ _ _ _ VA VA VA) as (u & v & a & -> & _).
  - intros c Hc. destruct WO as (_ & _ & _ & HX). destruct (HX c Hc) as (_ & _ & _ & Hi & Hj & _). unfold vto. nia.
  - intros c u v a Hc. apply (cell_step m T T' o); auto.
  - cbn [bind]. rewrite NA. destruct (Z.leb_spec (w_nx o * w_ny o) 0); [lia|]. reflexivity.
Qed.
