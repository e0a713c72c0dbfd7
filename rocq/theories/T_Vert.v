(** * C61: vertical interpolation of fregrid *)
From Coq Require Import Reals Lra Lia.
From Verif Require Import Base Loops Vec M_Interp Spec_Interp P_Interp P_Interp2 M_Vert Spec_Vert P_Vert.
Local Open Scope R_scope.

(** If an output level lies in the range of the source levels, every output value is the value of the source
    column at the output depth. *)
Theorem C61_levels : forall nx ny zi zo fd data, (0 <= nx)%Z -> (0 <= ny)%Z -> (2 <= zlen zi)%Z -> increasing zi -> increasing zo ->
  zlen data = (nx * ny * zlen zi)%Z -> ~ agree zi zo -> (exists k, (0 <= k < zlen zo)%Z /\ at_ zi 0 <= at_ zo k <= at_ zi (zlen zi - 1)) ->
  exists out, do_vertical nx ny zi zo fd data = Ok out /\ zlen out = (zlen zo * (nx * ny))%Z
    /\ forall k l, (0 <= k < zlen zo)%Z -> (0 <= l < nx * ny)%Z -> column_value zi (fun m => at_ data (m * (nx * ny) + l)) (at_ zo k) (at_ out (k * (nx * ny) + l)).
Proof. exact vertical_run. Qed.
(** The same levels: nothing changes. *)
Theorem C61_same_levels : forall nx ny zi zo fd data, (1 <= zlen zi)%Z -> agree zi zo -> do_vertical nx ny zi zo fd data = Ok data.
Proof. intros nx ny zi zo fd data H A. unfold do_vertical. destruct (setup_spec zi zo H) as (ks & ke & -> & _). cbn [bind]. now rewrite (proj2 (same_levels_spec zi zo) A). Qed.

Lemma inc2 a b : a < b -> increasing [a; b].
Proof. intros H. apply steps_inc. intros i Hi. change (zlen [a; b]) with 2%Z in Hi. assert (i = 1)%Z as -> by lia. change (at_ [a; b] 1) with b. change (at_ [a; b] (1 - 1)) with a. lra. Qed.
Ltac ats := unfold at_ in *; change (1 - 1)%Z with 0%Z in *; change (2 - 1)%Z with 1%Z in *; change (0 + 1)%Z with 1%Z in *; change (0 * 1 + 0)%Z with 0%Z in *; change (1 * 1 + 0)%Z with 1%Z in *; change (Z.to_nat 0) with 0%nat in *; change (Z.to_nat 1) with 1%nat in *; change (Z.to_nat 2) with 2%nat in *; cbn [nth] in *.

(** Source levels between two neighbouring output levels: the output level above gets the value of the deepest
    source level. *)
Theorem C61_gap_refuted : exists zi zo data out, increasing zi /\ increasing zo /\ zlen zi = 2%Z /\ zlen data = 2%Z
  /\ do_vertical 1 1 zi zo 0 data = Ok out /\ at_ zo 0 < at_ zi 0 /\ at_ out 0 = at_ data 1 /\ at_ data 1 <> at_ data 0.
Proof.
  exists [10; 20], [0; 30], [1; 2], [2; 2]. split; [apply inc2; lra|]. split; [apply inc2; lra|]. split; [reflexivity|]. split; [reflexivity|].
  split; [|ats; repeat split; lra].
  unfold do_vertical. destruct (setup_spec [10; 20] [0; 30] ltac:(cbn; lia)) as (ks & ke & -> & A1 & A2 & A3 & B1 & B2 & B3). cbn [bind].
  change (zlen [0; 30]) with 2%Z in *. change (zlen [10; 20]) with 2%Z in *; change (2 - 1)%Z with 1%Z in *.
  assert (ks = 1)%Z as ->.
  { assert (ks = 0 \/ ks = 1 \/ ks = 2)%Z as [-> |[-> | ->]] by lia; auto. - specialize (A3 ltac:(lia)). ats. lra. - specialize (A2 1%Z ltac:(lia)). ats. lra. }
  assert (ke = 0)%Z as ->.
  { assert (ke = -1 \/ ke = 0 \/ ke = 1)%Z as [-> |[-> | ->]] by lia; auto. - specialize (B2 0%Z ltac:(lia)). ats. lra. - specialize (B3 ltac:(lia)). ats. lra. }
  replace (same_levels [10; 20] [0; 30]) with false.
  2:{ symmetry. destruct (same_levels [10; 20] [0; 30]) eqn:E; auto. apply same_levels_spec in E. destruct E as (_ & E). specialize (E 0%Z ltac:(cbn; lia)). ats. unfold Rabs in E. destruct (Rcase_abs _) in E; lra. }
  cbn [negb]. rewrite copy_data by reflexivity. cbn [bind]. cbv -[rlt IZR]. destruct (rlt_spec 30 10); [lra|]. destruct (rlt_spec 20 0); [lra|]. reflexivity.
Qed.
(** All output levels deeper than the source: memory before the array is written.  All shallower: memory behind
    the levels is read. *)
Theorem C61_outside_refuted :
  do_vertical 1 1 [10; 20] [30; 40] 0 [1; 2] = UB /\ do_vertical 1 1 [10; 20] [0; 5] 0 [1; 2] = UB.
Proof.
  assert (NS : forall a b, 1 / 10 ^ 10 < Rabs (a - 10) -> same_levels [10; 20] [a; b] = false).
  { intros a b H. destruct (same_levels [10; 20] [a; b]) eqn:E; auto. apply same_levels_spec in E. destruct E as (_ & E). specialize (E 0%Z ltac:(cbn; lia)). ats. lra. }
  split; unfold do_vertical.
  - destruct (setup_spec [10; 20] [30; 40] ltac:(cbn; lia)) as (ks & ke & -> & A1 & A2 & A3 & B1 & B2 & B3). cbn [bind].
    change (zlen [30; 40]) with 2%Z in *. change (zlen [10; 20]) with 2%Z in *; change (2 - 1)%Z with 1%Z in *.
    assert (ks = 0)%Z as ->.
    { assert (ks = 0 \/ 0 < ks)%Z as [-> |] by lia; auto. specialize (A2 0%Z ltac:(lia)). ats. lra. }
    assert (ke = -1)%Z as ->.
    { assert (ke = -1 \/ ke = 0 \/ ke = 1)%Z as [-> |[-> | ->]] by lia; auto; specialize (B3 ltac:(lia)); ats; lra. }
    rewrite NS by (unfold Rabs; destruct (Rcase_abs _); lra). cbn [negb]. rewrite copy_data by reflexivity. cbn [bind]. reflexivity.
  - destruct (setup_spec [10; 20] [0; 5] ltac:(cbn; lia)) as (ks & ke & -> & A1 & A2 & A3 & B1 & B2 & B3). cbn [bind].
    change (zlen [0; 5]) with 2%Z in *. change (zlen [10; 20]) with 2%Z in *; change (2 - 1)%Z with 1%Z in *.
    assert (ks = 2)%Z as ->.
    { assert (ks = 0 \/ ks = 1 \/ ks = 2)%Z as [-> |[-> | ->]] by lia; auto; specialize (A3 ltac:(lia)); ats; lra. }
    assert (ke = 1)%Z as ->.
    { assert (ke = -1 \/ ke = 0 \/ ke = 1)%Z as [-> |[-> | ->]] by lia; auto; [specialize (B2 0%Z ltac:(lia))|specialize (B2 1%Z ltac:(lia))]; ats; lra. }
    rewrite NS by (unfold Rabs; destruct (Rcase_abs _); lra). cbn [negb]. rewrite copy_data by reflexivity. cbn [bind]. reflexivity.
Qed.
(** Two source levels, three output levels: above, between and below. *)
Example C61_example : exists out, do_vertical 1 1 [10; 20] [0; 15; 40] 7 [1; 2] = Ok out /\ at_ out 0 = 1 /\ at_ out 1 = 3 / 2 /\ at_ out 2 = 2.
Proof.
  assert (I : increasing [0; 15; 40]). { apply steps_inc. intros i Hi. change (zlen [0; 15; 40]) with 3%Z in Hi. assert (i = 1 \/ i = 2)%Z as [-> | ->] by lia; ats; lra. }
  destruct (C61_levels 1 1 [10; 20] [0; 15; 40] 7 [1; 2]) as (out & E & _ & H); try lia; try (cbn; lia); auto.
  - apply inc2; lra.
  - intros (A & _). discriminate A.
  - exists 1%Z. split; [cbn; lia|]. change (zlen [10; 20]) with 2%Z. ats. lra.
  - exists out. split; auto. change (zlen [0; 15; 40]) with 3%Z in H. change (zlen [10; 20]) with 2%Z in H; change (2 - 1)%Z with 1%Z in H. change (1 * 1)%Z with 1%Z in H.
    destruct (H 0 0 ltac:(lia) ltac:(lia))%Z as (H0 & _). destruct (H 1 0 ltac:(lia) ltac:(lia))%Z as (_ & _ & H1). destruct (H 2 0 ltac:(lia) ltac:(lia))%Z as (_ & H2 & _).
    change (0 * 1 + 0)%Z with 0%Z in *. change (1 * 1 + 0)%Z with 1%Z in *. change (2 * 1 + 0)%Z with 2%Z in *. split; [|split].
    + rewrite H0 by (ats; lra). reflexivity.
    + specialize (H1 0%Z ltac:(cbn; lia)). rewrite H1 by (ats; lra). ats. lra.
    + change (zlen [10; 20]) with 2%Z in H2; rewrite H2 by (ats; lra). reflexivity.
Qed.
Print Assumptions C61_levels.
Print Assumptions C61_same_levels.
Print Assumptions C61_gap_refuted.
Print Assumptions C61_outside_refuted.
