(** * C46: flow directions *)
From Coq Require Import Reals Lra Relations.
From Verif Require Import Base M_River Spec_River Tiles P_Halo P_Tocell.
Open Scope Z_scope.

(** Every cell gets its direction: nothing for ocean, a sink for partial land, and for full
    land the code 2^d of a good uphill direction d, or a sink if no neighbour is uphill.
    Afterwards the halo agrees with the cells it stands for. *)
Theorem C46_directions nt nx ny op large cutoff miss landfrac subA tocell dir L S T0 D0 :
  (-999 <= cutoff)%R -> op_ok op nt nx ny -> plain_field nt nx ny landfrac L -> haloed nt nx ny subA S ->
  haloed nt nx ny tocell T0 -> haloed nt nx ny dir D0 ->
  exists tocell' dir' T D, calc_tocell nt nx ny op large cutoff miss landfrac subA tocell dir = Ok (tocell', dir') /\
    haloed nt nx ny tocell' T /\ haloed nt nx ny dir' D /\
    (forall c, own nt nx ny c -> directed large cutoff miss S c (L c) (T0 c) (D0 c) (T c) (D c)) /\
    (forall h, in_frame nt nx ny h -> own nt nx ny (wrap op nx ny h) -> T h = T (wrap op nx ny h) /\ D h = D (wrap op nx ny h)).
Proof.
  intros Hc Hop HL HS HT HD. destruct (tocell_run nt nx ny op large cutoff miss landfrac subA tocell dir L S T0 D0) as (t & d & T & D & E & Ht & Hd & _ & H); auto.
  exists t, d, (fun c => T (wrap op nx ny c)), (fun c => D (wrap op nx ny c)). split; auto. split; auto. split; auto. split.
  - intros c Ho. cbv beta. rewrite (wrap_own op nt nx ny c Ho). auto.
  - intros h Hh Ho. cbv beta. now rewrite (wrap_own op nt nx ny _ Ho).
Qed.

(** Where directions were negative before (as init_river_data leaves them), every flow step
    goes strictly uphill in source drainage area, so no flow path returns to its start. *)
Theorem C46_uphill nt nx ny op large cutoff miss L S T0 D0 T D c c' :
  (forall c, own nt nx ny c -> directed large cutoff miss S c (L c) (T0 c) (D0 c) (T c) (D c)) ->
  (forall c, own nt nx ny c -> D0 c < 0) ->
  (forall h, in_frame nt nx ny h -> S (wrap op nx ny h) = S h) ->
  flows op nt nx ny D c c' ->
  (S c < S c')%R /\ T c = 2 ^ D c /\ 0 <= D c <= 7.
Proof.
  intros Hd Hn Hs (Ho & Hc & ->). specialize (Hd c Ho). specialize (Hn c Ho).
  destruct Hd as [(_ & _ & E)|[(_ & _ & _ & E)|(_ & [(_ & E & _)|(Ht & Hr & Hu & _)])]]; try lia. split; auto.
  unfold dest. rewrite Hs; auto. destruct c as [[n j] i]. cbn in Ho |- *.
  assert (V : D (n, j, i) = 0 \/ D (n, j, i) = 1 \/ D (n, j, i) = 2 \/ D (n, j, i) = 3 \/ D (n, j, i) = 4 \/ D (n, j, i) = 5 \/ D (n, j, i) = 6 \/ D (n, j, i) = 7) by lia.
  destruct V as [->|[->|[->|[->|[->|[->|[->| ->]]]]]]]; cbn; lia.
Qed.
Theorem C46_acyclic nt nx ny op large cutoff miss landfrac subA tocell dir L S T0 D0 tocell' dir' D :
  (-999 <= cutoff)%R -> op_ok op nt nx ny -> plain_field nt nx ny landfrac L -> haloed nt nx ny subA S ->
  haloed nt nx ny tocell T0 -> haloed nt nx ny dir D0 ->
  (forall c, own nt nx ny c -> D0 c < 0) ->
  (forall h, in_frame nt nx ny h -> S (wrap op nx ny h) = S h) ->
  calc_tocell nt nx ny op large cutoff miss landfrac subA tocell dir = Ok (tocell', dir') -> haloed nt nx ny dir' D ->
  forall c, ~ clos_trans cell (flows op nt nx ny D) c c.
Proof.
  intros Hc Hop HL HS HT HD Hn Hs E HD' c.
  destruct (C46_directions nt nx ny op large cutoff miss landfrac subA tocell dir L S T0 D0) as (t & d & T & D1 & E1 & Ht & Hd & H & _); auto.
  rewrite E in E1. injection E1 as <- <-.
  assert (U : forall a b, clos_trans cell (flows op nt nx ny D) a b -> (S a < S b)%R).
  { induction 1 as [a b F|a b c' _ IH1 _ IH2]; [|lra]. assert (F1 : flows op nt nx ny D1 a b).
    { destruct F as (Ho & F1 & F2). rewrite (haloed_same nt nx ny dir' D D1 a HD' Hd (own_frame _ _ _ _ Ho)) in F1, F2. split; auto. }
    eapply C46_uphill; eauto. }
  intros Hcc. specialize (U c c Hcc). lra.
Qed.

(** Hypotheses met: a row of three land cells and one partial land cell, areas rising eastwards *)
Definition exS (c : cell) : R := let '(_, j, i) := c in if (j =? 1) && (1 <=? i) && (i <=? 4) then IZR i else 0%R.
Definition exL (c : cell) : R := let '(_, j, i) := c in if i =? 4 then (1/2)%R else 1%R.
Definition solid := {| x_cyclic := false; y_cyclic := false; cubic := false |}.
Example C46_example : exists subA landfrac,
  haloed 1 4 1 subA exS /\ plain_field 1 4 1 landfrac exL /\ op_ok solid 1 4 1 /\
  haloed 1 4 1 [repeat (-1) 18] (fun _ => -1) /\ (forall h, in_frame 1 4 1 h -> exS (wrap solid 4 1 h) = exS h) /\
  drains_to 100 10 (-5) exS (0, 1, 2) 0.
Proof.
  exists [[0;0;0;0;0;0; 0;1;2;3;4;0; 0;0;0;0;0;0]%R], [[1;1;1;1/2]%R]. split.
  { split; [reflexivity|]. intros n Hn. replace n with 0 by lia. eexists. split; [reflexivity|]. split; [reflexivity|]. intros j i Hj Hi.
    assert (J : j = 0 \/ j = 1 \/ j = 2) by lia. assert (I : i = 0 \/ i = 1 \/ i = 2 \/ i = 3 \/ i = 4 \/ i = 5) by lia.
    destruct J as [->|[->| ->]]; destruct I as [->|[->|[->|[->|[->| ->]]]]]; reflexivity. }
  split. { split; [reflexivity|]. intros n Hn. replace n with 0 by lia. eexists. split; [reflexivity|]. split; [reflexivity|]. intros j i Hj Hi.
    replace j with 1 by lia. assert (I : i = 1 \/ i = 2 \/ i = 3 \/ i = 4) by lia. destruct I as [->|[->|[->| ->]]]; reflexivity. }
  split. { repeat split; try (cbn; intros; lia); discriminate. }
  split. { apply (haloed_repeat 1 4 1 (-1)); lia. }
  split. { intros [[n j] i] _. reflexivity. }
  split; [lia|]. split; [cbn; lra|]. split; [|cbn; lra]. intros _. split; [cbn; lra|].
  intros d' Hd' _. assert (V : d' = 0 \/ d' = 1 \/ d' = 2 \/ d' = 3 \/ d' = 4 \/ d' = 5 \/ d' = 6 \/ d' = 7) by lia.
  destruct V as [->|[->|[->|[->|[->|[->|[->| ->]]]]]]]; cbn; lra.
Qed.
Print Assumptions C46_directions.
Print Assumptions C46_uphill.
Print Assumptions C46_acyclic.
