(** * C44, C45: basins, travel counts and drainage areas *)
From Coq Require Import Reals Lra Relations Permutation.
From Verif Require Import Base M_Interp Spec_Interp P_Interp2 M_River Spec_River Tiles P_Halo P_Network P_SortBasin P_RiverData P_RiverArea P_Tocell T_Tocell P_Ncc3.
Open Scope Z_scope.

(** What calc_river_data is given: codes [T] and directions [D] of an acyclic network, with
    halo values that agree with the cells they stand for and no direction where there is no
    such cell; basin and travel fields filled with missing values [bm], [tm]. *)
Definition river_input op nt nx ny tcm bm tm T D : Prop :=
  op_ok op nt nx ny /\ net_ok op nt nx ny tcm T D /\ acyclic op nt nx ny D /\ bm < 1 /\ tm < 0 /\
  (forall h, in_frame nt nx ny h -> D (wrap op nx ny h) = D h) /\
  (forall h, in_frame nt nx ny h -> ~ own nt nx ny (wrap op nx ny h) -> D h < 0).
(** The loop over travel counts goes on: some cell flows into a sink, or no cell is further
    than one step upstream.  See C44_early_stop_refuted. *)
Definition starts op nt nx ny tcm T D : Prop :=
  (exists c o, drains op nt nx ny tcm T D c o 1 /\ ~ outlet op nt nx ny tcm T D c 1) \/
  (forall c o k, drains op nt nx ny tcm T D c o k -> k <= 1).

Section Run.
  Context (op : opcode) (nt nx ny tcm bm tm : Z) (T D : cell -> Z) (miss : R) (a : cell -> R) (P0 : cell -> Z).
  Context (fuel : nat) (tocell dir basin travel last : list (list Z)) (cellarea : list (list R)).
  Context (Hin : river_input op nt nx ny tcm bm tm T D) (Hst : starts op nt nx ny tcm T D) (Hfuel : nt * ny * nx < Z.of_nat fuel)
    (HT : haloed nt nx ny tocell T) (HD : haloed nt nx ny dir D) (HB : haloed nt nx ny basin (fun _ => bm)) (HV : haloed nt nx ny travel (fun _ => tm))
    (HP : plain_field nt nx ny last P0) (HA : plain_field nt nx ny cellarea a).
  Notation drains := (drains op nt nx ny tcm T D). Notation outlet := (outlet op nt nx ny tcm T D).

  Lemma river_run : exists basin' travel' last' subA B V P A nb,
    calc_river_data fuel nt nx ny op tcm bm miss tocell dir basin travel last cellarea = Ok (basin', travel', last', subA) /\
    haloed nt nx ny basin' B /\ haloed nt nx ny travel' V /\ plain_field nt nx ny last' P /\ haloed nt nx ny subA A /\
    (forall c o k, drains c o k -> V c = k /\ B c = B o) /\
    (forall c, own nt nx ny c -> T c < 0 -> V c = tm /\ B c = bm /\ A c = miss) /\
    (forall c k, outlet c k -> 1 <= B c <= nb /\ P c = 1) /\
    (forall c, own nt nx ny c -> (forall k, ~ outlet c k) -> P c = P0 c) /\
    (forall b, 1 <= b <= nb -> exists o k, outlet o k /\ B o = b) /\
    (forall o o' k k', outlet o k -> outlet o' k' -> B o = B o' -> o = o') /\
    (forall c, own nt nx ny c -> 0 <= T c -> exists L, upstream op nt nx ny D c L /\ A c = rsum a L).
  Proof.
    destruct Hin as (Hop & Hnet & Hac & Hbm & Htm & HDw & HDo). pose proof Hop as (Hx & Hy & Ht & _).
    pose proof (land_drains op nt nx ny tcm T D Hop Hnet Hac) as Hall. unfold calc_river_data.
    destruct (coast_run op nt nx ny tcm bm tm T D Hop Hnet Hbm HDw tocell dir HT HD basin travel last P0 HB HV HP)
      as (nb & b1 & t1 & l1 & B1 & V1 & P & E1 & HB1 & HV1 & HP1 & C1 & C2 & C3 & C4 & C5). rewrite E1. cbn [bind].
    destruct (update_halo_run nt nx ny op b1 B1 Hop HB1) as (b2 & E2 & HB2). rewrite E2. cbn [bind].
    destruct (update_halo_run nt nx ny op t1 V1 Hop HV1) as (t2 & E3 & HV2). rewrite E3. cbn [bind].
    destruct (grow_run op nt nx ny tcm bm tm T D Hop Hnet Hbm Htm HDw dir HD B1 (fun o k Hk => proj1 (proj1 (C3 o k Hk))) Hall Hst fuel 0 b2 t2
      (fun c => B1 (wrap op nx ny c)) (fun c => V1 (wrap op nx ny c))) as (b3 & t3 & B & V & E4 & HB3 & HV3 & G1 & G2 & G3 & G4); auto; try nia.
    { intros c Ho. rewrite (wrap_own op nt nx ny c Ho). destruct (outlet_dec op nt nx ny tcm T D c Ho) as [[k Hk]|Hno].
      - destruct (C3 c k Hk) as (? & ? & _). apply (st_intro op nt nx ny tcm bm tm T D B1 0 c c k); auto; [constructor; auto|]. intros _ Hn. easy.
      - destruct (C2 c Ho Hno) as (-> & -> & _). split; [|auto]. intros o k Hdr [Hk|Hk]; [|now elim (Hno k)].
        exfalso. inversion Hdr as [? ? Hk'|? ? k' ? ? ? Hd']; subst; [now elim (Hno k)|]. destruct (drains_own _ _ _ _ _ _ _ _ _ _ Hd') as (_ & ? & _). lia. }
    { intros h Hh. rewrite (wrap_wrap op nt nx ny h Hop Hh). auto. }
    rewrite E4. cbn [bind].
    destruct (max_cells_run nt nx ny t3 V ltac:(lia) ltac:(lia) ltac:(lia) HV3) as (M & E5 & HM & HMV & _). rewrite E5. cbn [bind].
    destruct (area_run op nt nx ny tcm T D V a Hop Hnet HDw HDo (fun c o k H => proj1 (G1 c o k H))
      (fun c Ho HTc => eq_ind_r (fun v => v < 0) Htm (proj1 (G2 c Ho HTc))) Hall dir t3 cellarea HD HV3 HA M _ _ HM HMV
      (haloed_repeat nt nx ny miss ltac:(lia) ltac:(lia) ltac:(lia)) (fun h _ => eq_refl)) as (s & A & E6 & HS & A1 & A2 & A3). rewrite E6. cbn [bind].
    exists b3, t3, l1, s, B, V, P, A, nb. split; auto. split; auto. split; auto. split; auto. split; auto.
    assert (Bo : forall o k, outlet o k -> B o = B1 o) by (intros o k Hk; apply (G1 o o k); constructor; auto).
    split. { intros c o k Hk. destruct (G1 c o k Hk) as [Ev Eb]. split; auto. rewrite Eb. destruct (drains_own _ _ _ _ _ _ _ _ _ _ Hk) as (_ & _ & _ & k0 & Hk0). rewrite (Bo o k0); auto. }
    split. { intros c Ho Hc. destruct (G2 c Ho Hc). rewrite (A2 c Ho Hc). auto. }
    split. { intros c k Hk. rewrite (Bo c k Hk). destruct (C3 c k Hk) as (? & _ & ?). auto. }
    split. { intros c Ho Hno. destruct (C2 c Ho Hno) as (_ & _ & ?). auto. }
    split. { intros b Hb. destruct (C4 b Hb) as (o & k & Hk & Eo). exists o, k. split; auto. rewrite (Bo o k Hk). auto. }
    split. { intros o o' k k' Hk Hk'. rewrite (Bo o k Hk), (Bo o' k' Hk'). eauto. }
    exact A1.
  Qed.
End Run.

(** C44: every cell without land keeps the missing values; every land cell drains to an outlet
    and gets that outlet's basin and its number of steps; outlets, and only they, are marked
    as last points; the basins of different outlets differ and are numbered 1..nb.  The loop
    ends after at most as many rounds as there are cells. *)
Theorem C44_basins_partial op nt nx ny tcm bm tm T D miss a P0 fuel tocell dir basin travel last cellarea :
  river_input op nt nx ny tcm bm tm T D -> starts op nt nx ny tcm T D -> nt * ny * nx < Z.of_nat fuel ->
  haloed nt nx ny tocell T -> haloed nt nx ny dir D -> haloed nt nx ny basin (fun _ => bm) -> haloed nt nx ny travel (fun _ => tm) ->
  plain_field nt nx ny last P0 -> (forall c, P0 c = 0) -> plain_field nt nx ny cellarea a ->
  exists basin' travel' last' subA B V P nb,
    calc_river_data fuel nt nx ny op tcm bm miss tocell dir basin travel last cellarea = Ok (basin', travel', last', subA) /\
    haloed nt nx ny basin' B /\ haloed nt nx ny travel' V /\ plain_field nt nx ny last' P /\
    (forall c, own nt nx ny c -> T c = tcm -> V c = tm /\ B c = bm) /\
    (forall c, own nt nx ny c -> T c <> tcm -> exists o k, drains op nt nx ny tcm T D c o k /\ V c = k /\ B c = B o /\ B c <> bm) /\
    (forall c, own nt nx ny c -> (P c <> 0 <-> exists k, outlet op nt nx ny tcm T D c k)) /\
    (forall c, own nt nx ny c -> B c = bm \/ 1 <= B c <= nb) /\
    (forall b, 1 <= b <= nb -> exists o, own nt nx ny o /\ P o <> 0 /\ B o = b) /\
    (forall o o', own nt nx ny o -> own nt nx ny o' -> P o <> 0 -> P o' <> 0 -> B o = B o' -> o = o').
Proof.
  intros Hin Hst Hf HT HD HB HV HP HP0 HA.
  destruct (river_run op nt nx ny tcm bm tm T D miss a P0 fuel tocell dir basin travel last cellarea Hin Hst Hf HT HD HB HV HP HA)
    as (b & t & l & s & B & V & P & A & nb & E & HB' & HV' & HP' & _ & R1 & R2 & R3 & R4 & R5 & R6 & _).
  destruct Hin as (Hop & Hnet & Hac & Hbm & Htm & _). pose proof (land_drains op nt nx ny tcm T D Hop Hnet Hac) as Hall.
  exists b, t, l, s, B, V, P, nb. split; auto. split; auto. split; auto. split; auto.
  assert (Land : forall c, own nt nx ny c -> T c <> tcm -> exists o k, drains op nt nx ny tcm T D c o k /\ V c = k /\ B c = B o /\ 1 <= B c <= nb).
  { intros c Ho Hc. destruct (Hall c Ho) as (o & k & Hk). { destruct Hnet as (_ & Hn & _). destruct (Hn c Ho) as [[? _]|[[? _]|[? _]]]; [easy|lia|lia]. }
    exists o, k. destruct (R1 c o k Hk) as [Ev Eb]. split; auto. split; auto. split; auto. rewrite Eb. destruct (drains_own _ _ _ _ _ _ _ _ _ _ Hk) as (_ & _ & _ & k0 & Hk0).
    apply (R3 o k0 Hk0). }
  assert (Sea : forall c, own nt nx ny c -> T c = tcm -> V c = tm /\ B c = bm).
  { intros c Ho Ec. destruct Hnet as (Hm & _). destruct (R2 c Ho ltac:(lia)) as (? & ? & _). auto. }
  assert (Out : forall c, own nt nx ny c -> (P c <> 0 <-> exists k, outlet op nt nx ny tcm T D c k)).
  { intros c Ho. destruct (outlet_dec op nt nx ny tcm T D c Ho) as [[k Hk]|Hno].
    - destruct (R3 c k Hk) as [_ ->]. split; [eauto|intros _; lia].
    - rewrite (R4 c Ho Hno), HP0. split; [easy|]. intros (k & Hk). now elim (Hno k). }
  split; auto. split. { intros c Ho Hc. destruct (Land c Ho Hc) as (o & k & H1 & H2 & H3 & H4). exists o, k. repeat split; auto. lia. }
  split; auto. split. { intros c Ho. destruct (Z.eq_dec (T c) tcm) as [Ec|Nc]; [left; apply Sea; auto|right]. destruct (Land c Ho Nc) as (o & k & _ & _ & _ & H). auto. }
  split. { intros b0 Hb. destruct (R5 b0 Hb) as (o & k & Hk & Eo). exists o. split; [apply Hk|]. split; auto. apply Out; [apply Hk|eauto]. }
  intros o o' Ho Ho' HPo HPo'. apply (Out o Ho) in HPo. apply (Out o' Ho') in HPo'. destruct HPo as [k Hk], HPo' as [k' Hk']. eauto.
Qed.

(** C45: the drainage area of every land cell is the total area of the cells whose flow path
    passes through it; the areas of the outlets add up to the area of all land. *)
Theorem C45_area_partial op nt nx ny tcm bm tm T D miss a P0 fuel tocell dir basin travel last cellarea :
  river_input op nt nx ny tcm bm tm T D -> starts op nt nx ny tcm T D -> nt * ny * nx < Z.of_nat fuel ->
  haloed nt nx ny tocell T -> haloed nt nx ny dir D -> haloed nt nx ny basin (fun _ => bm) -> haloed nt nx ny travel (fun _ => tm) ->
  plain_field nt nx ny last P0 -> plain_field nt nx ny cellarea a ->
  exists basin' travel' last' subA A,
    calc_river_data fuel nt nx ny op tcm bm miss tocell dir basin travel last cellarea = Ok (basin', travel', last', subA) /\
    haloed nt nx ny subA A /\
    (forall c, own nt nx ny c -> T c = tcm -> A c = miss) /\
    (forall c, own nt nx ny c -> T c <> tcm -> (exists L, upstream op nt nx ny D c L) /\ forall L, upstream op nt nx ny D c L -> A c = rsum a L) /\
    (forall outlets land, NoDup outlets -> NoDup land ->
       (forall o, In o outlets <-> exists k, outlet op nt nx ny tcm T D o k) ->
       (forall c, In c land <-> own nt nx ny c /\ T c <> tcm) ->
       rsum A outlets = rsum a land).
Proof.
  intros Hin Hst Hf HT HD HB HV HP HA.
  destruct (river_run op nt nx ny tcm bm tm T D miss a P0 fuel tocell dir basin travel last cellarea Hin Hst Hf HT HD HB HV HP HA)
    as (b & t & l & s & B & V & P & A & nb & E & _ & _ & _ & HA' & R1 & R2 & _ & _ & _ & _ & R7).
  destruct Hin as (Hop & Hnet & Hac & Hbm & Htm & _). pose proof (land_drains op nt nx ny tcm T D Hop Hnet Hac) as Hall. pose proof Hnet as (Hm & Hn & _).
  assert (Land : forall c, own nt nx ny c -> T c <> tcm -> 0 <= T c) by (intros c Ho Hc; destruct (Hn c Ho) as [[? _]|[[? _]|[? _]]]; [easy|lia|lia]).
  exists b, t, l, s, A. split; auto. split; auto. split; [intros c Ho Hc; apply (R2 c Ho); lia|].
  assert (Up : forall c, own nt nx ny c -> T c <> tcm -> forall L, upstream op nt nx ny D c L -> A c = rsum a L).
  { intros c Ho Hc L [HL HLi]. destruct (R7 c Ho (Land c Ho Hc)) as (L' & [HL' HLi'] & ->). apply rsum_perm. apply NoDup_Permutation; auto. intros q. rewrite HLi, HLi'. tauto. }
  split. { intros c Ho Hc. split; [|apply Up; auto]. destruct (R7 c Ho (Land c Ho Hc)) as (L & HL & _). eauto. }
  (* flow paths and outlets *)
  assert (F1 : forall x o k0, outlet op nt nx ny tcm T D o k0 -> clos_refl_trans cell (flows op nt nx ny D) x o -> exists k, drains op nt nx ny tcm T D x o k).
  { intros x o k0 Hk0 R0. apply clos_rt_rt1n_iff in R0. induction R0 as [x|x z o F _ IH]; [exists k0; constructor; auto|]. destruct (IH Hk0) as (k & Hk). exists (k + 1).
    destruct F as (Ho & Hd & ->). destruct (drains_own _ _ _ _ _ _ _ _ _ _ Hk) as (_ & _ & Hz & _). constructor; auto.
    - destruct (Hn x Ho) as [[_ ?]|[[_ ?]|[? _]]]; lia.
    - unfold next. lia. }
  assert (F2 : forall x o k, drains op nt nx ny tcm T D x o k -> clos_refl_trans cell (flows op nt nx ny D) x o).
  { induction 1 as [c k _|c o k Ho HTc _ _ IH]; [apply rt_refl|]. eapply rt_trans; [|exact IH]. constructor. split; auto. split; auto.
    destruct (Hn c Ho) as [[? _]|[[? _]|(_ & ? & _)]]; lia. }
  intros outlets land Hod Hld Ho Hl.
  assert (M : forall os, NoDup os -> (forall o, In o os -> exists k, outlet op nt nx ny tcm T D o k) -> exists M, NoDup M /\
    (forall x, In x M <-> exists o, In o os /\ own nt nx ny x /\ clos_refl_trans cell (flows op nt nx ny D) x o) /\ rsum a M = rsum A os).
  { induction os as [|o os IH]; intros Hd Hos.
    - exists []. split; [constructor|]. split; [|reflexivity]. intros x. split; [intros []|intros (o & [] & _)].
    - inversion Hd; subst. destruct IH as (M & HM & HMi & HMs); auto. { intros; apply Hos; right; auto. }
      destruct (Hos o (or_introl eq_refl)) as (k & Hk). assert (HT0 : 0 <= T o) by (destruct Hk as (_ & [[? _]|[? _]]); lia).
      destruct (R7 o (proj1 Hk) HT0) as (L & [HL HLi] & HLs). exists (L ++ M). split; [|split].
      + apply NoDup_app_intro; auto. intros x Hx Hx'. apply HLi in Hx. apply HMi in Hx'. destruct Hx as [_ Q1], Hx' as (o' & Ho' & _ & Q2).
        destruct (Hos o' (or_intror Ho')) as (k' & Hk'). destruct (F1 x o k Hk Q1) as (k1 & D1). destruct (F1 x o' k' Hk' Q2) as (k2 & D2).
        destruct (drains_fun _ _ _ _ _ _ _ _ _ _ D1 _ _ D2) as [-> _]. auto.
      + intros x. rewrite in_app_iff, HLi, HMi. split.
        * intros [[Q1 Q2]|(o' & Q1 & Q2)]; [exists o; split; [left; auto|auto]|exists o'; split; [right; auto|auto]].
        * intros (o' & [<-|Q1] & Q2); [left; auto|right; eauto].
      + rewrite rsum_app, rsum_cons. lra. }
  destruct (M outlets Hod) as (M0 & HM & HMi & HMs). { intros o Hoo. apply Ho. auto. }
  rewrite <- HMs. apply rsum_perm. apply NoDup_Permutation; auto. intros x. rewrite HMi, Hl. split.
  - intros (o & Hoo & Hx & Q). split; auto. apply Ho in Hoo. destruct Hoo as (k & Hk). destruct (F1 x o k Hk Q) as (k1 & D1).
    destruct (drains_own _ _ _ _ _ _ _ _ _ _ D1) as (_ & _ & ? & _). lia.
  - intros [Hx HTx]. destruct (Hall x Hx (Land x Hx HTx)) as (o & k & Hk). exists o. destruct (drains_own _ _ _ _ _ _ _ _ _ _ Hk) as (_ & _ & _ & Hk0).
    split; [apply Ho; auto|]. split; auto. apply (F2 _ _ _ Hk).
Qed.

(** The output of calc_tocell on freshly initialised fields is such an input. *)
Theorem C46_network nt nx ny op large cutoff miss landfrac subA tocell dir L S tcm d0 bm tm :
  (-999 <= cutoff)%R -> op_ok op nt nx ny -> plain_field nt nx ny landfrac L -> haloed nt nx ny subA S ->
  haloed nt nx ny tocell (fun _ => tcm) -> haloed nt nx ny dir (fun _ => d0) -> tcm < 0 -> d0 < 0 -> bm < 1 -> tm < 0 ->
  (forall h, in_frame nt nx ny h -> S (wrap op nx ny h) = S h) ->
  exists tocell' dir' T D, calc_tocell nt nx ny op large cutoff miss landfrac subA tocell dir = Ok (tocell', dir') /\
    haloed nt nx ny tocell' T /\ haloed nt nx ny dir' D /\ river_input op nt nx ny tcm bm tm T D.
Proof.
  intros Hc Hop HL HS HT HD Ht Hd Hbm Htm Hw.
  destruct (tocell_run nt nx ny op large cutoff miss landfrac subA tocell dir L S (fun _ => tcm) (fun _ => d0)) as (t & d & T & D & E & HT' & HD' & Hout & H); auto.
  exists t, d, (fun c => T (wrap op nx ny c)), (fun c => D (wrap op nx ny c)). split; auto. split; auto. split; auto.
  assert (Hac : forall c, ~ clos_trans cell (flows op nt nx ny (fun c => D (wrap op nx ny c))) c c).
  { eapply (C46_acyclic nt nx ny op large cutoff miss landfrac subA tocell dir L S (fun _ => tcm) (fun _ => d0)); eauto. }
  assert (W : forall c, own nt nx ny c -> wrap op nx ny c = c) by (intros; apply (wrap_own op nt nx ny); auto).
  split; auto. split; [|split; [exact Hac|split; auto; split; auto; split]].
  - split; auto. split.
    + intros c Ho. rewrite (W c Ho). unfold next. rewrite (W c Ho).
      destruct (H c Ho) as [(_ & -> & ->)|[(_ & _ & -> & ->)|(_ & [(-> & -> & _)|(-> & Hr & _)])]]; auto. right. right.
      split; [apply Z.pow_pos_nonneg; lia|]. split; [lia|]. pose proof (step_frame nt nx ny c (D c) Ho ltac:(lia)) as Hf. unfold dest.
      destruct (own_dec nt nx ny (wrap op nx ny (step c (D c)))) as [|N]; auto. right. rewrite (wrap_wrap op nt nx ny _ Hop Hf). apply Hout. auto.
    + intros h Hh. now rewrite (wrap_wrap op nt nx ny h Hop Hh).
  - intros h Hh. now rewrite (wrap_wrap op nt nx ny h Hop Hh).
  - intros h Hh N. destruct (Hout _ N) as [_ ->]. auto.
Qed.

(** A row of three land cells and one ocean cell; the first [e] land cells flow east. *)
Definition rowD e (c : cell) : Z := let '(_, j, i) := c in if (j =? 1) && (1 <=? i) && (i <=? e) then 0 else -1.
Definition rowT e (c : cell) : Z := let '(_, j, i) := c in if (j =? 1) && (1 <=? i) && (i <=? 3) then (if i <=? e then 1 else 0) else -1.
Lemma row_cells c : own 1 4 1 c -> c = (0,1,1) \/ c = (0,1,2) \/ c = (0,1,3) \/ c = (0,1,4).
Proof.
  destruct c as [[n j] i]. intros (Hn & Hj & Hi). replace n with 0 by lia. replace j with 1 by lia.
  assert (I : i = 1 \/ i = 2 \/ i = 3 \/ i = 4) by lia. destruct I as [->|[->|[->| ->]]]; auto.
Qed.
Lemma row_input e : e = 2 \/ e = 3 -> river_input solid 1 4 1 (-1) (-1) (-1) (rowT e) (rowD e).
Proof.
  intros He. split; [repeat split; try (cbn; intros; lia); discriminate|]. split; [|split].
  - split; [lia|]. split; [|intros [[n j] i] _; reflexivity]. intros c Hc. destruct He as [->| ->].
    + destruct (row_cells c Hc) as [->|[->|[->| ->]]]; cbn; [right; right; split; [lia|split; [lia|left; repeat split; lia]] ..|right; left; lia|left; lia].
    + destruct (row_cells c Hc) as [->|[->|[->| ->]]]; cbn; [right; right; split; [lia|split; [lia|auto]] ..|left; lia]; left; repeat split; lia.
  - assert (U : forall a b, clos_trans cell (flows solid 1 4 1 (rowD e)) a b -> snd a < snd b).
    { induction 1 as [a b F|]; [|lia]. destruct F as (Ho & Hd & ->). destruct a as [[n j] i]. cbn in Hd. cbn.
      destruct ((j =? 1) && (1 <=? i) && (i <=? e)); [cbn; lia|lia]. }
    intros c Hc. specialize (U c c Hc). lia.
  - split; [lia|]. split; [lia|]. split; [intros [[n j] i] _; reflexivity|]. intros [[n j] i] Hh N. cbn in N. cbn.
    destruct (Z.eqb_spec j 1); [|reflexivity]. destruct (Z.leb_spec 1 i); [|reflexivity]. destruct (Z.leb_spec i e); [|reflexivity]. elim N. destruct Hh. repeat split; lia.
Qed.
Lemma row_haloed e : e = 2 \/ e = 3 ->
  haloed 1 4 1 [[-1;-1;-1;-1;-1;-1; -1;1;1;(if e =? 2 then 0 else 1);-1;-1; -1;-1;-1;-1;-1;-1]] (rowT e) /\
  haloed 1 4 1 [[-1;-1;-1;-1;-1;-1; -1;0;0;(if e =? 2 then -1 else 0);-1;-1; -1;-1;-1;-1;-1;-1]] (rowD e).
Proof.
  intros He. split; (split; [reflexivity|]; intros n Hn; replace n with 0 by lia; eexists; split; [reflexivity|]; split; [reflexivity|]; intros j i Hj Hi;
    assert (J : j = 0 \/ j = 1 \/ j = 2) by lia; assert (I : i = 0 \/ i = 1 \/ i = 2 \/ i = 3 \/ i = 4 \/ i = 5) by lia;
    destruct He as [->| ->]; destruct J as [->|[->| ->]]; destruct I as [->|[->|[->|[->|[->| ->]]]]]; reflexivity).
Qed.
Lemma row_plain {A} (x y z w : A) : plain_field 1 4 1 [[x; y; z; w]] (fun c => match snd c with 1 => x | 2 => y | 3 => z | _ => w end).
Proof.
  split; [reflexivity|]. intros n Hn. replace n with 0 by lia. eexists. split; [reflexivity|]. split; [reflexivity|]. intros j i Hj Hi.
  replace j with 1 by lia. assert (I : i = 1 \/ i = 2 \/ i = 3 \/ i = 4) by lia. destruct I as [->|[->|[->| ->]]]; reflexivity.
Qed.

(** Hypotheses met, with a sink in the third cell; the theorem gives counts 2, 1, 0. *)
Example C44_example :
  river_input solid 1 4 1 (-1) (-1) (-1) (rowT 2) (rowD 2) /\ starts solid 1 4 1 (-1) (rowT 2) (rowD 2) /\
  drains solid 1 4 1 (-1) (rowT 2) (rowD 2) (0,1,1) (0,1,3) 2 /\
  upstream solid 1 4 1 (rowD 2) (0,1,2) [(0,1,1); (0,1,2)].
Proof.
  assert (O3 : drains solid 1 4 1 (-1) (rowT 2) (rowD 2) (0,1,3) (0,1,3) 0) by (constructor; split; [repeat split; lia|left; split; reflexivity]).
  assert (O2 : drains solid 1 4 1 (-1) (rowT 2) (rowD 2) (0,1,2) (0,1,3) 1).
  { apply (drains_next solid 1 4 1 (-1) (rowT 2) (rowD 2) (0,1,2) (0,1,3) 0); [repeat split; lia|reflexivity|discriminate|exact O3]. }
  split; [apply row_input; auto|]. split; [|split].
  - left. exists (0,1,2), (0,1,3). split; auto. intros (_ & [[Q _]|(_ & Q & _)]); discriminate.
  - apply (drains_next solid 1 4 1 (-1) (rowT 2) (rowD 2) (0,1,1) (0,1,3) 1); [repeat split; lia|reflexivity|discriminate|exact O2].
  - split; [constructor; [intros [Q|[]]; discriminate|constructor; [intros []|constructor]]|]. intros q. split.
    + intros [<-|[<-|[]]]; (split; [repeat split; lia|]); [|apply rt_refl]. constructor. split; [repeat split; lia|]. split; [cbn; lia|reflexivity].
    + intros [Hq R]. apply clos_rt_rtn1_iff in R. inversion R as [|y z F Rq]; [right; left; auto|subst].
      destruct F as (Ho & Hd & Ey). destruct (row_cells y Ho) as [->|[->|[->| ->]]]; try (cbn in Ey; discriminate); try (cbn in Hd; lia).
      inversion Rq as [|y z F Rq']; [left; auto|subst]. destruct F as (Ho' & Hd' & Ey'). destruct (row_cells y Ho') as [->|[->|[->| ->]]]; cbn in Ey'; try discriminate; cbn in Hd'; lia.
Qed.

(** Finding: the loop stops as soon as a round assigns nothing, and the first round looks for
    cells that flow into sinks only.  On an acyclic network whose rivers all reach the ocean,
    cells more than one step from it get no basin, no travel count and no area. *)
Theorem C44_early_stop_refuted : forall fuel, exists subA,
  river_input solid 1 4 1 (-1) (-1) (-1) (rowT 3) (rowD 3) /\
  haloed 1 4 1 [[-1;-1;-1;-1;-1;-1; -1;1;1;1;-1;-1; -1;-1;-1;-1;-1;-1]] (rowT 3) /\
  haloed 1 4 1 [[-1;-1;-1;-1;-1;-1; -1;0;0;0;-1;-1; -1;-1;-1;-1;-1;-1]] (rowD 3) /\
  drains solid 1 4 1 (-1) (rowT 3) (rowD 3) (0,1,1) (0,1,3) 3 /\
  calc_river_data (S fuel) 1 4 1 solid (-1) (-1) (-1)%R
    [[-1;-1;-1;-1;-1;-1; -1;1;1;1;-1;-1; -1;-1;-1;-1;-1;-1]] [[-1;-1;-1;-1;-1;-1; -1;0;0;0;-1;-1; -1;-1;-1;-1;-1;-1]]
    [repeat (-1) 18] [repeat (-1) 18] [[0;0;0;0]] [[1;1;1;1]%R] =
  Ok ([[-1;-1;-1;-1;-1;-1; -1;-1;-1;1;-1;-1; -1;-1;-1;-1;-1;-1]], (* basins *)
      [[-1;-1;-1;-1;-1;-1; -1;-1;-1;1;-1;-1; -1;-1;-1;-1;-1;-1]], (* travel counts *)
      [[0;0;1;0]], subA).
Proof.
  intros fuel. eexists. split; [apply row_input; auto|]. destruct (row_haloed 3 (or_intror eq_refl)) as [H1 H2]. split; [exact H1|]. split; [exact H2|]. split.
  - assert (O3 : drains solid 1 4 1 (-1) (rowT 3) (rowD 3) (0,1,3) (0,1,3) 1) by (constructor; split; [repeat split; lia|right; repeat split; reflexivity]).
    apply (drains_next solid 1 4 1 (-1) (rowT 3) (rowD 3) (0,1,1) (0,1,3) 2); [repeat split; lia|reflexivity|discriminate|].
    apply (drains_next solid 1 4 1 (-1) (rowT 3) (rowD 3) (0,1,2) (0,1,3) 1); [repeat split; lia|reflexivity|discriminate|exact O3].
  - lazy -[IZR Rplus]. reflexivity.
Qed.
Print Assumptions C44_basins_partial.
Print Assumptions C44_early_stop_refuted.
Print Assumptions C45_area_partial.
Print Assumptions C46_network.
