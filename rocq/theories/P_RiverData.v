(** * Proofs about calc_river_data: basins and travel counts *)
From Coq Require Import Relations.
From Verif Require Import Base Loops M_River Spec_River Tiles P_Halo P_Network P_SortBasin.
Open Scope Z_scope.

Lemma di_dj d : 0 <= d <= 7 -> oget di d = Ok (snd (compass d)) /\ oget dj d = Ok (fst (compass d)).
Proof.
  intros Hd. assert (V : d = 0 \/ d = 1 \/ d = 2 \/ d = 3 \/ d = 4 \/ d = 5 \/ d = 6 \/ d = 7) by lia.
  destruct V as [->|[->|[->|[->|[->|[->|[->| ->]]]]]]]; split; reflexivity.
Qed.
Lemma last_put nt nx ny d (P : cell -> Z) n j i v : plain_field nt nx ny d P -> own nt nx ny (n, j, i) ->
  exists d', mset d n ((j - 1) * nx + i - 1) v = Ok d' /\ plain_field nt nx ny d' (put P (n, j, i) v).
Proof. intros H Ho. replace ((j - 1) * nx + i - 1) with ((j - 1) * nx + (i - 1)) by ring. eapply plain_put; eauto. Qed.

Section River.
  Context (op : opcode) (nt nx ny tcm bm tm : Z) (T D : cell -> Z) (Hop : op_ok op nt nx ny) (Hnet : net_ok op nt nx ny tcm T D)
    (Hbm : bm < 1) (Htm : tm < 0) (HDw : forall h, in_frame nt nx ny h -> D (wrap op nx ny h) = D h).
  Notation next := (next op nx ny D). Notation outlet := (outlet op nt nx ny tcm T D). Notation drains := (drains op nt nx ny tcm T D).
  Context (tocell dir : list (list Z)) (HT : haloed nt nx ny tocell T) (HD : haloed nt nx ny dir D).

  Lemma next_T c : own nt nx ny c -> 0 <= D c <= 7 -> T (step c (D c)) = T (next c).
  Proof. intros Ho Hd. destruct Hnet as (_ & _ & Hw). unfold Spec_River.next, dest. rewrite Hw; auto. apply step_frame; auto. Qed.

  (** ** Outlets *)
  Lemma coast_run basin travel last P0 : haloed nt nx ny basin (fun _ => bm) -> haloed nt nx ny travel (fun _ => tm) -> plain_field nt nx ny last P0 ->
    exists nb basin' travel' last' B V P, coast nt nx ny tcm tocell dir basin travel last = Ok (nb, basin', travel', last') /\
      haloed nt nx ny basin' B /\ haloed nt nx ny travel' V /\ plain_field nt nx ny last' P /\
      (forall c, ~ own nt nx ny c -> B c = bm /\ V c = tm) /\
      (forall c, own nt nx ny c -> (forall k, ~ outlet c k) -> B c = bm /\ V c = tm /\ P c = P0 c) /\
      (forall c k, outlet c k -> 1 <= B c <= nb /\ V c = k /\ P c = 1) /\
      (forall b, 1 <= b <= nb -> exists o k, outlet o k /\ B o = b) /\
      (forall o o' k k', outlet o k -> outlet o' k' -> B o = B o' -> o = o').
  Proof.
    intros HB HV HP. pose proof Hop as (Hx & Hy & Ht & _). unfold coast.
    match goal with |- context [for_cells nt nx ny ?f ?s] => destruct (for_cells_inv nt nx ny (fun p st => let '(nb, basin', travel', last') := st in
      exists B V P, haloed nt nx ny basin' B /\ haloed nt nx ny travel' V /\ plain_field nt nx ny last' P /\ 0 <= nb /\
      (forall c, ~ own nt nx ny c \/ p <= pos nx ny c -> B c = bm /\ V c = tm /\ P c = P0 c) /\
      (forall c, own nt nx ny c -> (forall k, ~ outlet c k) -> B c = bm /\ V c = tm /\ P c = P0 c) /\
      (forall c k, outlet c k -> pos nx ny c < p -> 1 <= B c <= nb /\ V c = k /\ P c = 1) /\
      (forall b, 1 <= b <= nb -> exists o k, outlet o k /\ pos nx ny o < p /\ B o = b) /\
      (forall o o' k k', outlet o k -> outlet o' k' -> pos nx ny o < p -> pos nx ny o' < p -> B o = B o' -> o = o')) f s)
      as ([[[nb basin'] travel'] last'] & E & B & V & P & HB' & HV' & HP' & _ & H1 & H2 & H3 & H4 & H5) end; try lia.
    - exists (fun _ => bm), (fun _ => tm), P0. repeat (split; [auto; lia|]). split; [|split].
      + intros c k Hk Hp. pose proof (pos_range nt nx ny c (proj1 Hk)). lia.
      + intros; lia.
      + intros o o' k k' Hk Hk' Hp. pose proof (pos_range nt nx ny o (proj1 Hk)). lia.
    - intros n j i [[[nb bs] tr] la] Ho (B & V & P & HB' & HV' & HP' & Hnb & H1 & H2 & H3 & H4 & H5). set (c := (n, j, i)) in *.
      pose proof (own_frame _ _ _ _ Ho) as Hf.
      assert (Keep : (forall k, ~ outlet c k) -> exists B V P, haloed nt nx ny bs B /\ haloed nt nx ny tr V /\ plain_field nt nx ny la P /\ 0 <= nb /\
        (forall c', ~ own nt nx ny c' \/ pos nx ny c + 1 <= pos nx ny c' -> B c' = bm /\ V c' = tm /\ P c' = P0 c') /\
        (forall c, own nt nx ny c -> (forall k, ~ outlet c k) -> B c = bm /\ V c = tm /\ P c = P0 c) /\
        (forall c' k, outlet c' k -> pos nx ny c' < pos nx ny c + 1 -> 1 <= B c' <= nb /\ V c' = k /\ P c' = 1) /\
        (forall b, 1 <= b <= nb -> exists o k, outlet o k /\ pos nx ny o < pos nx ny c + 1 /\ B o = b) /\
        (forall o o' k k', outlet o k -> outlet o' k' -> pos nx ny o < pos nx ny c + 1 -> pos nx ny o' < pos nx ny c + 1 -> B o = B o' -> o = o')).
      { intros Hno. assert (Q : forall o k, outlet o k -> pos nx ny o < pos nx ny c + 1 -> pos nx ny o < pos nx ny c).
        { intros o k Hk Hp. apply (pos_step nt nx ny c o Ho (proj1 Hk)) in Hp. destruct Hp as [->|]; auto. now elim (Hno k). }
        exists B, V, P. repeat (split; [assumption|]). split; [|split; [assumption|split; [|split]]].
        - intros c' Hc'. apply H1. destruct Hc'; [auto|right; lia].
        - intros c' k Hk Hp. eauto.
        - intros b Hb. destruct (H4 b Hb) as (o & k & Hk & Hp & Eo). exists o, k. repeat split; auto; try lia; apply Hk.
        - intros; eapply H5; eauto. }
      assert (Set_ : forall k, outlet c k -> exists bs', mset bs n (j * (nx + 2) + i) (nb + 1) = Ok bs' /\ exists tr', mset tr n (j * (nx + 2) + i) k = Ok tr' /\
        exists la', mset la n ((j - 1) * nx + i - 1) 1 = Ok la' /\
        exists B V P, haloed nt nx ny bs' B /\ haloed nt nx ny tr' V /\ plain_field nt nx ny la' P /\ 0 <= nb + 1 /\
        (forall c', ~ own nt nx ny c' \/ pos nx ny c + 1 <= pos nx ny c' -> B c' = bm /\ V c' = tm /\ P c' = P0 c') /\
        (forall c, own nt nx ny c -> (forall k, ~ outlet c k) -> B c = bm /\ V c = tm /\ P c = P0 c) /\
        (forall c' k, outlet c' k -> pos nx ny c' < pos nx ny c + 1 -> 1 <= B c' <= nb + 1 /\ V c' = k /\ P c' = 1) /\
        (forall b, 1 <= b <= nb + 1 -> exists o k, outlet o k /\ pos nx ny o < pos nx ny c + 1 /\ B o = b) /\
        (forall o o' k k', outlet o k -> outlet o' k' -> pos nx ny o < pos nx ny c + 1 -> pos nx ny o' < pos nx ny c + 1 -> B o = B o' -> o = o')).
      { intros k Hk. destruct (haloed_put nt nx ny bs B n j i (nb + 1) HB' Hf) as (bs' & E1 & HB1). exists bs'. split; auto.
        destruct (haloed_put nt nx ny tr V n j i k HV' Hf) as (tr' & E2 & HV1). exists tr'. split; auto.
        destruct (last_put nt nx ny la P n j i 1 HP' Ho) as (la' & E3 & HP1). exists la'. split; auto. fold c in HB1, HV1, HP1.
        assert (Q : forall o k, outlet o k -> pos nx ny o < pos nx ny c + 1 -> o = c \/ (o <> c /\ pos nx ny o < pos nx ny c)).
        { intros o k1 Hk1 Hp. apply (pos_step nt nx ny c o Ho (proj1 Hk1)) in Hp. destruct (cell_dec o c); auto. destruct Hp; auto. }
        exists (put B c (nb + 1)), (put V c k), (put P c 1). repeat (split; [assumption|]). split; [lia|]. split; [|split; [|split; [|split]]].
        - intros c' Hc'. assert (c' <> c) by (intros ->; destruct Hc'; [auto|lia]). rewrite !put_ne by auto. apply H1. destruct Hc'; [auto|right; lia].
        - intros c' Ho' Hno. assert (c' <> c) by (intros ->; now elim (Hno k)). rewrite !put_ne by auto. auto.
        - intros c' k1 Hk1 Hp. destruct (Q _ _ Hk1 Hp) as [->|[Hne Hp']].
          + rewrite !put_eq. split; [lia|]. split; auto. eapply outlet_fun; eauto.
          + rewrite !put_ne by auto. destruct (H3 c' k1 Hk1 Hp') as (? & ? & ?). split; [lia|auto].
        - intros b Hb. destruct (Z.eq_dec b (nb + 1)) as [->|Nb].
          + exists c, k. rewrite put_eq. repeat split; auto; try lia; apply Hk.
          + destruct (H4 b ltac:(lia)) as (o & k1 & Hk1 & Hp & Eo). exists o, k1. split; auto. split; [lia|]. rewrite put_ne; auto. intros ->. lia.
        - intros o o' k1 k1' Hk1 Hk1' Hp Hp'. destruct (Q _ _ Hk1 Hp) as [->|[Hne Hq]]; destruct (Q _ _ Hk1' Hp') as [->|[Hne' Hq']]; auto.
          + rewrite put_eq, put_ne by auto. intros Eb. destruct (H3 o' k1' Hk1' Hq'). lia.
          + rewrite put_eq, put_ne by auto. intros Eb. destruct (H3 o k1 Hk1 Hq). lia.
          + rewrite !put_ne by auto. eauto. }
      rewrite (haloed_get _ _ _ _ _ _ _ _ HT Hf). cbn [bind]. fold c.
      destruct Hnet as (Hm & Hc & _). destruct (Z.eqb_spec (T c) 0) as [E0|E0].
      { destruct (Set_ 0) as (bs' & E1 & tr' & E2 & la' & E3 & H). { split; auto. } rewrite E1, E2, E3. cbn [bind]. eexists; split; [reflexivity|exact H]. }
      rewrite Z.gtb_ltb. destruct (Z.ltb_spec 0 (T c)) as [Hpos|Hneg].
      2:{ eexists; split; [reflexivity|]. apply Keep. intros k (_ & [[? _]|(? & _)]); lia. }
      destruct (Hc c Ho) as [[E _]|[[E _]|(_ & Hd & _)]]; [lia|lia|].
      rewrite (haloed_get _ _ _ _ _ _ _ _ HD Hf). cbn [bind]. fold c. destruct (di_dj (D c) Hd) as [E1 E2]. rewrite E1, E2. cbn [bind].
      pose proof (step_frame nt nx ny c (D c) Ho Hd) as Hfs. unfold c in Hfs at 1. unfold step in Hfs.
      rewrite (haloed_get _ _ _ _ _ _ _ _ HT Hfs). cbn [bind].
      change (T (n, j + fst (compass (D c)), i + snd (compass (D c)))) with (T (step c (D c))). rewrite (next_T c Ho Hd).
      destruct (Z.eqb_spec (T (next c)) tcm) as [En|Nn].
      + destruct (Set_ 1) as (bs' & E3 & tr' & E4 & la' & E5 & H). { split; auto. } rewrite E3, E4, E5. cbn [bind]. eexists; split; [reflexivity|exact H].
      + eexists; split; [reflexivity|]. apply Keep. intros k (_ & [[? _]|(_ & ? & _)]); [lia|auto].
    - exists nb, basin', travel', last', B, V, P.
      assert (Q : forall o k, outlet o k -> pos nx ny o < nt * ny * nx) by (intros o k Hk; apply (pos_range nt nx ny o (proj1 Hk))).
      split; auto. repeat (split; [assumption|]). split; [intros c Hc; destruct (H1 c (or_introl Hc)) as (? & ? & _); auto|]. split; auto. split; [eauto|].
      split; [|eauto 10]. intros b Hb. destruct (H4 b Hb) as (o & k & Hk & _ & Eo). eauto.
  Qed.

  (** ** Growing upstream.  [id o] is the number of outlet [o]. *)
  Context (id : cell -> Z) (Hid : forall o k, outlet o k -> 1 <= id o) (Hall : forall c, own nt nx ny c -> 0 <= T c -> exists o k, drains c o k).
  (** Value at [c] once everything with count up to [m] is filled in *)
  Definition st (m : Z) (c : cell) (v b : Z) : Prop :=
    (forall o k, drains c o k -> k <= m \/ outlet c k -> v = k /\ b = id o) /\
    ((forall o k, drains c o k -> m < k /\ ~ outlet c k) -> v = tm /\ b = bm).
  Lemma out_dec c k : own nt nx ny c -> {outlet c k} + {~ outlet c k}.
  Proof.
    intros Ho. destruct (outlet_dec op nt nx ny tcm T D c Ho) as [[k' H]|H]; [|right; auto].
    destruct (Z.eq_dec k k') as [->|N]; [left; auto|right]. intros H'. apply N. eapply outlet_fun; eauto.
  Qed.
  (** a land cell is filled in at stage m or not *)
  Lemma st_cases m c v b o k : st m c v b -> drains c o k -> (v = k /\ b = id o /\ (k <= m \/ outlet c k)) \/ (v = tm /\ b = bm /\ m < k /\ ~ outlet c k).
  Proof.
    intros [S1 S2] H. destruct (drains_own _ _ _ _ _ _ _ _ _ _ H) as (Ho & _).
    destruct (out_dec c k Ho) as [Hk|Hk]; [left; destruct (S1 o k H); auto|]. destruct (Z_le_dec k m) as [L|L]; [left; destruct (S1 o k H); auto|].
    right. destruct S2 as [-> ->]; [|repeat split; auto; lia]. intros o' k' H'. destruct (drains_fun _ _ _ _ _ _ _ _ _ _ H _ _ H') as [_ <-]. split; [lia|auto].
  Qed.
  Lemma st_intro m c o k v b : drains c o k -> (k <= m \/ outlet c k -> v = k /\ b = id o) -> (m < k -> ~ outlet c k -> v = tm /\ b = bm) -> st m c v b.
  Proof.
    intros H H1 H2. split.
    - intros o' k' H' Hk. destruct (drains_fun _ _ _ _ _ _ _ _ _ _ H _ _ H') as [<- <-]. auto.
    - intros Hn. destruct (Hn o k H). auto.
  Qed.
  Lemma st_ocean m c v b : T c < 0 -> v = tm -> b = bm -> st m c v b.
  Proof. intros H -> ->. split; auto. intros o k Hd. destruct (drains_own _ _ _ _ _ _ _ _ _ _ Hd) as (_ & _ & H1 & _). lia. Qed.
  Lemma st_mono m c v b : st m c v b -> (forall o, drains c o (m + 1) -> outlet c (m + 1)) -> own nt nx ny c -> st (m + 1) c v b.
  Proof.
    intros Hs Hn Ho. destruct (Z_lt_dec (T c) 0) as [L|L].
    - destruct Hs as [_ S2]. destruct S2 as [-> ->]; [|apply st_ocean; auto]. intros o k H. destruct (drains_own _ _ _ _ _ _ _ _ _ _ H) as (_ & _ & H1 & _). lia.
    - destruct (Hall c Ho ltac:(lia)) as (o & k & H). destruct (st_cases m c v b o k Hs H) as [(-> & -> & Hk)|(-> & -> & Hk & Hno)]; apply (st_intro _ c o k); auto.
      + intros Hl Hk'. destruct Hk as [Hk|Hk]; [lia|easy].
      + intros [Hl|Hl]; [|easy]. assert (k = m + 1) by lia. subst k. elim Hno. eauto.
  Qed.

  Lemma sweep_run cur basin travel B0 V0 : 0 <= cur -> haloed nt nx ny basin B0 -> haloed nt nx ny travel V0 ->
    (forall c, own nt nx ny c -> st cur c (V0 c) (B0 c)) ->
    (forall h, in_frame nt nx ny h -> V0 (wrap op nx ny h) = V0 h /\ B0 (wrap op nx ny h) = B0 h) ->
    exists nd basin' travel' B1 V1, sweep nt nx ny bm cur dir basin travel = Ok (nd, basin', travel') /\
      haloed nt nx ny basin' B1 /\ haloed nt nx ny travel' V1 /\
      (forall c, own nt nx ny c -> st (cur + 1) c (V1 c) (B1 c)) /\
      (forall h, ~ own nt nx ny h -> V1 h = V0 h /\ B1 h = B0 h) /\
      (nd = true -> exists c o, drains c o (cur + 1) /\ ~ outlet c (cur + 1)) /\
      (nd = false -> forall c o, drains c o (cur + 1) -> outlet c (cur + 1)).
  Proof.
    intros Hcur HB HV H0 Hw. pose proof Hop as (Hx & Hy & Ht & _). unfold sweep.
    match goal with |- context [for_cells nt nx ny ?f ?s] => destruct (for_cells_inv nt nx ny (fun p st_ => let '(nd, basin', travel') := st_ in
      exists B1 V1, haloed nt nx ny basin' B1 /\ haloed nt nx ny travel' V1 /\
      (forall c, own nt nx ny c -> pos nx ny c < p -> st (cur + 1) c (V1 c) (B1 c)) /\
      (forall h, ~ own nt nx ny h \/ p <= pos nx ny h -> V1 h = V0 h /\ B1 h = B0 h) /\
      (nd = true -> exists c o, drains c o (cur + 1) /\ ~ outlet c (cur + 1)) /\
      (nd = false -> forall c o, own nt nx ny c -> pos nx ny c < p -> drains c o (cur + 1) -> outlet c (cur + 1))) f s)
      as ([[nd basin'] travel'] & E & B1 & V1 & HB1 & HV1 & H1 & H2 & H3 & H4) end; try lia.
    - exists B0, V0. split; auto. split; auto. split; [intros c Ho Hp; pose proof (pos_range _ _ _ _ Ho); lia|]. split; auto. split; [discriminate|].
      intros _ c o Ho Hp. pose proof (pos_range _ _ _ _ Ho). lia.
    - intros n j i [[nd bs] tr] Ho (B1 & V1 & HB1 & HV1 & H1 & H2 & H3 & H4). set (c := (n, j, i)) in *. pose proof (own_frame _ _ _ _ Ho) as Hf.
      assert (Keep : (forall o, drains c o (cur + 1) -> outlet c (cur + 1)) -> exists B1 V1, haloed nt nx ny bs B1 /\ haloed nt nx ny tr V1 /\
        (forall c', own nt nx ny c' -> pos nx ny c' < pos nx ny c + 1 -> st (cur + 1) c' (V1 c') (B1 c')) /\
        (forall h, ~ own nt nx ny h \/ pos nx ny c + 1 <= pos nx ny h -> V1 h = V0 h /\ B1 h = B0 h) /\
        (nd = true -> exists c o, drains c o (cur + 1) /\ ~ outlet c (cur + 1)) /\
        (nd = false -> forall c' o, own nt nx ny c' -> pos nx ny c' < pos nx ny c + 1 -> drains c' o (cur + 1) -> outlet c' (cur + 1))).
      { intros Hno. exists B1, V1. split; auto. split; auto. split; [|split; [|split; [auto|]]].
        - intros c' Ho' Hp. apply (pos_step nt nx ny c c' Ho Ho') in Hp. destruct Hp as [->|Hp]; [|auto]. destruct (H2 c) as [-> ->]; [right; lia|]. apply st_mono; auto.
        - intros h Hh. apply H2. destruct Hh; [auto|right; lia].
        - intros Hnd c' o Ho' Hp Hdr. apply (pos_step nt nx ny c c' Ho Ho') in Hp. destruct Hp as [->|Hp]; eauto. }
      rewrite (haloed_get _ _ _ _ _ _ _ _ HD Hf), (haloed_get _ _ _ _ _ _ _ _ HB1 Hf). cbn [bind]. fold c.
      destruct (H2 c) as [EV EB]; [right; lia|]. rewrite EB. pose proof (H0 c Ho) as Hsc. destruct Hnet as (Hm & Hc & _).
      destruct (Z.leb_spec 0 (D c)) as [Hd0|Hd0]; cbn [andb].
      2:{ eexists; split; [reflexivity|]. apply Keep. intros o Hdr. destruct (Hc c Ho) as [[E _]|[[E _]|(_ & ? & _)]]; try lia.
        - destruct (drains_own _ _ _ _ _ _ _ _ _ _ Hdr) as (_ & _ & ? & _). lia.
        - assert (outlet c 0) by (split; auto). destruct (drains_outlet _ _ _ _ _ _ _ _ _ _ _ Hdr H). lia. }
      destruct (Hc c Ho) as [[_ E]|[[_ E]|(HTc & Hd & Hnx)]]; [lia|lia|]. destruct (Hall c Ho ltac:(lia)) as (o & k & Hdr).
      destruct (st_cases _ _ _ _ _ _ Hsc Hdr) as [(Ev & Eb & Hk)|(Ev & Eb & Hk & Hno)].
      { destruct (drains_own _ _ _ _ _ _ _ _ _ _ Hdr) as (_ & _ & _ & k0 & Hk0). pose proof (Hid o k0 Hk0).
        destruct (Z.eqb_spec (B0 c) bm); [lia|]. eexists; split; [reflexivity|]. apply Keep. intros o' Hdr'.
        destruct (drains_fun _ _ _ _ _ _ _ _ _ _ Hdr _ _ Hdr') as [<- ->]. destruct Hk; [lia|auto]. }
      destruct (Z.eqb_spec (B0 c) bm) as [_|]; [|easy].
      (* not filled in yet: look at the next cell *)
      inversion Hdr as [c1 k1 Hk1|c1 o1 k1 _ _ Hne Hq]; subst; [easy|].
      destruct (drains_own _ _ _ _ _ _ _ _ _ _ Hq) as (Hoq & _). destruct (drains_own _ _ _ _ _ _ _ _ _ _ Hdr) as (_ & _ & _ & k0 & Hk0). pose proof (Hid o k0 Hk0) as Hido.
      destruct (di_dj (D c) Hd) as [E1 E2]. rewrite E1, E2. cbn [bind].
      pose proof (step_frame nt nx ny c (D c) Ho Hd) as Hfs.
      assert (Val : exists m, (m = cur \/ m = cur + 1) /\ st m (next c) (V1 (step c (D c))) (B1 (step c (D c)))).
      { destruct (own_dec nt nx ny (step c (D c))) as [Ow|Nw].
        - assert (Eq : step c (D c) = next c) by (unfold Spec_River.next, dest; rewrite (wrap_own op nt nx ny _ Ow); auto). rewrite Eq in *.
          destruct (Z_lt_dec (pos nx ny (next c)) (pos nx ny c)); [exists (cur + 1); auto|exists cur]. destruct (H2 (next c)) as [-> ->]; [right; lia|auto].
        - exists cur. split; auto. destruct (H2 _ (or_introl Nw)) as [-> ->]. destruct (Hw _ Hfs) as [<- <-]. apply H0. auto. }
      destruct Val as (m & Hm' & Hsm). unfold c in Hfs at 1. unfold step in Hfs.
      rewrite (haloed_get _ _ _ _ _ _ _ _ HV1 Hfs). cbn [bind].
      change (V1 (n, j + fst (compass (D c)), i + snd (compass (D c)))) with (V1 (step c (D c))).
      destruct (st_cases _ _ _ _ _ _ Hsm Hq) as [(Ev' & Eb' & Hk')|(Ev' & Eb' & Hk' & Hno')].
      2:{ destruct (Z.eqb_spec (V1 (step c (D c))) cur); [lia|]. eexists; split; [reflexivity|]. apply Keep. intros o' Hdr'.
        destruct (drains_fun _ _ _ _ _ _ _ _ _ _ Hdr _ _ Hdr') as [<- Ek]. lia. }
      rewrite Ev'. destruct (Z.eqb_spec k1 cur) as [Ek|Nk].
      2:{ eexists; split; [reflexivity|]. apply Keep. intros o' Hdr'. destruct (drains_fun _ _ _ _ _ _ _ _ _ _ Hdr _ _ Hdr') as [<- Ek]. lia. }
      rewrite Ek in Hdr, Hno, Hk, Hq. rewrite (haloed_get _ _ _ _ _ _ _ _ HB1 Hfs). cbn [bind].
      change (B1 (n, j + fst (compass (D c)), i + snd (compass (D c)))) with (B1 (step c (D c))). rewrite Eb'.
      destruct (Z.eqb_spec (id o) bm); [lia|].
      destruct (haloed_put nt nx ny bs B1 n j i (id o) HB1 Hf) as (bs' & E3 & HB2). rewrite E3. cbn [bind].
      destruct (haloed_put nt nx ny tr V1 n j i (cur + 1) HV1 Hf) as (tr' & E4 & HV2). rewrite E4. cbn [bind]. fold c in HB2, HV2.
      eexists; split; [reflexivity|]. exists (put B1 c (id o)), (put V1 c (cur + 1)). split; auto. split; auto. split; [|split; [|split]].
      + intros c' Ho' Hp. apply (pos_step nt nx ny c c' Ho Ho') in Hp. destruct (cell_dec c' c) as [->|Hne'].
        * rewrite !put_eq. apply (st_intro _ c o (cur + 1)); auto. lia.
        * rewrite !put_ne by auto. destruct Hp; [easy|auto].
      + intros h Hh. rewrite !put_ne by (intros ->; destruct Hh; [auto|lia]). apply H2. destruct Hh; [auto|right; lia].
      + intros _. exists c, o. auto.
      + discriminate.
    - exists nd, basin', travel', B1, V1. split; auto. split; auto. split; auto.
      assert (Q : forall c, own nt nx ny c -> pos nx ny c < nt * ny * nx) by (intros c Ho; apply (pos_range nt nx ny c Ho)).
      split; [auto|]. split; [auto|]. split; auto. intros Hnd c o Hdr. destruct (drains_own _ _ _ _ _ _ _ _ _ _ Hdr) as (Ho & _). eauto.
  Qed.

  (** Nothing grew at stage [cur]: everything is filled in. *)
  Lemma all_filled cur : 0 <= cur -> (forall c o, drains c o (cur + 1) -> outlet c (cur + 1)) ->
    ((exists c o, drains c o 1 /\ ~ outlet c 1) \/ (forall c o k, drains c o k -> k <= 1)) ->
    forall c o k, drains c o k -> k <= cur \/ outlet c k.
  Proof.
    intros Hc Hn He c o k H. induction H as [c k H|c o k Ho HT' Hne H IH]; [auto|]. left.
    assert (Hno : forall k', ~ outlet c k') by (intros k' (_ & [[? _]|(_ & ? & _)]); [lia|auto]).
    assert (Hdr : drains c o (k + 1)) by (constructor; auto).
    assert (Hk : k <> cur) by (intros ->; apply (Hno (cur + 1)); eauto).
    destruct IH as [IH|IH]; [lia|]. destruct (outlet_k _ _ _ _ _ _ _ _ _ IH) as [->| ->]; [lia|].
    destruct (Z.eq_dec cur 0) as [->|]; [|lia]. destruct He as [(c' & o' & H1 & H2)|He].
    - elim H2. apply (Hn c' o' H1).
    - specialize (He _ _ _ Hdr). lia.
  Qed.

  Lemma grow_run (He : (exists c o, drains c o 1 /\ ~ outlet c 1) \/ (forall c o k, drains c o k -> k <= 1)) fuel : forall cur basin travel B0 V0,
    0 <= cur <= nt * ny * nx -> nt * ny * nx < cur + Z.of_nat fuel -> haloed nt nx ny basin B0 -> haloed nt nx ny travel V0 ->
    (forall c, own nt nx ny c -> st cur c (V0 c) (B0 c)) ->
    (forall h, in_frame nt nx ny h -> V0 (wrap op nx ny h) = V0 h /\ B0 (wrap op nx ny h) = B0 h) ->
    exists basin' travel' B1 V1, grow fuel nt nx ny bm op cur dir basin travel = Ok (basin', travel') /\
      haloed nt nx ny basin' B1 /\ haloed nt nx ny travel' V1 /\
      (forall c o k, drains c o k -> V1 c = k /\ B1 c = id o) /\
      (forall c, own nt nx ny c -> T c < 0 -> V1 c = tm /\ B1 c = bm) /\
      (forall h, in_frame nt nx ny h -> V1 (wrap op nx ny h) = V1 h /\ B1 (wrap op nx ny h) = B1 h) /\
      (forall h, in_frame nt nx ny h -> ~ own nt nx ny (wrap op nx ny h) -> V1 h = V0 h /\ B1 h = B0 h).
  Proof.
    induction fuel as [|f IH]; intros cur basin travel B0 V0 Hcur Hfuel HB HV H0 Hw.
    - lia.
    - cbn [grow]. destruct (sweep_run cur basin travel B0 V0 (proj1 Hcur) HB HV H0 Hw) as (nd & bs & tr & B1 & V1 & E & HB1 & HV1 & H1 & H2 & H3 & H4).
      rewrite E. cbn [bind].
      destruct (update_halo_run nt nx ny op bs B1 Hop HB1) as (bs' & E1 & HB2). rewrite E1. cbn [bind].
      destruct (update_halo_run nt nx ny op tr V1 Hop HV1) as (tr' & E2 & HV2). rewrite E2. cbn [bind].
      assert (W : forall h, in_frame nt nx ny h -> V1 (wrap op nx ny (wrap op nx ny h)) = V1 (wrap op nx ny h) /\ B1 (wrap op nx ny (wrap op nx ny h)) = B1 (wrap op nx ny h))
        by (intros h Hh; rewrite (wrap_wrap op nt nx ny h Hop Hh); auto).
      assert (St : forall c, own nt nx ny c -> st (cur + 1) c (V1 (wrap op nx ny c)) (B1 (wrap op nx ny c))) by (intros c Ho; rewrite (wrap_own op nt nx ny c Ho); auto).
      assert (Ho' : forall h, in_frame nt nx ny h -> ~ own nt nx ny (wrap op nx ny h) -> V1 (wrap op nx ny h) = V0 h /\ B1 (wrap op nx ny h) = B0 h).
      { intros h Hh Hn. destruct (wrap_cases op nt nx ny h Hop Hh) as [|Eh]; [easy|]. rewrite Eh in *. auto. }
      destruct nd.
      + destruct (H3 eq_refl) as (c1 & o1 & Hd1 & _). pose proof (drains_bound op nt nx ny tcm T D Hop c1 o1 _ Hd1).
        destruct (IH (cur + 1) bs' tr' (fun c => B1 (wrap op nx ny c)) (fun c => V1 (wrap op nx ny c))) as (b & t & B & V & E3 & R1 & R2 & R3 & R4 & R5 & R6); auto; try lia.
        exists b, t, B, V. split; auto. split; auto. split; auto. split; auto. split; auto. split; auto.
        intros h Hh Hn. destruct (R6 h Hh Hn) as [-> ->]. auto.
      + exists bs', tr', (fun c => B1 (wrap op nx ny c)), (fun c => V1 (wrap op nx ny c)). split; auto. split; auto. split; auto.
        split. { intros c o k Hdr. destruct (drains_own _ _ _ _ _ _ _ _ _ _ Hdr) as (Ho & _). apply (St c Ho); auto.
          destruct (all_filled cur (proj1 Hcur) (H4 eq_refl) He c o k Hdr); [left; lia|auto]. }
        split. { intros c Ho Hneg. apply (St c Ho). intros o k Hdr. destruct (drains_own _ _ _ _ _ _ _ _ _ _ Hdr) as (_ & _ & ? & _). lia. }
        split; auto.
  Qed.
End River.
