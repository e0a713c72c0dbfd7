(** * Proofs about calc_river_data: drainage areas *)
From Coq Require Import Reals Lra Relations Permutation.
From Verif Require Import Base Loops Lst M_Interp Spec_Interp P_Interp P_Interp2 M_River Spec_River Tiles P_Halo P_Network P_Reciprocal P_Tocell P_RiverData P_Ncc3.
Open Scope Z_scope.

Lemma near_ring p h : near p h -> exists o, In o ring /\ h = (fst (fst p), snd (fst p) - 1 + fst o, snd p - 1 + snd o).
Proof.
  destruct p as [[n j] i], h as [[m y] x]. intros (-> & Hy & Hx & Hne). exists (y - j + 1, x - i + 1). cbn [fst snd]. split; [|apply cell_eq3; lia].
  assert (Y : y = j - 1 \/ y = j \/ y = j + 1) by lia. assert (X : x = i - 1 \/ x = i \/ x = i + 1) by lia. unfold ring.
  destruct Y as [->|[->| ->]]; destruct X as [->|[->| ->]]; try lia;
  repeat match goal with |- context [?a - ?b + 1] => ring_simplify (a - b + 1) end; cbn; tauto.
Qed.
Lemma ring_near n j i o : In o ring -> near (n, j, i) (n, j - 1 + fst o, i - 1 + snd o).
Proof. intros H. repeat destruct H as [<-|H]; try destruct H; cbn; lia. Qed.
Lemma rsum_perm {A} (f : A -> R) l l' : Permutation l l' -> rsum f l = rsum f l'.
Proof. induction 1; rewrite ?rsum_cons; try lra; congruence. Qed.

Section Area.
  Context (op : opcode) (nt nx ny tcm : Z) (T D V : cell -> Z) (a : cell -> R) (Hop : op_ok op nt nx ny) (Hnet : net_ok op nt nx ny tcm T D)
    (HDw : forall h, in_frame nt nx ny h -> D (wrap op nx ny h) = D h)
    (HDo : forall h, in_frame nt nx ny h -> ~ own nt nx ny (wrap op nx ny h) -> D h < 0).
  Notation drains := (drains op nt nx ny tcm T D). Notation flows := (flows op nt nx ny D).
  Context (HVd : forall c o k, drains c o k -> V c = k) (HVo : forall c, own nt nx ny c -> T c < 0 -> V c < 0)
    (Hall : forall c, own nt nx ny c -> 0 <= T c -> exists o k, drains c o k).
  Context (dir travel : list (list Z)) (cellarea : list (list R)) (HD : haloed nt nx ny dir D) (HV : haloed nt nx ny travel V) (HA : plain_field nt nx ny cellarea a).

  Definition posn (p : cell) (o : Z * Z) : cell := let '(n, j, i) := p in (n, j - 1 + fst o, i - 1 + snd o).
  Definition feeds (p h : cell) : bool := (0 <=? D h) && (if cell_dec (step h (seen op nx ny h (D h))) p then true else false).
  Definition ups1 (p : cell) (l : list (Z * Z)) : list cell := map (fun o => wrap op nx ny (posn p o)) (filter (fun o => feeds p (posn p o)) l).

  Lemma ups1_snoc c l o : ups1 c (l ++ [o]) = ups1 c l ++ (if feeds c (posn c o) then [wrap op nx ny (posn c o)] else []).
  Proof. unfold ups1. rewrite filter_app, map_app. f_equal. cbn [filter]. destruct (feeds c (posn c o)); reflexivity. Qed.
  Lemma D_range c : own nt nx ny c -> 0 <= D c -> 0 <= D c <= 7 /\ 0 < T c.
  Proof. intros Ho Hd. destruct Hnet as (_ & Hc & _). destruct (Hc c Ho) as [[_ E]|[[_ E]|(? & ? & _)]]; lia. Qed.
  Lemma feeds_spec p o : own nt nx ny p -> In o ring -> feeds p (posn p o) = true ->
    own nt nx ny (wrap op nx ny (posn p o)) /\ flows (wrap op nx ny (posn p o)) p /\ D (posn p o) = D (wrap op nx ny (posn p o)).
  Proof.
    intros Hp Ho Hf. destruct p as [[n j] i]. pose proof (ring_near n j i o Ho) as Hn. fold (posn (n, j, i) o) in *. set (p := (n, j, i)) in *. set (h := posn p o) in *.
    pose proof (near_frame _ _ _ _ _ Hp Hn) as Hfr. unfold feeds in Hf. apply andb_prop in Hf. destruct Hf as [H1 H2]. apply Z.leb_le in H1.
    destruct (cell_dec (step h (seen op nx ny h (D h))) p) as [E|]; [|easy].
    assert (Hw : own nt nx ny (wrap op nx ny h)). { destruct (own_dec nt nx ny (wrap op nx ny h)) as [|N]; auto. specialize (HDo h Hfr N). lia. }
    pose proof (HDw h Hfr) as Ed. destruct (D_range (wrap op nx ny h) Hw) as [Hr _]; [lia|]. split; auto. split; auto. split; auto. split; [lia|].
    symmetry. rewrite Ed. apply (recip_back op nt nx ny Hop p h (D h)); auto. lia.
  Qed.
  Lemma ups1_flows p q : own nt nx ny p -> In q (ups1 p ring) <-> flows q p.
  Proof.
    intros Hp. unfold ups1. rewrite in_map_iff. split.
    - intros (o & <- & Ho). apply filter_In in Ho. destruct Ho as [Ho Hf]. apply feeds_spec; auto.
    - intros (Hq & Hd & E). destruct (D_range q Hq Hd) as [Hr _]. destruct (recip_forth op nt nx ny Hop p q (D q) Hp Hq Hr (eq_sym E)) as (h & Hn & Ew & Es).
      destruct (near_ring p h Hn) as (o & Ho & Eh). exists o. assert (Eh' : posn p o = h) by (destruct p as [[n j] i]; cbn in *; congruence).
      rewrite Eh'. split; auto. apply filter_In. split; auto. rewrite Eh'. unfold feeds. assert (Ed : D h = D q) by (rewrite <- Ew; symmetry; apply HDw; exact (near_frame nt nx ny p h Hp Hn)).
      rewrite Ed. rewrite (proj2 (Z.leb_le 0 (D q)) Hd). cbn [andb]. destruct (cell_dec (step h (seen op nx ny h (D q))) p); congruence.
  Qed.
  Lemma ups1_nodup p : own nt nx ny p -> NoDup (ups1 p ring).
  Proof.
    intros Hp. unfold ups1. apply NoDup_map_inj.
    - intros o o' Ho Ho' E. apply filter_In in Ho, Ho'. destruct Ho as [Ho Hf], Ho' as [Ho' Hf'].
      destruct (feeds_spec p o Hp Ho Hf) as (Hw & _ & E1). destruct (feeds_spec p o' Hp Ho' Hf') as (_ & _ & E2).
      destruct p as [[n j] i]. set (p := (n, j, i)) in *.
      assert (posn p o = posn p o').
      { unfold feeds in Hf, Hf'. apply andb_prop in Hf, Hf'. destruct Hf as [_ Hf], Hf' as [_ Hf'].
        destruct (cell_dec (step (posn p o) (seen op nx ny (posn p o) (D (posn p o)))) p) as [Es|]; [|easy].
        destruct (cell_dec (step (posn p o') (seen op nx ny (posn p o') (D (posn p o')))) p) as [Es'|]; [|easy].
        apply (recip_inj op nt nx ny Hop p _ _ (D (posn p o))); auto; try (apply ring_near; auto). rewrite E1, E, <- E2. auto. }
      cbn in H. apply cell_inv in H. destruct o, o'; cbn in *. f_equal; lia.
    - apply NoDup_filter. repeat constructor; cbn; intuition congruence.
  Qed.
  Lemma V_up q p : own nt nx ny p -> 0 <= T p -> flows q p -> V q = V p + 1.
  Proof.
    intros Hp HT (Hq & Hd & E). destruct (Hall p Hp HT) as (o & k & Hk). destruct (D_range q Hq Hd) as [_ HTq]. destruct Hnet as (Hm & _).
    assert (En : next op nx ny D q = p) by (unfold next; auto).
    assert (Hdq : drains q o (k + 1)). { constructor; auto; rewrite En; [lia|auto]. } rewrite (HVd _ _ _ Hdq), (HVd _ _ _ Hk). auto.
  Qed.

  Lemma level_run t subA A0 : 0 <= t -> haloed nt nx ny subA A0 -> (forall h, in_frame nt nx ny h -> A0 (wrap op nx ny h) = A0 h) ->
    exists subA' A1, level nt nx ny op t dir travel cellarea subA = Ok subA' /\ haloed nt nx ny subA' A1 /\
      (forall c, own nt nx ny c -> V c = t -> A1 c = (a c + rsum A0 (ups1 c ring))%R) /\
      (forall c, ~ own nt nx ny c \/ V c <> t -> A1 c = A0 c).
  Proof.
    intros Ht0 HS Hw0. pose proof Hop as (Hx & Hy & Ht & _). unfold level.
    match goal with |- context [for_cells nt nx ny ?f ?s] => destruct (for_cells_inv nt nx ny (fun p subA' => exists A1, haloed nt nx ny subA' A1 /\
      (forall c, own nt nx ny c -> pos nx ny c < p -> V c = t -> A1 c = (a c + rsum A0 (ups1 c ring))%R) /\
      (forall c, ~ own nt nx ny c \/ V c <> t \/ p <= pos nx ny c -> A1 c = A0 c)) f s) as (subA' & E & A1 & HS1 & H1 & H2) end; try lia.
    - exists A0. split; auto. split; auto. intros c Ho Hp. pose proof (pos_range _ _ _ _ Ho). lia.
    - intros n j i sub Ho (A1 & HS1 & H1 & H2). set (c := (n, j, i)) in *. pose proof (own_frame _ _ _ _ Ho) as Hf.
      rewrite (haloed_get _ _ _ _ _ _ _ _ HV Hf). cbn [bind]. fold c. destruct (Z.eqb_spec (V c) t) as [Ev|Nv].
      2:{ exists sub. split; auto. exists A1. split; auto. split.
        - intros c' Ho' Hp Hv. apply (pos_step nt nx ny c c' Ho Ho') in Hp. destruct Hp as [->|Hp]; [easy|auto].
        - intros c' Hc'. apply H2. destruct Hc' as [|[|]]; auto. right. right. lia. }
      rewrite (plain_get _ _ _ _ _ _ _ _ HA Ho). cbn [bind]. fold c.
      destruct (haloed_put nt nx ny sub A1 n j i (a c) HS1 Hf) as (s1 & E1 & HS2). rewrite E1. cbn [bind]. fold c in HS2. rewrite for_ring_fold.
      assert (HTc : 0 <= T c). { destruct (Z_lt_dec (T c) 0) as [L|]; [|lia]. specialize (HVo c Ho L). lia. }
      match goal with |- context [ofold ?f ring s1] => destruct (ofold_inv (fun l s => exists A, haloed nt nx ny s A /\
        A c = (a c + rsum A0 (ups1 c l))%R /\ (forall c', c' <> c -> A c' = A1 c')) f ring s1) as (s2 & E2 & A & HS3 & Ec & Eo) end.
      + exists (put A1 c (a c)). split; auto. split; [rewrite put_eq; unfold ups1; cbn; lra|]. intros c' Hc'. apply put_ne. auto.
      + intros l1 o l2 s El (A & HSA & Ec & Eo). assert (Hr : In o ring) by (rewrite El; apply in_or_app; right; left; auto).
        pose proof (ring_near n j i o Hr) as Hn. fold c in Hn. change (n, j - 1 + fst o, i - 1 + snd o) with (posn c o) in Hn. pose proof (near_frame _ _ _ _ _ Ho Hn) as Hfr.
        cbn [posn c] in Hfr. unfold posn, c in Hfr. rewrite (haloed_get _ _ _ _ _ _ _ _ HD Hfr). cbn [bind].
        change (n, j - 1 + fst o, i - 1 + snd o) with (posn c o) in *.
        assert (Eu : ups1 c (l1 ++ [o]) = ups1 c l1 ++ (if feeds c (posn c o) then [wrap op nx ny (posn c o)] else [])).
        { apply ups1_snoc. }
        assert (Keep : feeds c (posn c o) = false -> exists A, haloed nt nx ny s A /\ A c = (a c + rsum A0 (ups1 c (l1 ++ [o])))%R /\ (forall c', c' <> c -> A c' = A1 c')).
        { intros Hff. exists A. split; auto. split; auto. rewrite Eu, Hff, app_nil_r. auto. }
        destruct (Z.leb_spec 0 (D (posn c o))) as [Hd|Hd].
        2:{ exists s. split; auto. apply Keep. unfold feeds. rewrite (proj2 (Z.leb_gt 0 (D (posn c o)))) by lia. reflexivity. }
        assert (Hw : own nt nx ny (wrap op nx ny (posn c o))). { destruct (own_dec nt nx ny (wrap op nx ny (posn c o))) as [|N]; auto. specialize (HDo _ Hfr N). lia. }
        pose proof (HDw _ Hfr) as Ed. destruct (D_range _ Hw) as [Hdr _]; [lia|]. rewrite Ed in Hdr. pose proof (seen_range op nx ny (posn c o) _ Hdr) as Hsr.
        change (seen_dir op nx ny n (j - 1 + fst o) (i - 1 + snd o) (D (posn c o))) with (seen op nx ny (posn c o) (D (posn c o))).
        set (d := seen op nx ny (posn c o) (D (posn c o))) in *. destruct (di_dj d Hsr) as [E3 E4]. rewrite E3, E4. cbn [bind].
        assert (Ef : feeds c (posn c o) = (i - 1 + snd o + snd (compass d) =? i) && (j - 1 + fst o + fst (compass d) =? j)).
        { unfold feeds. rewrite (proj2 (Z.leb_le 0 (D (posn c o))) Hd). cbn [andb]. fold d.
          destruct (cell_dec (step (posn c o) d) c) as [Es|Ns].
          - unfold posn, c, step in Es. apply cell_inv in Es. destruct Es as (_ & Ej & Ei). rewrite Ej, Ei, !Z.eqb_refl. reflexivity.
          - symmetry. apply andb_false_iff. destruct (Z.eqb_spec (i - 1 + snd o + snd (compass d)) i); auto. destruct (Z.eqb_spec (j - 1 + fst o + fst (compass d)) j); auto.
            elim Ns. unfold posn, c, step. apply cell_eq3; auto. }
        rewrite <- Ef. destruct (feeds c (posn c o)) eqn:Hff; [|exists s; split; auto].
        rewrite (haloed_get _ _ _ _ _ _ _ _ HSA Hf). cbn [bind]. fold c.
        unfold posn, c in Hfr. rewrite (haloed_get _ _ _ _ _ _ _ _ HSA Hfr). cbn [bind]. change (n, j - 1 + fst o, i - 1 + snd o) with (posn c o) in *.
        destruct (haloed_put nt nx ny s A n j i (A c + A (posn c o))%R HSA Hf) as (s' & E5 & HS5). exists s'. split; auto. fold c in HS5.
        exists (put A c (A c + A (posn c o))%R). split; auto. split; [|intros c' Hc'; rewrite put_ne; auto].
        rewrite put_eq, Eu, rsum_app, rsum_cons, rsum_nil, Ec.
        assert (Eh : A (posn c o) = A0 (wrap op nx ny (posn c o))); [|rewrite Eh; lra].
        destruct (feeds_spec c o Ho Hr Hff) as (_ & Hfl & _). pose proof (V_up _ _ Ho HTc Hfl) as Hv.
        assert (Hne : posn c o <> c) by (intros Ec'; rewrite Ec' in Hn; unfold c in Hn; cbn in Hn; lia). rewrite (Eo _ Hne).
        destruct (own_dec nt nx ny (posn c o)) as [Ow|Nw].
        * rewrite (wrap_own op nt nx ny _ Ow) in *. apply H2. right. left. lia.
        * rewrite H2 by auto. symmetry. apply Hw0. auto.
      + exists s2. split; [exact E2|]. exists A. split; auto. split.
        * intros c' Ho' Hp Hv. apply (pos_step nt nx ny c c' Ho Ho') in Hp. destruct (cell_dec c' c) as [->|Hne]; [auto|]. rewrite Eo by auto. destruct Hp; [easy|auto].
        * intros c' Hc'. rewrite Eo by (intros ->; destruct Hc' as [|[|]]; [easy|easy|lia]). apply H2. destruct Hc' as [|[|]]; auto. right. right. lia.
    - exists subA', A1. split; auto. split; auto. split; [intros c Ho; apply H1; auto; apply pos_range; auto|]. intros c [|]; apply H2; auto.
  Qed.

  (** ** Upstream cells *)
  Notation reaches := (clos_refl_trans_1n cell flows).
  Lemma reaches_own x y : reaches x y -> own nt nx ny y -> x = y \/ (own nt nx ny x /\ 0 < T x).
  Proof. intros H Hy. destruct H as [|y z F _]; auto. right. destruct F as (Ho & Hd & _). split; auto. apply D_range; auto. Qed.
  Lemma reaches_V x y : reaches x y -> own nt nx ny y -> 0 <= T y -> V y <= V x /\ (V x = V y -> x = y).
  Proof.
    intros H Hy HT. induction H as [x|x z y F H IH]; [split; [lia|auto]|]. specialize (IH Hy HT).
    assert (Hz : own nt nx ny z /\ 0 <= T z). { destruct (reaches_own z y H Hy) as [->|[? ?]]; auto. split; [auto|lia]. }
    pose proof (V_up x z (proj1 Hz) (proj2 Hz) F). lia.
  Qed.
  Lemma reaches_merge x q q' : reaches x q -> reaches x q' -> own nt nx ny q -> 0 <= T q -> own nt nx ny q' -> 0 <= T q' -> V q = V q' -> q = q'.
  Proof.
    intros H H' Ho HT Ho' HT' Ev. induction H as [x|x z y F H IH].
    - apply (reaches_V x q'); auto.
    - inversion H' as [E|z' y' F' H1 E1]; subst.
      + assert (H2 : reaches q' y) by (econstructor; eauto). symmetry. apply (reaches_V q' y); auto.
      + assert (z' = z) by (destruct F as (_ & _ & ->), F' as (_ & _ & ->); auto). subst z'. auto.
  Qed.
  Definition good (p : cell) (v : R) : Prop := exists L, upstream op nt nx ny D p L /\ v = rsum a L.
  Lemma rt_1n x y : clos_refl_trans cell flows x y <-> reaches x y.
  Proof. apply clos_rt_rt1n_iff. Qed.
  Lemma flows_land q p : flows q p -> own nt nx ny q /\ 0 <= T q.
  Proof. intros (Ho & Hd & _). split; auto. destruct (D_range q Ho Hd). lia. Qed.

  Lemma good_list A0 p l : own nt nx ny p -> 0 <= T p -> NoDup l -> (forall q, In q l -> flows q p) -> (forall q, In q l -> good q (A0 q)) ->
    exists M, NoDup M /\ (forall x, In x M <-> exists q, In q l /\ own nt nx ny x /\ clos_refl_trans cell flows x q) /\ rsum a M = rsum A0 l.
  Proof.
    intros Hp HT. induction l as [|q l IH]; intros Hd Hf Hg.
    - exists []. split; [constructor|]. split; [|reflexivity]. intros x. split; [intros []|]. intros (q & [] & _).
    - inversion Hd as [|q' l' Hq Hd']; subst. destruct IH as (M & HM & HMi & HMs); auto. { intros; apply Hf; right; auto. } { intros; apply Hg; right; auto. }
      destruct (Hg q (or_introl eq_refl)) as (L & (HL & HLi) & HLs). exists (L ++ M). split; [|split].
      + apply NoDup_app_intro; auto. intros x Hx Hx'. apply HLi in Hx. apply HMi in Hx'. destruct Hx as [_ R1], Hx' as (q' & Hq' & _ & R2).
        apply rt_1n in R1, R2. assert (q = q'); [|subst; auto]. pose proof (Hf q (or_introl eq_refl)) as F1. pose proof (Hf q' (or_intror Hq')) as F2.
        destruct (flows_land _ _ F1), (flows_land _ _ F2). eapply reaches_merge; eauto. rewrite (V_up q p), (V_up q' p); auto.
      + intros x. rewrite in_app_iff, HLi, HMi. split.
        * intros [[H1 H2]|(q' & H1 & H2)]; [exists q; split; [left; auto|auto]|exists q'; split; [right; auto|auto]].
        * intros (q' & [<-|H1] & H2); [left; auto|right; eauto].
      + rewrite rsum_app, rsum_cons. lra.
  Qed.
  Lemma good_step A0 p : own nt nx ny p -> 0 <= T p -> (forall q, flows q p -> good q (A0 q)) -> good p (a p + rsum A0 (ups1 p ring)).
  Proof.
    intros Hp HT Hg. destruct (good_list A0 p (ups1 p ring) Hp HT (ups1_nodup p Hp)) as (M & HM & HMi & HMs).
    - intros q Hq. apply (ups1_flows p q Hp). auto.
    - intros q Hq. apply Hg. apply (ups1_flows p q Hp). auto.
    - exists (p :: M). split; [|rewrite rsum_cons; lra]. split.
      + constructor; auto. intros Hi. apply HMi in Hi. destruct Hi as (q & Hq & _ & R1). apply (ups1_flows p q Hp) in Hq. apply rt_1n in R1.
        destruct (flows_land _ _ Hq). destruct (reaches_V p q R1) as [Hv _]; auto. rewrite (V_up q p) in Hv; auto. lia.
      + intros x. split.
        * intros [<-|Hx]; [split; [auto|apply rt_refl]|]. apply HMi in Hx. destruct Hx as (q & Hq & Hx & R1). split; auto.
          apply (ups1_flows p q Hp) in Hq. eapply rt_trans; [exact R1|]. constructor. auto.
        * intros [Hx R1]. apply clos_rt_rtn1 in R1. inversion R1 as [E|q y F R2 E]; subst; [left; auto|]. right. apply HMi. exists q.
          split; [apply (ups1_flows p q Hp); auto|]. split; auto. apply clos_rtn1_rt. auto.
  Qed.

  Lemma area_run M subA A0 : -1 <= M -> (forall c, own nt nx ny c -> V c <= M) -> haloed nt nx ny subA A0 -> (forall h, in_frame nt nx ny h -> A0 (wrap op nx ny h) = A0 h) ->
    exists subA' A1, accumulate_area nt nx ny op M dir travel cellarea subA = Ok subA' /\ haloed nt nx ny subA' A1 /\
      (forall c, own nt nx ny c -> 0 <= T c -> good c (A1 c)) /\
      (forall c, own nt nx ny c -> T c < 0 -> A1 c = A0 c) /\
      (forall h, in_frame nt nx ny h -> A1 (wrap op nx ny h) = A1 h).
  Proof.
    intros HM HVM HS Hw. unfold accumulate_area.
    match goal with |- context [ofor 0 ?N ?f ?s] => destruct (ofor_inv (fun k subA' => exists A1, haloed nt nx ny subA' A1 /\
      (forall c, own nt nx ny c -> 0 <= T c -> M - k < V c -> good c (A1 c)) /\
      (forall c, own nt nx ny c -> T c < 0 -> A1 c = A0 c) /\
      (forall h, in_frame nt nx ny h -> A1 (wrap op nx ny h) = A1 h)) f 0 N s) as (subA' & E & A1 & HS1 & H1 & H2 & H3) end; try lia.
    - exists A0. split; auto. split; auto. intros c Ho _ Hv. specialize (HVM c Ho). lia.
    - intros k s Hk (A1 & HS1 & H1 & H2 & H3).
      destruct (level_run (M - k) s A1 ltac:(lia) HS1 H3) as (s' & A2 & E & HS2 & L1 & L2). rewrite E. cbn [bind].
      destruct (update_halo_run nt nx ny op s' A2 Hop HS2) as (s2 & E2 & HS3). exists s2. split; auto.
      exists (fun c => A2 (wrap op nx ny c)). split; auto. split; [|split].
      + intros c Ho HT Hv. rewrite (wrap_own op nt nx ny c Ho). destruct (Z.eq_dec (V c) (M - k)) as [Ev|Nv].
        * rewrite (L1 c Ho Ev). apply good_step; auto. intros q Fq. destruct (flows_land _ _ Fq). apply H1; auto. rewrite (V_up q c); auto. lia.
        * rewrite L2 by auto. apply H1; auto. lia.
      + intros c Ho HT. rewrite (wrap_own op nt nx ny c Ho). rewrite L2; auto. right. specialize (HVo c Ho HT). lia.
      + intros h Hh. now rewrite (wrap_wrap op nt nx ny h Hop Hh).
    - exists subA', A1. split; auto. split; auto. split; [|auto]. intros c Ho HT. apply H1; auto.
      destruct (Hall c Ho HT) as (o & k & Hk). rewrite (HVd _ _ _ Hk). destruct (drains_own _ _ _ _ _ _ _ _ _ _ Hk) as (_ & ? & _). lia.
  Qed.
End Area.
