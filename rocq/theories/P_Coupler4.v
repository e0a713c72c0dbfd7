(** * Proofs about make_coupler_mosaic: areas *)
From Coq Require Import Reals Lra.
From Verif Require Import Base Loops Vec P_Interp P_Interp2 P_RemapLand4 P_Coupler P_Coupler3 M_Interp Spec_Interp M_Coupler Spec_Coupler.
Open Scope Z_scope.

Lemma rsum_swap {A B} (f : A -> B -> R) l1 l2 : rsum (fun x => rsum (fun y => f x y) l2) l1 = rsum (fun y => rsum (fun x => f x y) l1) l2.
Proof.
  induction l1 as [|x l1 IH].
  - change (0%R = rsum (fun _ => 0%R) l2). now rewrite rsum_zero.
  - rewrite rsum_cons, IH, <- rsum_plus. apply rsum_ext. intros y _. now rewrite rsum_cons.
Qed.
Lemma rsum_map {A B} (f : B -> R) (h : A -> B) l : rsum f (map h l) = rsum (fun x => f (h x)) l.
Proof. induction l as [|x l IH]; auto. cbn [map]. now rewrite !rsum_cons, IH. Qed.
Lemma rsum_one {A} (f : A -> R) x : rsum f [x] = f x.
Proof. rewrite rsum_cons, rsum_nil. lra. Qed.
Lemma rsum_if {A} (f : A -> R) (b : bool) l : rsum f (if b then l else []) = if b then rsum f l else 0%R.
Proof. now destruct b. Qed.
Lemma rsum_pick n (X : Z -> R) la : 0 <= la < n -> rsum (fun i => if i =? la then X i else 0%R) (zseq 0 n) = X la.
Proof.
  intros H. rewrite (rsum_ext _ (fun i => if la =? i then X la else 0%R)).
  - apply rsum_indic; lia.
  - intros i _. rewrite Z.eqb_sym. destruct (Z.eqb_spec la i) as [->|]; auto.
Qed.

Lemma sum_into (idx : xcell -> Z) l : forall acc n F, vec acc n F -> (forall c, In c l -> 0 <= idx c < n) ->
  exists acc', ofold (fun acc c => do v <- oget acc (idx c) ; oset acc (idx c) (v + c_area c)%R) l acc = Ok acc' /\
    vec acc' n (fun i => (F i + rsum (fun c => if idx c =? i then c_area c else 0) l)%R).
Proof.
  induction l as [|c l IH]; intros acc n F HF Hi; cbn [ofold].
  - exists acc. split; auto. eapply vec_ext; [|exact HF]. intros i _. change (F i = F i + 0)%R. lra.
  - pose proof (Hi c (or_introl eq_refl)) as Hc. cbn zeta. rewrite (vec_get _ _ _ _ HF Hc). cbn [bind].
    destruct (vec_set acc n F (fun i => (F i + if idx c =? i then c_area c else 0)%R) (idx c) (F (idx c) + c_area c)%R HF Hc) as (acc1 & E1 & V1).
    { intros i _. rewrite (Z.eqb_sym i). destruct (Z.eqb_spec (idx c) i) as [->|]; auto. lra. }
    rewrite E1. cbn [bind]. destruct (IH acc1 n _ V1) as (acc2 & E2 & V2); [intros; apply Hi; now right|]. exists acc2. split; auto.
    eapply vec_ext; [|exact V2]. intros i _. cbn beta. rewrite rsum_cons. lra.
Qed.
Lemma sums_into (idx : xcell -> Z) ls : forall acc n F, vec acc n F -> (forall l c, In l ls -> In c l -> 0 <= idx c < n) ->
  exists acc', ofold (fun acc l => ofold (fun acc c => do v <- oget acc (idx c) ; oset acc (idx c) (v + c_area c)%R) l acc) ls acc = Ok acc' /\
    vec acc' n (fun i => (F i + rsum (fun l => rsum (fun c => if idx c =? i then c_area c else 0) l) ls)%R).
Proof.
  induction ls as [|l ls IH]; intros acc n F HF Hi; cbn [ofold].
  - exists acc. split; auto. eapply vec_ext; [|exact HF]. intros i _. change (F i = F i + 0)%R. lra.
  - destruct (sum_into idx l acc n F HF) as (acc1 & E1 & V1); [intros; apply (Hi l); cbn; auto|]. rewrite E1. cbn [bind].
    destruct (IH acc1 n _ V1) as (acc2 & E2 & V2); [intros l' c Hl Hc; apply (Hi l'); cbn; auto|]. exists acc2. split; auto.
    eapply vec_ext; [|exact V2]. intros i _. cbn beta. rewrite rsum_cons. lra.
Qed.

Section Areas.
  Variables (o : options) (g : geometry) (atm lnd ocn : list tile) (omask : list (list R)).
  Local Notation lcell := (land_cell o g atm lnd ocn omask).
  Local Notation ocell := (ocean_cell o g atm ocn omask).
  Local Notation dry := (dry_area o g atm lnd ocn omask).
  Local Notation land := (land_exchange o g atm lnd ocn omask).
  Local Notation ocean := (ocean_exchange o g atm ocn omask).
  Local Notation larea := (land_area o g atm lnd ocn omask).
  Local Notation wet := (wet ocn omask).
  Local Notation common := (common g atm ocn).
  Local Notation common3 := (common3 o g atm lnd ocn).

  Lemma lcell_in na ca nl cl c : In c (lcell na ca nl cl) -> c_ia c = fst ca /\ c_ja c = snd ca /\ c_ib c = fst cl /\ c_jb c = snd cl.
  Proof. unfold land_cell. destruct (land_counts_dec _ _ _ _ _ _ _ _); [|easy]. destruct (land_counts_dec _ _ _ _ _ _ _ _); [|easy]. intros [<-|[]]. auto. Qed.
  Lemma ocell_in na ca no co c : In c (ocell na ca no co) -> c_ia c = fst ca /\ c_ja c = snd ca /\ c_ib c = fst co /\ c_jb c = snd co /\ (tiny < wet no co)%R.
  Proof. unfold ocean_cell. destruct (Rlt_dec tiny (wet no co)); [|easy]. destruct (counts_dec _ _ _ _); [|easy]. intros [<-|[]]. auto. Qed.

  (** *** The sum over one atmosphere cell *)
  Definition lsum (na : Z) (ca : Z * Z) : R := rsum (fun l => rsum c_area (lcell na ca (fst l) (snd l))) (land_cells lnd).
  Definition osum (na : Z) (ca : Z * Z) : R := rsum (fun x => rsum c_area (ocell na ca (fst x) (snd x))) (ocean_cells o ocn na).
  Section Atm.
    Variable na : Z.
    Local Notation t := (tile_at atm na).
    Hypothesis Hp : proper t.
    Local Notation idx := (fun c => c_ja c * t_nx t + c_ia c).
    Lemma pick_cells (L : Z * Z -> list xcell) ca : In ca (cells t) -> (forall ca' c, In c (L ca') -> c_ia c = fst ca' /\ c_ja c = snd ca') ->
      rsum (fun c => if idx c =? snd ca * t_nx t + fst ca then c_area c else 0%R) (flat_map L (cells t)) = rsum c_area (L ca).
    Proof.
      intros Hca HL. destruct Hp as (Hx & Hy & _). rewrite rsum_flat. destruct ca as (i, j). apply In_cells in Hca. cbn [fst snd].
      rewrite (rsum_ext _ (fun ca' => if snd ca' * t_nx t + fst ca' =? j * t_nx t + i then rsum c_area (L ca') else 0%R)).
      - rewrite <- (cells_la t) by lia. rewrite rsum_map. cbn [fst snd].
        rewrite (rsum_ext _ (fun la => if la =? j * t_nx t + i then rsum c_area (L (la mod t_nx t, la / t_nx t)) else 0%R)).
        + rewrite rsum_pick by nia. rewrite rowmajor_mod, rowmajor_div by lia. reflexivity.
        + intros la _. pose proof (Z.div_mod la (t_nx t)). replace (la / t_nx t * t_nx t + la mod t_nx t) with la by lia. reflexivity.
      - intros ca' _. destruct (Z.eqb_spec (snd ca' * t_nx t + fst ca') (j * t_nx t + i)) as [E|N].
        + apply rsum_ext. intros c Hc. destruct (HL ca' c Hc) as (-> & ->). rewrite E, Z.eqb_refl. reflexivity.
        + apply rsum_all_zero. intros c Hc. destruct (HL ca' c Hc) as (-> & ->). destruct (Z.eqb_spec (snd ca' * t_nx t + fst ca') (j * t_nx t + i)); congruence.
    Qed.
    Lemma atm_sum_run : exists s, atm_sum t (map (land na) (zseq 0 (zlen lnd))) (map (ocean na) (zseq 0 (zlen ocn))) = Ok s /\ zlen s = t_nx t * t_ny t /\
      forall ca, In ca (cells t) -> val t s ca = (lsum na ca + osum na ca)%R.
    Proof.
      destruct Hp as (Hx & Hy & _). unfold atm_sum.
      destruct (sums_into idx (map (land na) (zseq 0 (zlen lnd)) ++ map (ocean na) (zseq 0 (zlen ocn))) _ _ _ (vec_repeat 0%R (t_nx t * t_ny t) ltac:(nia))) as (s & E & V).
      - assert (forall (L : Z * Z -> list xcell) c, (forall ca' c, In c (L ca') -> c_ia c = fst ca' /\ c_ja c = snd ca') -> In c (flat_map L (cells t)) -> 0 <= idx c < t_nx t * t_ny t) as G.
        { intros L c HL Hc. apply in_flat_map in Hc. destruct Hc as ((i, j) & Hij & Hc). apply In_cells in Hij. destruct (HL _ _ Hc) as (-> & ->). cbn [fst snd]. nia. }
        intros l c Hl Hc. apply in_app_or in Hl. destruct Hl as [Hl|Hl]; apply in_map_iff in Hl; destruct Hl as (n & <- & Hn).
        + apply (G (fun ca => flat_map (lcell na ca n) (cells (tile_at lnd n)))); auto. intros ca' c' Hc'. apply in_flat_map in Hc'. destruct Hc' as (cl & _ & Hc'). apply lcell_in in Hc'. tauto.
        + unfold ocean_exchange in Hc. destruct (facing o na n); [|easy]. apply (G (fun ca => flat_map (ocell na ca n) (cells (tile_at ocn n)))); auto.
          intros ca' c' Hc'. apply in_flat_map in Hc'. destruct Hc' as (cl & _ & Hc'). apply ocell_in in Hc'. tauto.
      - exists s. split; [exact E|]. split; [apply V|]. intros ca Hca. pose proof (proj1 (In_cells t (fst ca) (snd ca)) ltac:(now rewrite <- surjective_pairing)) as Hr.
        unfold val. pose proof (vec_get _ _ _ (snd ca * t_nx t + fst ca) V ltac:(nia)) as Eg. rewrite oget_at in Eg by (destruct V as (L & _); rewrite L; nia). injection Eg as ->.
        rewrite Rplus_0_l, rsum_app, !rsum_map. f_equal.
        + unfold lsum, land_cells. rewrite rsum_flat. apply rsum_ext. intros nl _. unfold land_exchange. rewrite pick_cells; auto.
          * rewrite rsum_flat, rsum_map. reflexivity.
          * intros ca' c Hc. apply in_flat_map in Hc. destruct Hc as (cl & _ & Hc). apply lcell_in in Hc. tauto.
        + unfold osum, ocean_cells. rewrite rsum_flat. apply rsum_ext. intros no _. unfold ocean_exchange. destruct (facing o na no); [|reflexivity]. rewrite pick_cells; auto.
          * rewrite rsum_flat, rsum_map. reflexivity.
          * intros ca' c Hc. apply in_flat_map in Hc. destruct Hc as (cl & _ & Hc). apply ocell_in in Hc. tauto.
    Qed.
  End Atm.

  Lemma ocell_full na ca no co : clean_fraction (wet no co) ->
    (common na ca (no, co) = 0%R \/ counts o (ocean_part g atm ocn omask na ca no co) (size (tile_at ocn no) co) (size (tile_at atm na) ca) \/ wet no co = 0%R) ->
    rsum c_area (ocell na ca no co) = (common na ca (no, co) * wet no co)%R.
  Proof.
    intros (Hc & _) Hs. change (common na ca (no, co) * wet no co)%R with (ocean_part g atm ocn omask na ca no co). unfold ocean_cell. destruct (Rlt_dec tiny (wet no co)) as [L|L].
    - destruct (counts_dec o _ _ _) as [c|n]; [rewrite rsum_one; reflexivity|]. destruct Hs as [Hs|[Hs|Hs]]; [|contradiction|exfalso; unfold tiny in L; lra].
      rewrite rsum_nil. unfold ocean_part. change (0 = common na ca (no, co) * wet no co)%R. rewrite Hs. lra.
    - destruct Hc as [Hc|Hc]; [|contradiction]. rewrite rsum_nil. unfold ocean_part. rewrite Hc. lra.
  Qed.
  Lemma ocell_le na ca no co : fraction (wet no co) -> (0 <= common na ca (no, co))%R -> (0 <= rsum c_area (ocell na ca no co) <= common na ca (no, co) * wet no co)%R.
  Proof.
    intros Hf Hc. change (common na ca (no, co) * wet no co)%R with (ocean_part g atm ocn omask na ca no co). unfold fraction in Hf.
    assert (0 <= ocean_part g atm ocn omask na ca no co)%R by (unfold ocean_part; change (0 <= common na ca (no, co) * wet no co)%R; nra).
    unfold ocean_cell. destruct (Rlt_dec tiny (wet no co)); [destruct (counts_dec o _ _ _)|]; rewrite ?rsum_one, ?rsum_nil; cbn [c_area]; lra.
  Qed.
  Lemma larea_list na ca nl cl : larea na ca nl cl = rsum (fun x => dry na ca nl cl (fst x) (snd x)) (ocean_cells o ocn na).
  Proof. unfold land_area, ocean_cells. rewrite rsum_flat. apply rsum_ext. intros no _. rewrite rsum_if. destruct (facing o na no); auto. now rewrite rsum_map. Qed.

  Lemma conserve na ca : tiled o g atm lnd ocn na ca -> no_slivers o g atm lnd ocn omask na ca ->
    (forall x, In x (ocean_cells o ocn na) -> clean_fraction (wet (fst x) (snd x))) ->
    (lsum na ca + osum na ca)%R = size (tile_at atm na) ca.
  Proof.
    intros (T1 & T2) (S1 & S2) HF.
    assert (osum na ca = rsum (fun x => common na ca x * wet (fst x) (snd x))%R (ocean_cells o ocn na)) as ->.
    { unfold osum. apply rsum_ext. intros (no, co) Hx. apply ocell_full; [apply (HF _ Hx)|apply (S1 _ Hx)]. }
    assert (lsum na ca = rsum (fun l => rsum (fun x => common3 na ca l x * (1 - wet (fst x) (snd x)))%R (ocean_cells o ocn na)) (land_cells lnd)) as ->.
    { unfold lsum. apply rsum_ext. intros (nl, cl) Hl. destruct (S2 _ Hl) as (Sa & Sb & Sc). cbn [fst snd] in *. unfold land_cell.
      assert (larea na ca nl cl = rsum (fun x => common3 na ca (nl, cl) x * (1 - wet (fst x) (snd x)))%R (ocean_cells o ocn na)) as EL.
      { rewrite larea_list. apply rsum_ext. intros (no, co) Hx. destruct (HF _ Hx) as (_ & HF2). specialize (Sc _ Hx). cbn [fst snd] in *. unfold dry_area.
        change (common3 na ca (nl, cl) (no, co) * (1 - wet no co))%R with (dry_part o g atm lnd ocn omask na ca nl cl no co).
        destruct (Rlt_dec tiny (1 - wet no co)) as [L|L].
        - destruct (land_counts_dec _ _ _ _ _ _ _ _) as [c|n]; auto. destruct Sc as [Sc|[Sc|Sc]]; [|contradiction|exfalso; unfold tiny in L; lra].
          change (0 = common3 na ca (nl, cl) (no, co) * (1 - wet no co))%R. rewrite Sc. lra.
        - destruct HF2 as [HF2|HF2]; [|contradiction]. unfold dry_part. rewrite HF2. lra. }
      destruct (land_counts_dec _ _ _ _ _ _ _ (g_area g _)) as [c|n].
      - destruct (land_counts_dec _ _ _ _ _ _ _ (larea na ca nl cl)) as [c'|n']; [rewrite rsum_one; exact EL|]. destruct Sb as [Sb|Sb]; [|contradiction]. rewrite rsum_nil. congruence.
      - rewrite rsum_nil. destruct Sa as [Sa|Sa]; [contradiction|]. symmetry. apply rsum_all_zero. intros x Hx. rewrite (Sa x Hx). lra. }
    rewrite rsum_swap, <- rsum_plus, <- T1. apply rsum_ext. intros x Hx. rewrite <- (T2 x Hx) at 1.
    rewrite (rsum_ext _ (fun l => (1 - wet (fst x) (snd x)) * common3 na ca l x)%R) by (intros; lra). rewrite rsum_scal. rewrite (T2 x Hx). lra.
  Qed.
  Lemma bounded na ca : disjoint o g atm lnd ocn na ca -> (forall x, In x (ocean_cells o ocn na) -> fraction (wet (fst x) (snd x))) ->
    (0 <= lsum na ca + osum na ca <= size (tile_at atm na) ca)%R.
  Proof.
    intros (T1 & T2) HF.
    assert (0 <= osum na ca <= rsum (fun x => common na ca x * wet (fst x) (snd x)) (ocean_cells o ocn na))%R as HO.
    { unfold osum. split.
      - apply rsum_nonneg. intros (no, co) Hx. apply ocell_le; [apply (HF _ Hx)|apply (T2 _ Hx)].
      - apply rsum_le. intros (no, co) Hx. apply ocell_le; [apply (HF _ Hx)|apply (T2 _ Hx)]. }
    assert (forall l, In l (land_cells lnd) -> (0 <= rsum c_area (lcell na ca (fst l) (snd l)) <= rsum (fun x => common3 na ca l x * (1 - wet (fst x) (snd x))) (ocean_cells o ocn na))%R) as HL.
    { intros (nl, cl) Hl. cbn [fst snd].
      assert (forall x, In x (ocean_cells o ocn na) -> (0 <= dry na ca nl cl (fst x) (snd x) <= common3 na ca (nl, cl) x * (1 - wet (fst x) (snd x)))%R) as HD.
      { intros (no, co) Hx. cbn [fst snd]. destruct (T2 _ Hx) as (_ & _ & T3). specialize (T3 _ Hl). pose proof (HF _ Hx) as F. unfold fraction in F. cbn [fst snd] in F.
        change (common3 na ca (nl, cl) (no, co) * (1 - wet no co))%R with (dry_part o g atm lnd ocn omask na ca nl cl no co).
        assert (0 <= dry_part o g atm lnd ocn omask na ca nl cl no co)%R by (change (0 <= common3 na ca (nl, cl) (no, co) * (1 - wet no co))%R; nra).
        unfold dry_area. destruct (Rlt_dec tiny (1 - wet no co)); [destruct (land_counts_dec _ _ _ _ _ _ _ _)|]; lra. }
      assert (0 <= larea na ca nl cl <= rsum (fun x => common3 na ca (nl, cl) x * (1 - wet (fst x) (snd x))) (ocean_cells o ocn na))%R as HA.
      { rewrite larea_list. split; [apply rsum_nonneg|apply rsum_le]; intros x Hx; apply (HD x Hx). }
      unfold land_cell. destruct (land_counts_dec _ _ _ _ _ _ _ (g_area g _)); [destruct (land_counts_dec _ _ _ _ _ _ _ (larea na ca nl cl))|]; rewrite ?rsum_one, ?rsum_nil; cbn [c_area]; lra. }
    assert (0 <= lsum na ca)%R as HL0 by (apply rsum_nonneg; intros l Hl; apply (HL l Hl)).
    assert (lsum na ca <= rsum (fun l => rsum (fun x => common3 na ca l x * (1 - wet (fst x) (snd x))) (ocean_cells o ocn na)) (land_cells lnd))%R as HL1 by (apply rsum_le; intros l Hl; apply (HL l Hl)).
    split; [lra|]. rewrite rsum_swap in HL1.
    assert (rsum (fun x => rsum (fun l => common3 na ca l x * (1 - wet (fst x) (snd x))) (land_cells lnd)) (ocean_cells o ocn na) + rsum (fun x => common na ca x * wet (fst x) (snd x)) (ocean_cells o ocn na) <= rsum (common na ca) (ocean_cells o ocn na))%R; [|lra].
    rewrite <- rsum_plus. apply rsum_le. intros x Hx. rewrite (rsum_ext _ (fun l => (1 - wet (fst x) (snd x)) * common3 na ca l x)%R) by (intros; lra). rewrite rsum_scal.
    destruct (T2 x Hx) as (_ & T3 & _). pose proof (HF _ Hx) as F. unfold fraction in F. nra.
  Qed.

  (** *** The sum over one ocean cell *)
  Definition asum (nest no : Z) (co : Z * Z) : R := rsum (fun a => rsum c_area (ocell (fst a) (snd a) no co)) (air_cells o atm nest no).
  Section Ocn.
    Variables (nest no : Z).
    Local Notation t := (tile_at ocn no).
    Hypothesis Hp : proper t.
    Hypothesis Hno : 0 <= no < zlen ocn.
    Local Notation idx := (fun c => c_jb c * t_nx t + c_ib c).
    Lemma pick_side {A} (l : list A) (L : A -> Z * Z -> list xcell) co : In co (cells t) -> (forall a co' c, In c (L a co') -> c_ib c = fst co' /\ c_jb c = snd co') ->
      rsum (fun c => if idx c =? snd co * t_nx t + fst co then c_area c else 0%R) (flat_map (fun a => flat_map (L a) (cells t)) l) = rsum (fun a => rsum c_area (L a co)) l.
    Proof.
      intros Hco HL. destruct Hp as (Hx & Hy & _). rewrite rsum_flat. apply rsum_ext. intros a _. rewrite rsum_flat. destruct co as (i, j). apply In_cells in Hco. cbn [fst snd].
      rewrite (rsum_ext _ (fun ca' => if snd ca' * t_nx t + fst ca' =? j * t_nx t + i then rsum c_area (L a ca') else 0%R)).
      - rewrite <- (cells_la t) by lia. rewrite rsum_map. cbn [fst snd].
        rewrite (rsum_ext _ (fun la => if la =? j * t_nx t + i then rsum c_area (L a (la mod t_nx t, la / t_nx t)) else 0%R)).
        + rewrite rsum_pick by nia. rewrite rowmajor_mod, rowmajor_div by lia. reflexivity.
        + intros la _. pose proof (Z.div_mod la (t_nx t)). replace (la / t_nx t * t_nx t + la mod t_nx t) with la by lia. reflexivity.
      - intros ca' _. destruct (Z.eqb_spec (snd ca' * t_nx t + fst ca') (j * t_nx t + i)) as [E|N].
        + apply rsum_ext. intros c Hc. destruct (HL a ca' c Hc) as (-> & ->). rewrite E, Z.eqb_refl. reflexivity.
        + apply rsum_all_zero. intros c Hc. destruct (HL a ca' c Hc) as (-> & ->). destruct (Z.eqb_spec (snd ca' * t_nx t + fst ca') (j * t_nx t + i)); congruence.
    Qed.
    Lemma tile_sum_run : exists s, tile_sum t nest no (map (fun na => map (ocean na) (zseq 0 (zlen ocn))) (zseq 0 (zlen atm))) = Ok s /\ zlen s = t_nx t * t_ny t /\
      forall co, In co (cells t) -> val t s co = asum nest no co.
    Proof.
      destruct Hp as (Hx & Hy & _). unfold tile_sum. rewrite zlen_map, zlen_zseq by apply zlen_nonneg.
      match goal with |- context [ofor 0 _ ?f ?s] => destruct (ofor_vec f (t_nx t * t_ny t) 0 (zlen atm) (fun na i => rsum (fun na => if na =? nest then 0%R else rsum (fun c => if idx c =? i then c_area c else 0%R) (ocean na no)) (zseq 0 na)) s (zlen_nonneg _)) as (s' & E & V) end.
      - apply vec_repeat. nia.
      - intros na acc Hna HV. rewrite Z.add_0_l in Hna.
        assert (forall i, rsum (fun na => if na =? nest then 0%R else rsum (fun c => if idx c =? i then c_area c else 0%R) (ocean na no)) (zseq 0 (na + 1)) =
          (rsum (fun na => if na =? nest then 0%R else rsum (fun c => if idx c =? i then c_area c else 0%R) (ocean na no)) (zseq 0 na) + if na =? nest then 0%R else rsum (fun c => if idx c =? i then c_area c else 0%R) (ocean na no))%R) as Hs.
        { intros i. rewrite zseq_snoc, rsum_app, rsum_one, Z.add_0_l by lia. reflexivity. }
        destruct (na =? nest) eqn:EN.
        + exists acc. split; auto. eapply vec_ext; [|exact HV]. intros i _. cbn beta. rewrite Hs. lra.
        + assert (oget (map (fun na => map (ocean na) (zseq 0 (zlen ocn))) (zseq 0 (zlen atm))) na = Ok (map (ocean na) (zseq 0 (zlen ocn)))) as -> by (apply oget_Ok; rewrite zget_map, zget_zseq by lia; reflexivity).
          cbn [bind]. assert (oget (map (ocean na) (zseq 0 (zlen ocn))) no = Ok (ocean na no)) as -> by (apply oget_Ok; rewrite zget_map, zget_zseq by lia; reflexivity). cbn [bind].
          destruct (sum_into idx (ocean na no) acc (t_nx t * t_ny t) _ HV) as (acc' & E1 & V1).
          { intros c Hc. unfold ocean_exchange in Hc. destruct (facing o na no); [|easy]. apply in_flat_map in Hc. destruct Hc as (ca & _ & Hc). apply in_flat_map in Hc. destruct Hc as ((i, j) & Hij & Hc).
            apply In_cells in Hij. apply ocell_in in Hc. destruct Hc as (_ & _ & -> & -> & _). cbn [fst snd]. nia. }
          exists acc'. split; [exact E1|]. eapply vec_ext; [|exact V1]. intros i _. cbn beta. now rewrite Hs.
      - exists s'. split; [exact E|]. rewrite Z.add_0_l in V. split; [apply V|]. intros co Hco. pose proof (proj1 (In_cells t (fst co) (snd co)) ltac:(now rewrite <- surjective_pairing)) as Hr.
        unfold val. pose proof (vec_get _ _ _ (snd co * t_nx t + fst co) V ltac:(nia)) as Eg. rewrite oget_at in Eg by (destruct V as (L & _); rewrite L; nia). injection Eg as ->.
        unfold asum, air_cells. rewrite rsum_flat. apply rsum_ext. intros na _. destruct (na =? nest); [reflexivity|]. unfold ocean_exchange. rewrite rsum_if. destruct (facing o na no); [|reflexivity].
        rewrite (pick_side _ (fun ca => ocell na ca no)); auto.
        + now rewrite rsum_map.
        + intros ca co' c Hc. apply ocell_in in Hc. tauto.
    Qed.
    Lemma asum_full co : under_air o g atm ocn omask nest no co -> clean_fraction (wet no co) -> asum nest no co = (wet no co * size t co)%R.
    Proof.
      intros (T & S) HF. unfold asum. rewrite <- T, <- rsum_scal. apply rsum_ext. intros (na, ca) Ha. cbn [fst snd]. rewrite ocell_full; auto; [lra|]. apply (S _ Ha).
    Qed.
    Lemma asum_le co : partly_under_air o g atm ocn nest no co -> fraction (wet no co) -> (0 <= asum nest no co <= wet no co * size t co)%R.
    Proof.
      intros (T & S) HF. split.
      - apply rsum_nonneg. intros (na, ca) Ha. apply ocell_le; [exact HF|exact (S _ Ha)].
      - apply Rle_trans with (rsum (fun a => wet no co * common (fst a) (snd a) (no, co))%R (air_cells o atm nest no)).
        + apply rsum_le. intros (na, ca) Ha. cbn [fst snd]. pose proof (ocell_le na ca no co HF (S _ Ha)). lra.
        + rewrite rsum_scal. unfold fraction in HF. nra.
    Qed.
    (** The fraction that is written *)
    Lemma ocean_mask_run ext s : 0 <= ext <= t_ny t -> zlen s = t_nx t * t_ny t -> zlen (nth (Z.to_nat no) omask []) = t_nx t * t_ny t ->
      exists m nbad, ocean_mask t ext (nth (Z.to_nat no) omask []) s = Ok (m, nbad) /\ zlen m = t_nx t * (t_ny t - ext) /\
        (forall i j, 0 <= i < t_nx t -> ext <= j < t_ny t -> val t m (i, j - ext) = (val t s (i, j) / size t (i, j))%R) /\
        (0 <= nbad /\ (nbad = 0 <-> forall i j, 0 <= i < t_nx t -> ext <= j < t_ny t -> (Rabs (wet no (i, j) - val t s (i, j) / size t (i, j)) <= 1 / 10000)%R)).
    Proof.
      intros He Ls Lo. destruct Hp as (Hx & Hy & _ & _ & La & _). unfold ocean_mask.
      pose (f := fun n => (at_ s (n + ext * t_nx t) / at_ (t_area t) (n + ext * t_nx t))%R).
      pose (bad := fun n => rlt (1 / 10000) (Rabs (at_ (nth (Z.to_nat no) omask []) (n + ext * t_nx t) - f n))).
      pose (cnt := fun l => zlen (filter bad l)).
      match goal with |- context [ofor 0 _ ?h ([], 0)] => destruct (ofor_inv (fun j st => st = (map f (zseq 0 (j * t_nx t)), cnt (zseq 0 (j * t_nx t)))) h 0 (t_ny t - ext) ([], 0) ltac:(lia)) as (st & E & ->) end.
      - reflexivity.
      - intros j st Hj ->.
        match goal with |- context [ofor 0 _ ?h ?s0] => destruct (ofor_inv (fun i st => st = (map f (zseq 0 (j * t_nx t + i)), cnt (zseq 0 (j * t_nx t + i)))) h 0 (t_nx t) s0 ltac:(lia)) as (st & E & ->) end.
        + now rewrite Z.add_0_r.
        + intros i st Hi ->. rewrite !oget_at by nia. cbn [bind]. eexists. split; [reflexivity|].
          replace (j * t_nx t + (i + 1)) with (j * t_nx t + i + 1) by lia. rewrite zseq_snoc by nia. rewrite map_app. cbn [map]. unfold cnt. rewrite filter_app, zlen_app. rewrite Z.add_0_l.
          replace ((j + ext) * t_nx t + i) with (j * t_nx t + i + ext * t_nx t) by lia. f_equal. cbn [filter]. fold (f (j * t_nx t + i)). unfold bad at 4.
          destruct (rlt (1 / 10000) (Rabs (at_ (nth (Z.to_nat no) omask []) (j * t_nx t + i + ext * t_nx t) - f (j * t_nx t + i)))); cbn; lia.
        + exists (map f (zseq 0 ((j + 1) * t_nx t)), cnt (zseq 0 ((j + 1) * t_nx t))). split; auto. rewrite E. do 2 f_equal; f_equal; f_equal; lia.
      - rewrite Z.add_0_l in E. eexists _, _. split; [exact E|]. split; [rewrite zlen_map, zlen_zseq; nia|].
        assert (forall i j, 0 <= i < t_nx t -> ext <= j < t_ny t -> f ((j - ext) * t_nx t + i) = (val t s (i, j) / size t (i, j))%R) as Hf.
        { intros i j Hi Hj. unfold f, size, val. cbn [fst snd]. replace ((j - ext) * t_nx t + i + ext * t_nx t) with (j * t_nx t + i) by lia. reflexivity. }
        split.
        + intros i j Hi Hj. unfold val at 1. cbn [fst snd]. rewrite <- Hf by lia.
          assert (oget (map f (zseq 0 ((t_ny t - ext) * t_nx t))) ((j - ext) * t_nx t + i) = Ok (f ((j - ext) * t_nx t + i))) as Eg.
          { apply oget_Ok. rewrite zget_map, zget_zseq by nia. reflexivity. }
          rewrite oget_at in Eg by (rewrite zlen_map, zlen_zseq; nia). now injection Eg.
        + split; [apply zlen_nonneg|]. split.
          * intros Hz i j Hi Hj. unfold cnt in Hz. assert (filter bad (zseq 0 ((t_ny t - ext) * t_nx t)) = []) as Hn by (destruct (filter _ _); [auto|rewrite zlen_cons in Hz; pose proof (zlen_nonneg l); lia]).
            apply Rnot_lt_le. intros C. assert (In ((j - ext) * t_nx t + i) (filter bad (zseq 0 ((t_ny t - ext) * t_nx t)))) as HI.
            { apply filter_In. split; [apply In_zseq; nia|]. unfold bad. rewrite Hf by lia. replace ((j - ext) * t_nx t + i + ext * t_nx t) with (j * t_nx t + i) by lia.
              destruct (rlt_spec (1 / 10000) (Rabs (at_ (nth (Z.to_nat no) omask []) (j * t_nx t + i) - val t s (i, j) / size t (i, j)))); [reflexivity|contradiction]. }
            rewrite Hn in HI. easy.
          * intros Hb. unfold cnt. destruct (filter bad (zseq 0 ((t_ny t - ext) * t_nx t))) as [|n l] eqn:EF; [reflexivity|]. exfalso.
            assert (In n (filter bad (zseq 0 ((t_ny t - ext) * t_nx t)))) as HI by (rewrite EF; now left). apply filter_In in HI. destruct HI as (HI & HB). apply In_zseq in HI.
            destruct (divmod_range (t_ny t - ext) (t_nx t) n ltac:(lia) ltac:(lia)) as (_ & D1 & D2 & D3). specialize (Hb (n mod t_nx t) (n / t_nx t + ext) ltac:(lia) ltac:(lia)).
            unfold bad in HB. destruct (rlt_spec (1 / 10000) (Rabs (at_ (nth (Z.to_nat no) omask []) (n + ext * t_nx t) - f n))) as [C|]; [|discriminate].
            pose proof (Hf (n mod t_nx t) (n / t_nx t + ext) ltac:(lia) ltac:(lia)) as E2. replace (n / t_nx t + ext - ext) with (n / t_nx t) in E2 by lia. rewrite <- D3 in E2. rewrite <- E2 in Hb.
            unfold Spec_Coupler.wet, val in Hb. cbn [fst snd] in Hb. replace ((n / t_nx t + ext) * t_nx t + n mod t_nx t) with (n + ext * t_nx t) in Hb by lia. lra.
    Qed.
  End Ocn.

  (** *** The indices written *)
  Lemma ocean_indices na no ext c : proper (tile_at ocn no) -> proper (tile_at atm na) -> 0 <= ext ->
    (forall i j, 0 <= j < ext -> wet no (i, j) = 0%R) -> In c (map (written_ocean ext) (ocean na no)) ->
    1 <= c_ia c <= t_nx (tile_at atm na) /\ 1 <= c_ja c <= t_ny (tile_at atm na) /\ 1 <= c_ib c <= t_nx (tile_at ocn no) /\ 1 <= c_jb c <= t_ny (tile_at ocn no) - ext.
  Proof.
    intros Ho Ha He Hw Hc. apply in_map_iff in Hc. destruct Hc as (c0 & <- & Hc). unfold ocean_exchange in Hc. destruct (facing o na no); [|easy].
    apply in_flat_map in Hc. destruct Hc as ((ia, ja) & Hij & Hc). apply in_flat_map in Hc. destruct Hc as ((i, j) & Hij' & Hc). apply ocell_in in Hc. apply In_cells in Hij, Hij'.
    destruct Hc as (E1 & E2 & E3 & E4 & L). cbn [written_ocean c_ia c_ja c_ib c_jb fst snd] in *. destruct (Z_lt_ge_dec j ext) as [J|J]; [rewrite Hw in L by lia; unfold tiny in L; lra|]. lia.
  Qed.
End Areas.
