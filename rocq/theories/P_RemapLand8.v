(** * Proofs about remap_land: when there is a nearest source cell and when there is none *)
From Coq Require Import Reals Lra.
From Verif Require Import Base Loops Lst Vec Grid2 M_Interp M_Extent M_RemapLand Spec_Interp P_Interp P_Interp2 Spec_RemapLand P_RemapLand P_RemapLand2 P_RemapLand3 P_RemapLand4 P_RemapLand5 P_RemapLand6.
Open Scope Z_scope.

Lemma ofor_last {S} lo n (f : S -> Z -> outcome S) s : 0 <= n -> ofor lo (n + 1) f s = (do s' <- ofor lo n f s ; f s' (lo + n)).
Proof.
  intros Hn. rewrite ofor_app by lia. destruct (ofor lo n f s) as [s'| |]; cbn [bind]; auto. rewrite ofor_S by lia. destruct (f s' (lo + n)); reflexivity.
Qed.

Section Nearest.
  Variable z : input.
  Hypothesis Hwf : wf_input z.
  Hypothesis Hroom : room z.
  Let ns := ncell_src z.
  Let total := i_nface z * ns.

  Definition has (k : kind) : Prop := exists f c, 0 <= f < i_nface z /\ 0 <= c < ns /\ source_entries z k f c <> [].
  Definition mask (k : kind) : list Z := map (fun p => zlen (SE z (i_files z) k p)) (zseq 0 total).
  Definition near_of (k : kind) (i : Z) : Z * Z :=
    match search_point (i_nface z) ns (i_lon z) (i_lat z) (mask k) (at_ (i_lond z) i) (at_ (i_latd z) i) with Ok r => r | _ => (0, 0) end.

  Lemma nspos : 0 < ns. Proof. destruct Hwf as (_ & H1 & H2 & _). unfold ns, ncell_src. nia. Qed.
  Lemma SEs k f c : 0 <= c < ns -> SE z (i_files z) k (f * ns + c) = source_entries z k f c.
  Proof. exact (SE_source LAND z 0 0 (fun _ _ => (0, 0)) k f c). Qed.
  Lemma best_nearest k i f c : 0 <= f < i_nface z -> 0 <= c < ns ->
    best (i_lon z) (i_lat z) (fun p => zlen (SE z (i_files z) k p)) (at_ (i_lond z) i) (at_ (i_latd z) i) total (f * ns + c) -> nearest_source z k i f c.
  Proof.
    intros Hf Hc (_ & B2 & B3). pose proof nspos as Hns. split; auto. split; auto. rewrite SEs in B2 by auto.
    split; [intros H; apply B2; now rewrite H|]. intros f' c' Hf' Hc' Hne. fold ns in Hc'.
    destruct (B3 (f' * ns + c')) as (D1 & D2); [unfold total; nia| |].
    - rewrite SEs by auto. intros H. apply Hne. destruct (source_entries z k f' c'); auto. rewrite zlen_cons in H. pose proof (zlen_nonneg l). lia.
    - split; [exact D1|]. intros H. apply D2. nia.
  Qed.
  Lemma mask_vec k : vec (mask k) total (fun p => zlen (SE z (i_files z) k p)).
  Proof. apply vec_map. pose proof nspos. destruct Hwf as (H1 & _). unfold total. nia. Qed.
  Lemma near_of_run k i : has k -> nearest_source z k i (fst (near_of k i)) (snd (near_of k i)).
  Proof.
    intros (f0 & c0 & Hf0 & Hc0 & Hne). pose proof nspos as Hns. pose proof Hwf as (W1 & _ & _ & _ & _ & _ & _ & _ & _ & _ & L1 & L2 & _).
    unfold near_of. destruct (search_run (i_nface z) ns (i_lon z) (i_lat z) (mask k) _ (at_ (i_lond z) i) (at_ (i_latd z) i) ltac:(lia) Hns L1 L2 (mask_vec k)) as [(f & c & -> & Hf & Hc & HB)|(_ & H0)].
    - cbn [fst snd]. apply best_nearest; auto.
    - exfalso. specialize (H0 (f0 * ns + c0) ltac:(nia)). cbn beta in H0. rewrite SEs in H0 by auto. apply Hne. destruct (source_entries z k f0 c0); auto. rewrite zlen_cons in H0. pose proof (zlen_nonneg l). lia.
  Qed.

  (** ** No source cell of the kind *)
  Section None.
    Variables (isc iec : Z).
    Hypothesis Hi : 0 <= isc.
    Hypothesis Hd : iec < ncell_dst z.
    Let nxc := iec - isc + 1.
    Lemma search_err k sc cc i0 : ~ has k -> vec sc total (fun p => zlen (SE z (i_files z) k p)) -> vec cc nxc (fun i => zlen (cold_entries z k (isc + i))) ->
      isc <= i0 <= iec -> cold_entries z k i0 <> [] ->
      full_search_nearest (i_nface z) ns (i_lon z) (i_lat z) sc nxc (window (i_lond z) isc nxc) (window (i_latd z) isc nxc) cc = Err 2.
    Proof.
      intros Hno H1 H2 Hi0 Hc0. unfold full_search_nearest. pose proof nspos as Hns. pose proof Hwf as (W1 & _ & _ & _ & _ & _ & _ & _ & _ & _ & L1 & L2 & L3 & L4).
      match goal with |- ofor 0 nxc ?g _ = _ => set (step := g) end.
      assert (forall m i, 0 <= i < nxc -> (cold_entries z k (isc + i) = [] /\ exists m', step m i = Ok m') \/ (cold_entries z k (isc + i) <> [] /\ step m i = Err 2)) as Hstep.
      { intros m i Hii. unfold step. rewrite (vec_get _ _ _ _ H2) by lia. cbn [bind]. destruct (cold_entries z k (isc + i)) as [|e L] eqn:Ec; [left; split; [auto|eexists; reflexivity]|right; split; [easy|]].
        rewrite zlen_cons. pose proof (zlen_nonneg L). destruct (Z.eqb_spec (1 + zlen L) 0); [lia|].
        rewrite (proj2 (oget_Ok _ _ (at_ (i_lond z) (isc + i)))) by (rewrite zget_window by lia; apply at_get; unfold nxc in Hii; lia). cbn [bind].
        rewrite (proj2 (oget_Ok _ _ (at_ (i_latd z) (isc + i)))) by (rewrite zget_window by lia; apply at_get; unfold nxc in Hii; lia). cbn [bind].
        destruct (search_run (i_nface z) ns (i_lon z) (i_lat z) sc _ (at_ (i_lond z) (isc + i)) (at_ (i_latd z) (isc + i)) ltac:(lia) Hns L1 L2 H1) as [(f & c & Es & Hf & Hc & HB)|(-> & _)]; [|reflexivity].
        exfalso. apply Hno. exists f, c. split; auto. split; auto. destruct HB as (_ & B2 & _). rewrite SEs in B2 by auto. intros H'. apply B2. now rewrite H'. }
      assert (forall n, 0 <= n -> n <= nxc -> (forall i, 0 <= i < n -> cold_entries z k (isc + i) = []) /\ (exists m, ofor 0 n step [] = Ok m) \/ ofor 0 n step [] = Err 2) as Hall.
      { intros n Hn. pattern n. apply natlike_ind; auto.
        - intros _. left. split; [intros; lia|]. eexists. reflexivity.
        - intros n' Hn' IH Hle. unfold Z.succ in *. rewrite ofor_last by lia. destruct (IH ltac:(lia)) as [(Hemp & m & ->)| ->]; cbn [bind]; [|right; reflexivity].
          rewrite Z.add_0_l. destruct (Hstep m n' ltac:(lia)) as [(He & m' & ->)|(_ & ->)]; [left|right; reflexivity]. split; [|eauto].
          intros i Hii. destruct (Z.eq_dec i n') as [->|]; auto. apply Hemp. lia. }
      destruct (Hall nxc ltac:(unfold nxc; lia) ltac:(lia)) as [(Hemp & _)|]; auto.
      exfalso. apply Hc0. replace i0 with (isc + (i0 - isc)) by lia. apply Hemp. unfold nxc. lia.
    Qed.

    Hypothesis He : isc <= iec + 1.
    Variable ft : ftype.
    Definition single (k : kind) : outcome (list Z * list tile * list Z * list tile * list (Z * Z)) :=
      if present z k then
        do '(sc, st) <- source_tiles (i_nx z) (i_ny z) 1 (use_all_tile ft) (tags k) (tag2 k) (i_files z) ;
        do '(cc, ct) <- get_land_tile_info (i_nxd z) (i_nyd z) 1 isc iec (tags k (i_cold z)) (tag2 k (i_cold z)) (l_idx (i_cold z)) (l_frac (i_cold z)) false ;
        do m <- full_search_nearest (i_nface z) ns (i_lon z) (i_lat z) sc nxc (window (i_lond z) isc nxc) (window (i_latd z) isc nxc) cc ;
        Ok (sc, st, cc, ct, m)
      else Ok ([], [], [], [], []).

    Lemma files_ok k nt : (forall f c, zlen (source_entries z k f c) <= nt) -> forall f, In f (i_files z) -> wf_land f /\ forall c, zlen (entries ns (tags k f) (l_idx f) c) <= nt.
    Proof.
      intros H f Hin. destruct Hwf as (_ & _ & _ & _ & _ & _ & _ & _ & W & _). split; auto. intros c. apply In_zget in Hin. destruct Hin as (q & _ & Eq).
      specialize (H q c). unfold source_entries in H. rewrite Eq in H. exact H.
    Qed.
    Lemma single_ok k : k <> Soil -> (present z k = true -> has k) -> exists r, single k = Ok r.
    Proof.
      intros Hk Hh. unfold single. destruct (present z k) eqn:Hp; [|eexists; reflexivity]. destruct Hroom as (_ & _ & HR). destruct (HR k Hk Hp) as (R1 & R2).
      pose proof Hwf as (_ & _ & _ & _ & _ & _ & _ & W8 & _).
      destruct (source_run ft z Hwf k 1 (i_files z) ltac:(lia) (files_ok k 1 R1)) as (sc & st & E1 & S1 & S2). rewrite W8 in S1, S2. rewrite E1. cbn [bind].
      destruct (cold_run ft z Hwf isc iec Hi He k 1 ltac:(lia) R2) as (cc & ct & E2 & C1 & C2). rewrite E2. cbn [bind].
      destruct (search_all_run ft z Hwf isc iec Hi He Hd near_of k sc cc Hp S1 C1) as (m & E3 & _); [intros i _ _; apply near_of_run; auto|]. fold ns nxc in E3. rewrite E3. eexists; reflexivity.
    Qed.
    Lemma single_err k i0 : k <> Soil -> present z k = true -> ~ has k -> isc <= i0 <= iec -> cold_entries z k i0 <> [] -> single k = Err 2.
    Proof.
      intros Hk Hp Hno Hi0 Hc0. unfold single. rewrite Hp. destruct Hroom as (_ & _ & HR). destruct (HR k Hk Hp) as (R1 & R2).
      pose proof Hwf as (_ & _ & _ & _ & _ & _ & _ & W8 & _).
      destruct (source_run ft z Hwf k 1 (i_files z) ltac:(lia) (files_ok k 1 R1)) as (sc & st & E1 & S1 & S2). rewrite W8 in S1, S2. rewrite E1. cbn [bind].
      destruct (cold_run ft z Hwf isc iec Hi He k 1 ltac:(lia) R2) as (cc & ct & E2 & C1 & C2). rewrite E2. cbn [bind].
      rewrite (search_err k sc cc i0); auto.
    Qed.

    Lemma one_pe_err k i0 : present z k = true -> ~ has k -> isc <= i0 <= iec -> cold_entries z k i0 <> [] ->
      (k <> Soil -> has Soil) -> (k = Lake -> present z Glacier = true -> has Glacier) -> one_pe ft z isc iec = Err 2.
    Proof.
      intros Hp Hno Hi0 Hc0 HS HG. pose proof Hwf as (W1 & W2 & W3 & W4 & W5 & W6 & W7 & W8 & _). pose proof Hroom as (R1 & R2 & R3).
      destruct (source_run ft z Hwf Soil (i_ntile z) (i_files z) W6 (files_ok Soil _ R1)) as (sc & st & E1 & S1 & S2). rewrite W8 in S1, S2.
      destruct (cold_run ft z Hwf isc iec Hi He Soil (i_ntile_cold z) W7 R2) as (cc & ct & E2 & C1 & C2).
      destruct (frac_cold_run ft z isc iec He _ _ _ W7 R2 C1 C2) as (fc & E3 & C3).
      unfold one_pe. cbv zeta. fold nxc. change (i_nx z * i_ny z) with ns. change l_soil with (tags Soil). change l_vegn with (tag2 Soil).
      fold nxc in E3. rewrite E1. cbn [bind]. rewrite E2. cbn [bind]. rewrite E3. cbn [bind].
      assert (k = Soil \/ k <> Soil) as [->|Hk] by (destruct k; auto; right; easy).
      { rewrite (search_err Soil sc cc i0); auto. }
      destruct (search_all_run ft z Hwf isc iec Hi He Hd near_of Soil sc cc eq_refl S1 C1) as (m & E4 & _); [intros i _ _; apply near_of_run; auto|]. fold ns nxc in E4. rewrite E4. cbn [bind].
      assert (k = Glacier \/ k = Lake) as [->| ->] by (destruct k; auto; easy).
      - pose proof (single_err Glacier i0 Hk Hp Hno Hi0 Hc0) as Es.
        match goal with |- bind (if i_has_glac z then ?a else ?b) _ = _ => replace (if i_has_glac z then a else b) with (single Glacier) by reflexivity end. rewrite Es. reflexivity.
      - destruct (single_ok Glacier ltac:(easy) (HG eq_refl)) as (r & Er).
        match goal with |- bind (if i_has_glac z then ?a else ?b) _ = _ => replace (if i_has_glac z then a else b) with (single Glacier) by reflexivity end. rewrite Er.
        destruct r as ((((gsc, gst), gcc), gct), gm). cbn [bind].
        match goal with |- bind (if i_has_lake z then ?a else ?b) _ = _ => replace (if i_has_lake z then a else b) with (single Lake) by reflexivity end.
        rewrite (single_err Lake i0 Hk Hp Hno Hi0 Hc0). reflexivity.
    Qed.
  End None.
End Nearest.
