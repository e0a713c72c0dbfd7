(** * Proofs about remap_land: one processor *)
From Coq Require Import Reals Lra.
From Verif Require Import Base Loops Lst Vec Grid2 M_Interp M_RemapLand Spec_Interp P_Interp P_Interp2 Spec_RemapLand P_RemapLand P_RemapLand2 P_RemapLand3 P_RemapLand4.
Open Scope Z_scope.

Lemma vec_app {A} (g g' : list A) n n' F F' : vec g n F -> vec g' n' F' -> vec (g ++ g') (n + n') (fun i => if i <? n then F i else F' (i - n)).
Proof.
  intros (L & H) (L' & H'). split; [rewrite zlen_app; lia|]. intros i Hi. destruct (Z.ltb_spec i n).
  - rewrite zget_app_l by lia. apply H. lia.
  - rewrite zget_app_r by lia. rewrite L. apply H'. lia.
Qed.
Lemma fields_app {A} (g g' : list A) w h h' F F' : 0 <= h -> fields g w h F -> fields g' w h' F' ->
  fields (g ++ g') w (h + h') (fun x y => if y <? h then F x y else F' x (y - h)).
Proof.
  intros Hh (L & H) (L' & H'). split; [rewrite zlen_app; nia|]. intros x y Hx Hy. destruct (Z.ltb_spec y h).
  - rewrite zget_app_l by nia. apply H; lia.
  - rewrite zget_app_r by nia. replace (y * w + x - zlen g) with ((y - h) * w + x) by nia. apply H'; lia.
Qed.
Lemma fields_vec {A} (g : list A) h F : fields g 1 h F -> vec g h (F 0).
Proof. intros (L & H). split; [lia|]. intros i Hi. rewrite <- (H 0 i) by lia. f_equal. lia. Qed.
Lemma zget_window {A} (l : list A) isc nxc i : 0 <= isc -> 0 <= i < nxc -> zget (window l isc nxc) i = zget l (isc + i).
Proof.
  intros H1 H2. unfold window, zget. destruct (Z.ltb_spec i 0); [lia|]. destruct (Z.ltb_spec (isc + i) 0); [lia|].
  revert l H1 i H2 H H0. assert (forall m n (l : list A), (m < n)%nat -> nth_error (firstn n l) m = nth_error l m) as Hf.
  { induction m as [|m IH]; intros [|n] [|x l] Hm; cbn; auto; try lia. apply IH. lia. }
  assert (forall m n (l : list A), nth_error (skipn m l) n = nth_error l (m + n)) as Hs.
  { induction m as [|m IH]; intros n [|x l]; cbn; auto. now destruct n. }
  intros l H1 i H2 _ _. rewrite Hf, Hs by lia. f_equal. lia.
Qed.
Lemma map_zseq_list {A B} (f : Z -> B) (g : A -> B) L : (forall l e, zget L l = Some e -> f l = g e) -> map f (zseq 0 (zlen L)) = map g L.
Proof.
  intros H. apply zget_ext.
  - rewrite !zlen_map, zlen_zseq; auto. apply zlen_nonneg.
  - intros i Hi. rewrite zlen_map, zlen_zseq in Hi by apply zlen_nonneg. rewrite !zget_map, zget_zseq by lia. cbn.
    destruct (zget L i) as [e|] eqn:E; [|apply zget_None_range in E; lia]. cbn. f_equal. now apply H.
Qed.

Lemma firstn_zget {A} (L : list A) n e : 0 <= n -> zget L n = Some e -> firstn (Z.to_nat (n + 1)) L = firstn (Z.to_nat n) L ++ [e].
Proof.
  intros Hn E. replace (Z.to_nat (n + 1)) with (S (Z.to_nat n)) by lia. unfold zget in E. destruct (Z.ltb_spec n 0); [lia|]. clear - E. revert L E.
  induction (Z.to_nat n) as [|m IH]; intros [|x L] E; try discriminate.
  - now inversion E.
  - change (firstn (S (S m)) (x :: L)) with (x :: firstn (S m) L). rewrite (IH L E). reflexivity.
Qed.

Section PE.
  Variables (ft : ftype) (z : input).
  Hypothesis Hwf : wf_input z.
  Hypothesis Hroom : room z.
  Let ns := ncell_src z.
  Let all := use_all_tile ft.

  Definition tag2 (k : kind) (f : landfile) : list Z := match k with Soil => l_vegn f | Glacier => l_glac f | Lake => l_lake f end.
  Definition src_tile (k : kind) (f : landfile) (e : Z) : tile :=
    tile_at (i_nx z) (i_ny z) 0 (ns - 1) (tags k f) (tag2 k f) (l_idx f) (l_frac f) all e.
  Definition SE (files : list landfile) (k : kind) (p : Z) : list Z :=
    match zget files (p / ns) with Some f => entries ns (tags k f) (l_idx f) (p mod ns) | None => [] end.
  Definition ST (files : list landfile) (k : kind) (n p : Z) : tile :=
    match zget files (p / ns) with
    | Some f => match zget (entries ns (tags k f) (l_idx f) (p mod ns)) n with Some e => src_tile k f e | None => no_tile end
    | None => no_tile end.

  Lemma ns_pos : 0 < ns. Proof. destruct Hwf as (_ & H1 & H2 & _). unfold ns, ncell_src. nia. Qed.

  Lemma wf_lens f k : wf_land f -> zlen (tag2 k f) = zlen (tags k f) /\ zlen (l_idx f) = zlen (tags k f) /\ zlen (l_frac f) = zlen (tags k f).
  Proof. intros (H1 & H2 & H3 & H4 & H5 & _). destruct k; cbn; lia. Qed.

  Lemma source_run k nt files : 0 < nt -> (forall f, In f files -> wf_land f /\ forall c, zlen (entries ns (tags k f) (l_idx f) c) <= nt) ->
    exists sc st, source_tiles (i_nx z) (i_ny z) nt all (tags k) (tag2 k) files = Ok (sc, st) /\
      vec sc (zlen files * ns) (fun p => zlen (SE files k p)) /\ fields st nt (zlen files * ns) (ST files k).
  Proof.
    intros Hnt. pose proof ns_pos as Hns. induction files as [|f files IH] using rev_ind; intros HF.
    - exists [], []. split; [reflexivity|]. split; split; auto; intros; cbn in *; lia.
    - destruct IH as (sc & st & E & H1 & H2); [intros; apply HF, in_or_app; auto|].
      destruct (HF f) as (Wf & Rf); [apply in_or_app; cbn; auto|]. destruct (wf_lens f k Wf) as (L1 & L2 & L3).
      destruct Hwf as (_ & Hx & Hy & _).
      destruct (tile_info_run (i_nx z) (i_ny z) nt 0 (ns - 1) (tags k f) (tag2 k f) (l_idx f) (l_frac f) all) as (c & t & E' & H1' & H2'); try lia.
      { now destruct Wf as (_ & _ & _ & _ & _ & W). }
      { intros c Hc. apply Rf. }
      unfold source_tiles in *. rewrite ofold_snoc, E. cbn [bind]. change (i_nx z * i_ny z) with ns. rewrite E'. cbn [bind].
      eexists _, _. split; [reflexivity|]. rewrite zlen_app. change (zlen [f]) with 1. rewrite Z.mul_add_distr_r, Z.mul_1_l.
      replace (ns - 1 - 0 + 1) with ns in H1', H2' by lia. pose proof (zlen_nonneg files) as Hl.
      assert (forall p, 0 <= p < zlen files * ns -> zget (files ++ [f]) (p / ns) = zget files (p / ns)) as P1.
      { intros p Hp. apply zget_app_l. apply Z.div_lt_upper_bound; lia. }
      assert (forall p, zlen files * ns <= p < zlen files * ns + ns -> zget (files ++ [f]) (p / ns) = Some f /\ p mod ns = 0 + (p - zlen files * ns)) as P2.
      { intros p Hp. assert (p / ns = zlen files) as ->; [symmetry; apply (Z.div_unique _ _ _ (p - zlen files * ns)); nia|].
        rewrite zget_app_r by lia. rewrite Z.sub_diag. split; [reflexivity|]. symmetry. apply (Z.mod_unique _ _ (zlen files)); nia. }
      split.
      + eapply vec_ext; [|exact (vec_app _ _ _ _ _ _ H1 H1')]. intros p Hp. cbn beta. unfold SE. destruct (Z.ltb_spec p (zlen files * ns)).
        * now rewrite P1 by lia.
        * destruct (P2 p ltac:(lia)) as [-> ->]. reflexivity.
      + eapply fields_ext; [|exact (fields_app _ _ _ _ _ _ _ (Z.mul_nonneg_nonneg _ _ Hl (Z.lt_le_incl _ _ Hns)) H2 H2')]. intros n p Hn Hp. cbn beta. unfold ST. destruct (Z.ltb_spec p (zlen files * ns)).
        * now rewrite P1 by lia.
        * destruct (P2 p ltac:(lia)) as [-> ->]. reflexivity.
  Qed.

  Variables (isc iec : Z).
  Hypothesis Hi : 0 <= isc.
  Hypothesis He : isc <= iec + 1.
  Hypothesis Hd : iec < ncell_dst z.
  Let nxc := iec - isc + 1.

  Definition cold_at (k : kind) (n i : Z) : tile :=
    match zget (cold_entries z k (isc + i)) n with
    | Some e => tile_at (i_nxd z) (i_nyd z) isc iec (tags k (i_cold z)) (tag2 k (i_cold z)) (l_idx (i_cold z)) (l_frac (i_cold z)) false e
    | None => no_tile end.
  Lemma cold_run k nt : 0 < nt -> (forall i, zlen (cold_entries z k i) <= nt) ->
    exists cc ct, get_land_tile_info (i_nxd z) (i_nyd z) nt isc iec (tags k (i_cold z)) (tag2 k (i_cold z)) (l_idx (i_cold z)) (l_frac (i_cold z)) false = Ok (cc, ct) /\
      vec cc nxc (fun i => zlen (cold_entries z k (isc + i))) /\ fields ct nt nxc (cold_at k).
  Proof.
    intros Hnt HR. destruct Hwf as (_ & _ & _ & Hx & Hy & _ & _ & _ & _ & Wc & _). destruct (wf_lens _ k Wc) as (L1 & L2 & L3).
    apply tile_info_run; auto; [now destruct Wc as (_ & _ & _ & _ & _ & W)|]. intros c _. apply HR.
  Qed.

  Lemma frac_cold_run nt cc ct : 0 < nt -> (forall i, zlen (cold_entries z Soil i) <= nt) ->
    vec cc nxc (fun i => zlen (cold_entries z Soil (isc + i))) -> fields ct nt nxc (cold_at Soil) ->
    exists fc, soil_frac_cold nt nxc cc ct = Ok fc /\ vec fc nxc (fun i => sum_over (i_cold z) (cold_entries z Soil (isc + i))).
  Proof.
    intros Hnt HR H1 H2. unfold soil_frac_cold.
    match goal with |- context [ofor 0 nxc ?f ?s] => destruct (ofor_inv (fun i out => out = map (fun i => sum_over (i_cold z) (cold_entries z Soil (isc + i))) (zseq 0 i)) f 0 nxc s ltac:(unfold nxc; lia)) as (fc & E & HI) end.
    - reflexivity.
    - intros i out Hii ->. rewrite Z.add_0_l in Hii. rewrite (vec_get _ _ _ _ H1) by lia. cbn [bind]. set (L := cold_entries z Soil (isc + i)) in *.
      match goal with |- context [ofor 0 (zlen L) ?f ?s] => destruct (ofor_inv (fun n q => q = sum_over (i_cold z) (firstn (Z.to_nat n) L)) f 0 (zlen L) s (zlen_nonneg L)) as (s1 & E & HI) end.
      + reflexivity.
      + intros n s Hn ->. rewrite Z.add_0_l in Hn. rewrite (Z.mul_comm nt i). rewrite (fields_get _ _ _ _ _ _ H2) by (specialize (HR (isc + i)); fold L in HR; lia). cbn [bind].
        eexists; split; [reflexivity|]. unfold cold_at. fold L. destruct (zget L n) as [e|] eqn:Ee; [|apply zget_None_range in Ee; lia].
        assert (firstn (Z.to_nat (n + 1)) L = firstn (Z.to_nat n) L ++ [e]) as ->.
        { apply firstn_zget; auto. lia. }
        unfold sum_over. rewrite rsum_app. change (rsum (frac_at (i_cold z)) [e]) with (frac_at (i_cold z) e + 0)%R. cbn [tile_at t_frac]. unfold frac_at. lra.
      + rewrite E. cbn [bind]. eexists; split; [reflexivity|]. rewrite HI. rewrite zseq_snoc by lia. rewrite map_app, !Z.add_0_l. cbn [map]. fold L.
        f_equal. f_equal. f_equal. apply firstn_all2. unfold zlen. lia.
    - rewrite E. eexists; split; [reflexivity|]. rewrite HI, Z.add_0_l. apply vec_map. unfold nxc; lia.
  Qed.

  (** ** The search *)
  Variable near : kind -> Z -> Z * Z.

  Lemma SE_source k f c : 0 <= c < ns -> SE (i_files z) k (f * ns + c) = source_entries z k f c.
  Proof.
    intros Hc. unfold SE, source_entries. replace ((f * ns + c) / ns) with f by (apply (Z.div_unique _ _ _ c); lia).
    replace ((f * ns + c) mod ns) with c by (apply (Z.mod_unique _ _ f); lia). reflexivity.
  Qed.

  Lemma nearest_best k i f c : nearest_source z k i f c -> 
    best (i_lon z) (i_lat z) (fun p => zlen (SE (i_files z) k p)) (at_ (i_lond z) i) (at_ (i_latd z) i) (i_nface z * ns) (f * ns + c).
  Proof.
    intros (Hf & Hc & Hne & HM). fold ns in Hc. pose proof ns_pos as Hns. split; [nia|]. rewrite SE_source by lia. split.
    - intros H. apply Hne. destruct (source_entries z k f c); auto. rewrite zlen_cons in H. pose proof (zlen_nonneg l). lia.
    - intros p Hp Hm. set (f' := p / ns). set (c' := p mod ns). assert (p = f' * ns + c') as Ep by (unfold f', c'; pose proof (Z.div_mod p ns); lia).
      assert (0 <= c' < ns) as Hc' by (apply Z.mod_pos_bound; lia). assert (0 <= f' < i_nface z) as Hf' by (unfold f'; split; [apply Z.div_pos; lia|apply Z.div_lt_upper_bound; lia]).
      rewrite Ep in Hm. rewrite SE_source in Hm by lia. destruct (HM f' c' Hf' Hc') as (A1 & A2).
      { intros H. apply Hm. now rewrite H. }
      rewrite Ep. split; [exact A1|]. intros H. apply A2. destruct (Z.lt_trichotomy f' f) as [?|[?|?]]; [auto|right; split; auto; nia|nia].
  Qed.

  Lemma search_all_run k sc cc : present z k = true -> vec sc (i_nface z * ns) (fun p => zlen (SE (i_files z) k p)) ->
    vec cc nxc (fun i => zlen (cold_entries z k (isc + i))) ->
    (forall i, isc <= i <= iec -> cold_entries z k i <> [] -> nearest_source z k i (fst (near k i)) (snd (near k i))) ->
    exists m, full_search_nearest (i_nface z) ns (i_lon z) (i_lat z) sc nxc (window (i_lond z) isc nxc) (window (i_latd z) isc nxc) cc = Ok m /\
      forall i, 0 <= i < nxc -> 0 < zlen (cold_entries z k (isc + i)) -> zget m i = Some (near k (isc + i)).
  Proof.
    intros Hpr H1 H2 Hnear. unfold full_search_nearest. pose proof ns_pos as Hns.
    pose proof Hwf as (Hnf & _ & _ & _ & _ & _ & _ & Lf & _ & _ & L1 & L2 & L3 & L4).
    match goal with |- context [ofor 0 nxc ?f ?s] => destruct (ofor_inv (fun i m => zlen m = i /\ forall j, 0 <= j < i -> 0 < zlen (cold_entries z k (isc + j)) -> zget m j = Some (near k (isc + j))) f 0 nxc s ltac:(unfold nxc; lia)) as (m & E & HI) end.
    - split; auto. intros; lia.
    - intros i m Hii (Lm & Hm). rewrite Z.add_0_l in Hii. rewrite (vec_get _ _ _ _ H2) by lia. cbn [bind].
      assert (forall v, (0 < zlen (cold_entries z k (isc + i)) -> v = near k (isc + i)) ->
        zlen (m ++ [v]) = i + 1 /\ forall j, 0 <= j < i + 1 -> 0 < zlen (cold_entries z k (isc + j)) -> zget (m ++ [v]) j = Some (near k (isc + j))) as Hv.
      { intros v Hv. split; [rewrite zlen_app, Lm; reflexivity|]. intros j Hj Hc. destruct (Z.eq_dec j i) as [->|].
        - rewrite zget_app_r, Lm, Z.sub_diag by lia. cbn. now rewrite Hv.
        - rewrite zget_app_l by lia. apply Hm; auto. lia. }
      destruct (Z.eqb_spec (zlen (cold_entries z k (isc + i))) 0) as [Hz|Hz].
      + eexists; split; [reflexivity|]. apply Hv. lia.
      + assert (0 <= isc + i < ncell_dst z) as Hd' by (unfold nxc in Hii; lia).
        rewrite (proj2 (oget_Ok _ _ (at_ (i_lond z) (isc + i)))) by (rewrite zget_window by lia; apply at_get; lia). cbn [bind].
        rewrite (proj2 (oget_Ok _ _ (at_ (i_latd z) (isc + i)))) by (rewrite zget_window by lia; apply at_get; lia). cbn [bind].
        assert (nearest_source z k (isc + i) (fst (near k (isc + i))) (snd (near k (isc + i)))) as HN.
        { apply Hnear; [unfold nxc in Hii; lia|]. intros H. apply Hz. now rewrite H. }
        pose proof (nearest_best _ _ _ _ HN) as HB.
        destruct (search_run (i_nface z) ns (i_lon z) (i_lat z) sc _ (at_ (i_lond z) (isc + i)) (at_ (i_latd z) (isc + i)) ltac:(lia) Hns L1 L2 H1) as [(f & c & Es & Hf & Hc & HB')|(_ & H0)].
        * rewrite Es. cbn [bind]. eexists; split; [reflexivity|]. apply Hv. intros _.
          pose proof (best_unique _ _ _ _ _ _ _ _ HB HB') as Eq. destruct HN as (N1 & N2 & _). fold ns in N2. destruct (near k (isc + i)) as (f0, c0). cbn [fst snd] in *.
          assert (f0 = f) by nia. subst f0. f_equal. lia.
        * destruct HB as (B1 & B2 & _). exfalso. apply B2. apply H0. exact B1.
    - rewrite E. eexists; split; [reflexivity|]. destruct HI as (_ & HI). rewrite Z.add_0_l in HI. exact HI.
  Qed.

  (** ** The destination cells *)
  Hypothesis Hnear : nearest_map z near.
  Hypothesis Hfits : fits z near.

  Definition dt (i : Z) (o : origin) : dtile :=
    match zget (i_files z) (o_face o) with
    | Some f =>
        let e := o_entry o in let fr := dest_frac z near i o in
        match o_kind o with
        | Soil => DTile (zat (l_soil f) e) (zat (l_vegn f) e) FILL_INT FILL_INT fr (place_in_file ft (l_soil f) e) (zat (l_idx f) e / ns) (o_face o)
        | Glacier => DTile FILL_INT FILL_INT (zat (l_glac f) e) FILL_INT fr (place_in_file ft (l_glac f) e) 0 (o_face o)
        | Lake => DTile FILL_INT FILL_INT FILL_INT (zat (l_lake f) e) fr (place_in_file ft (l_lake f) e) 0 (o_face o)
        end
    | None => no_dtile end.
  Definition dth (i : Z) (o : origin) : dtile := if holds ft (o_kind o) then dt i o else no_dtile.

  Lemma place k f e : wf_land f -> 0 <= e < zlen (tags k f) -> t_idx (src_tile k f e) = place_in_file ft (tags k f) e.
  Proof.
    intros Wf He'. destruct (wf_lens f k Wf) as (_ & LI & _). pose proof ns_pos as Hns. unfold src_tile, tile_at. cbn [t_idx].
    assert (rank (i_nx z) (i_ny z) 0 (ns - 1) (tags k f) (l_idx f) e = zlen (filter (tagged (tags k f)) (zseq 0 e))) as ->.
    { unfold rank. f_equal. apply filter_ext_in. intros x Hx. apply In_zseq in Hx. unfold inwin.
      destruct (zget (l_idx f) x) as [g|] eqn:E; [|apply zget_None_range in E; lia]. change (i_nx z * i_ny z) with ns.
      pose proof (Z.mod_pos_bound g ns Hns). destruct (Z.leb_spec 0 (g mod ns)); [|lia]. destruct (Z.leb_spec (g mod ns) (ns - 1)); [|lia]. now rewrite !andb_true_r. }
    unfold all, use_all_tile, place_in_file. destruct ft; reflexivity.
  Qed.
  Lemma entries_range nc tag idx c e : In e (entries nc tag idx c) -> 0 <= e < zlen tag /\ tagged tag e = true.
  Proof. unfold entries. rewrite filter_In, In_zseq, andb_true_iff. intros ((H1 & H2) & H3 & _). split; [lia|auto]. Qed.

  Definition want (k : kind) : bool := match k with Soil => with_soil ft | Glacier => with_glac ft | Lake => with_lake ft end.
  Lemma want_holds k : want k = holds ft k. Proof. unfold want. destruct ft, k; reflexivity. Qed.

  Definition slots_of (k : kind) (i : Z) : list dtile := map (dth i) (tiles_of_kind z near i k).

  Lemma near_in k i : 0 <= i < ncell_dst z -> present z k = true -> 0 < zlen (cold_entries z k i) ->
    exists f, zget (i_files z) (fst (near k i)) = Some f /\ In f (i_files z) /\ wf_land f /\ 0 <= fst (near k i) < i_nface z /\ 0 <= snd (near k i) < ns /\
      source_entries z k (fst (near k i)) (snd (near k i)) = entries ns (tags k f) (l_idx f) (snd (near k i)) /\
      source_entries z k (fst (near k i)) (snd (near k i)) <> [] /\
      tiles_of_kind z near i k = map (Origin k (fst (near k i))) (source_entries z k (fst (near k i)) (snd (near k i))).
  Proof.
    intros Hi' Hp Hc. destruct (Hnear k i Hi' Hp) as (N1 & N2 & N3 & _). { intros H. rewrite H in Hc. cbn in Hc. lia. }
    pose proof Hwf as (_ & _ & _ & _ & _ & _ & _ & Lf & Hw & _). destruct (zget (i_files z) (fst (near k i))) as [f|] eqn:E.
    2: { apply zget_None_range in E. lia. }
    exists f. split; auto. split; [eapply zget_In; eauto|]. split; [apply Hw; eapply zget_In; eauto|]. split; auto. split; auto. split; [|split; auto].
    - unfold source_entries. rewrite E. reflexivity.
    - unfold tiles_of_kind. rewrite Hp. destruct (cold_entries z k i); [cbn in Hc; lia|]. reflexivity.
  Qed.

  Lemma soil_slots_eq i : 0 <= i < nxc ->
    soil_slots ft ns (fun i => zlen (cold_entries z Soil (isc + i))) (fun i => near Soil (isc + i)) (fun p => zlen (SE (i_files z) Soil p))
      (ST (i_files z) Soil) (fun i => sum_over (i_cold z) (cold_entries z Soil (isc + i))) i = slots_of Soil (isc + i).
  Proof.
    intros Hii. unfold soil_slots, slots_of. destruct (Z.ltb_spec 0 (zlen (cold_entries z Soil (isc + i)))) as [Hc|Hc].
    2: { unfold tiles_of_kind. destruct (cold_entries z Soil (isc + i)); auto. rewrite zlen_cons in Hc. pose proof (zlen_nonneg l). lia. }
    destruct (near_in Soil (isc + i) ltac:(unfold nxc in Hii; lia) eq_refl Hc) as (f & Ef & Inf & Wf & N1 & N2 & Es & Hne & ->).
    unfold pos_of. rewrite SE_source by lia. rewrite map_map. apply map_zseq_list. intros l e Ee. unfold dth. cbn [o_kind].
    change (with_soil ft) with (want Soil). rewrite want_holds. destruct (holds ft Soil); auto. unfold soil_tile, dt. cbn [o_face o_kind o_entry]. rewrite Ef.
    assert (forall l' e', zget (source_entries z Soil (fst (near Soil (isc + i))) (snd (near Soil (isc + i)))) l' = Some e' ->
      ST (i_files z) Soil l' (pos_of ns (near Soil (isc + i))) = src_tile Soil f e') as Est.
    { intros l' e' E'. unfold ST, pos_of. set (f0 := fst (near Soil (isc + i))) in *. set (c0 := snd (near Soil (isc + i))) in *.
      replace ((f0 * ns + c0) / ns) with f0 by (apply (Z.div_unique _ _ _ c0); lia). replace ((f0 * ns + c0) mod ns) with c0 by (apply (Z.mod_unique _ _ f0); lia).
      rewrite Ef, <- Es, E'. reflexivity. }
    rewrite (Est _ _ Ee). assert (0 <= e < zlen (tags Soil f)) as Her. { rewrite Es in Ee. apply zget_In in Ee. now apply entries_range in Ee. }
    f_equal.
    - unfold dest_frac. cbn [o_kind o_face o_entry]. rewrite Ef. unfold tot.
      unfold pos_of at 2. rewrite SE_source by lia. set (L := source_entries z Soil (fst (near Soil (isc + i))) (snd (near Soil (isc + i)))) in *.
      assert (rsum (fun l => t_frac (ST (i_files z) Soil l (pos_of ns (near Soil (isc + i))))) (zseq 0 (zlen L)) = sum_over f L) as ->.
      { unfold sum_over. rewrite <- (rsum_map (fun x : R => x) (frac_at f)), <- (rsum_map (fun x : R => x) (fun l => t_frac _)). f_equal. apply map_zseq_list. intros l' e' E'. rewrite (Est _ _ E'). reflexivity. }
      cbn [src_tile tile_at t_frac]. unfold frac_at, Rdiv. ring.
    - apply (place Soil f e Wf Her).
  Qed.

  Lemma single_slots_eq k set i : 0 <= i < nxc -> k <> Soil -> present z k = true ->
    (forall v fr ix fa, let d := set no_dtile v in DTile (d_soil d) (d_vegn d) (d_glac d) (d_lake d) fr ix (d_otn d) fa =
       match k with Glacier => DTile FILL_INT FILL_INT v FILL_INT fr ix 0 fa | _ => DTile FILL_INT FILL_INT FILL_INT v fr ix 0 fa end) ->
    single_slots ns (want k) set (fun i => zlen (cold_entries z k (isc + i))) (cold_at k 0) (fun i => near k (isc + i)) (ST (i_files z) k 0) i = slots_of k (isc + i).
  Proof.
    intros Hii Hk Hp Hset. unfold single_slots, slots_of. destruct (Z.ltb_spec 0 (zlen (cold_entries z k (isc + i)))) as [Hc|Hc].
    2: { unfold tiles_of_kind. destruct (cold_entries z k (isc + i)); auto. rewrite zlen_cons in Hc. pose proof (zlen_nonneg l). lia. }
    destruct (near_in k (isc + i) ltac:(unfold nxc in Hii; lia) Hp Hc) as (f & Ef & Inf & Wf & N1 & N2 & Es & Hne & ->).
    destruct Hroom as (_ & _ & HR). destruct (HR k Hk Hp) as (R1 & R2).
    specialize (R1 (fst (near k (isc + i))) (snd (near k (isc + i)))). specialize (R2 (isc + i)).
    destruct (source_entries z k (fst (near k (isc + i))) (snd (near k (isc + i)))) as [|e [|e2 L]] eqn:EL; [easy| |rewrite !zlen_cons in R1; pose proof (zlen_nonneg L); lia].
    cbn [map]. unfold dth. cbn [o_kind]. rewrite want_holds. destruct (holds ft k) eqn:Eh; auto. f_equal.
    unfold single_tile. rewrite Hset.
    assert (ST (i_files z) k 0 (pos_of ns (near k (isc + i))) = src_tile k f e) as ->.
    { unfold ST, pos_of. set (f0 := fst (near k (isc + i))) in *. set (c0 := snd (near k (isc + i))) in *.
      replace ((f0 * ns + c0) / ns) with f0 by (apply (Z.div_unique _ _ _ c0); lia). replace ((f0 * ns + c0) mod ns) with c0 by (apply (Z.mod_unique _ _ f0); lia).
      rewrite Ef, <- Es. reflexivity. }
    assert (0 <= e < zlen (tags k f)) as Her. { assert (In e [e]) as Hin by (cbn; auto). rewrite Es in Hin. now apply entries_range in Hin. }
    rewrite (place k f e Wf Her). unfold dt. cbn [o_face o_kind o_entry]. rewrite Ef.
    assert (t_frac (cold_at k 0 i) = dest_frac z near (isc + i) (Origin k (fst (near k (isc + i))) e)) as ->.
    { unfold dest_frac. cbn [o_kind]. assert (t_frac (cold_at k 0 i) = sum_over (i_cold z) (cold_entries z k (isc + i))) as H.
      { unfold cold_at. destruct (cold_entries z k (isc + i)) as [|e1 [|e3 L]]; [cbn in Hc; lia| |rewrite !zlen_cons in R2; pose proof (zlen_nonneg L); lia].
        change (zget [e1] 0) with (Some e1). unfold sum_over. rewrite rsum_cons, rsum_nil. unfold tile_at, frac_at. cbn [t_frac]. lra. }
      rewrite H. destruct k; [easy| |]; reflexivity. }
    destruct k; [easy| |]; reflexivity.
  Qed.

  Lemma kinds i : map (dth i) (dest_tiles z near i) = slots_of Soil i ++ slots_of Glacier i ++ slots_of Lake i.
  Proof. unfold dest_tiles, slots_of. cbn [flat_map]. now rewrite app_nil_r, !map_app. Qed.
  Lemma slots_absent k i : present z k = false -> slots_of k i = [].
  Proof. intros H. unfold slots_of, tiles_of_kind. rewrite H. now destruct (cold_entries z k i). Qed.
  Lemma slots_len k i : zlen (slots_of k i) = zlen (tiles_of_kind z near i k).
  Proof. apply zlen_map. Qed.
  Lemma kind_of k i o : In o (tiles_of_kind z near i k) -> o_kind o = k.
  Proof. unfold tiles_of_kind. destruct (cold_entries z k i); [easy|]. destruct (present z k); [|easy]. rewrite in_map_iff. intros (e & <- & _). reflexivity. Qed.
  Lemma filter_const {A} (f : A -> bool) b l : (forall x, In x l -> f x = b) -> filter f l = if b then l else [].
  Proof. induction l as [|x l IH]; intros H; cbn; [now destruct b|]. rewrite H by (cbn; auto). rewrite IH by (intros; apply H; cbn; auto). now destruct b. Qed.
  Definition held (o : origin) : bool := holds ft (o_kind o).
  Lemma held_len i : zlen (filter held (dest_tiles z near i)) =
    (if want Soil then zlen (slots_of Soil i) else 0) + (if want Glacier then zlen (slots_of Glacier i) else 0) + (if want Lake then zlen (slots_of Lake i) else 0).
  Proof.
    unfold dest_tiles. cbn [flat_map]. rewrite app_nil_r, !filter_app, !zlen_app, !want_holds, !slots_len.
    assert (forall k, filter held (tiles_of_kind z near i k) = if holds ft k then tiles_of_kind z near i k else []) as E.
    { intros k. apply filter_const. intros o Ho. unfold held. now rewrite (kind_of k i o Ho). }
    rewrite !E. destruct (holds ft Soil), (holds ft Glacier), (holds ft Lake); cbn; lia.
  Qed.

  Lemma one_pe_run : exists lc tiles nidx, one_pe ft z isc iec = Ok (lc, tiles, nidx) /\
    vec lc nxc (fun i => zlen (dest_tiles z near (isc + i))) /\
    fields tiles (i_ntile z) nxc (fun k i => slot (map (dth (isc + i)) (dest_tiles z near (isc + i))) k) /\
    nidx = zlen (flat_map (fun i => filter held (dest_tiles z near i)) (zseq isc nxc)).
  Proof.
    pose proof Hwf as (W1 & W2 & W3 & W4 & W5 & W6 & W7 & W8 & W9 & W10 & W11 & W12 & W13 & W14). pose proof Hroom as (R1 & R2 & R3). pose proof ns_pos as Hns.
    assert (forall k f nt, (forall f c, zlen (source_entries z k f c) <= nt) -> In f (i_files z) -> wf_land f /\ forall c, zlen (entries ns (tags k f) (l_idx f) c) <= nt) as HF.
    { intros k f nt H Hin. split; auto. intros c. apply In_zget in Hin. destruct Hin as (q & _ & Eq). specialize (H q c). unfold source_entries in H. rewrite Eq in H. exact H. }
    destruct (source_run Soil (i_ntile z) (i_files z) W6 (fun f => HF Soil f _ R1)) as (sc & st & E1 & S1 & S2). rewrite W8 in S1, S2.
    destruct (cold_run Soil (i_ntile_cold z) W7 R2) as (cc & ct & E2 & C1 & C2).
    destruct (frac_cold_run _ _ _ W7 R2 C1 C2) as (fc & E3 & C3).
    destruct (search_all_run Soil sc cc eq_refl S1 C1 (fun i Hii => Hnear Soil i ltac:(lia) eq_refl)) as (sm & E4 & C4).
    unfold one_pe. cbv zeta. fold nxc. fold all. change (i_nx z * i_ny z) with ns. change l_soil with (tags Soil). change l_vegn with (tag2 Soil). rewrite E1. cbn [bind].
    change (tags Soil (i_cold z)) with (tags Soil (i_cold z)) in E2. rewrite E2. cbn [bind]. rewrite E3. cbn [bind]. rewrite E4. cbn [bind].
    assert (forall k, k <> Soil -> exists gsc gst gcc gct gm,
      (if present z k then
         do '(sc, st) <- source_tiles (i_nx z) (i_ny z) 1 (use_all_tile ft) (tags k) (tag2 k) (i_files z) ;
         do '(cc, ct) <- get_land_tile_info (i_nxd z) (i_nyd z) 1 isc iec (tags k (i_cold z)) (tag2 k (i_cold z)) (l_idx (i_cold z)) (l_frac (i_cold z)) false ;
         do m <- full_search_nearest (i_nface z) ns (i_lon z) (i_lat z) sc nxc (window (i_lond z) isc nxc) (window (i_latd z) isc nxc) cc ;
         Ok (sc, st, cc, ct, m)
       else Ok ([], [], [], [], [])) = Ok (gsc, gst, gcc, gct, gm) /\
      (present z k = true -> vec gsc (i_nface z * ns) (fun p => zlen (SE (i_files z) k p)) /\ vec gst (i_nface z * ns) (ST (i_files z) k 0) /\
         vec gcc nxc (fun i => zlen (cold_entries z k (isc + i))) /\ vec gct nxc (cold_at k 0) /\
         forall i, 0 <= i < nxc -> 0 < zlen (cold_entries z k (isc + i)) -> zget gm i = Some (near k (isc + i)))) as HG.
    { intros k Hk. destruct (present z k) eqn:Ep; [|eexists _, _, _, _, _; split; [reflexivity|easy]].
      destruct (R3 k Hk Ep) as (Q1 & Q2).
      destruct (source_run k 1 (i_files z) ltac:(lia) (fun f => HF k f _ Q1)) as (gsc & gst & G1 & G2 & G3). rewrite W8 in G2, G3.
      destruct (cold_run k 1 ltac:(lia) Q2) as (gcc & gct & G4 & G5 & G6). destruct (search_all_run k gsc gcc Ep G2 G5 (fun i Hii => Hnear k i ltac:(lia) Ep)) as (gm & G7 & G8).
      unfold all in G1. rewrite G1. cbn [bind]. rewrite G4. cbn [bind]. rewrite G7. cbn [bind]. eexists _, _, _, _, _. split; [reflexivity|].
      intros _. split; auto. split; [now apply fields_vec|]. split; auto. split; [now apply fields_vec|auto]. }
    destruct (HG Glacier ltac:(easy)) as (gsc & gst & gcc & gct & gm & G1 & G2). destruct (HG Lake ltac:(easy)) as (lsc & lst' & lcc & lct & lm & L1 & L2).
    match goal with |- context [bind (if i_has_glac z then ?a else ?b) _] => replace (if i_has_glac z then a else b) with (Ok (gsc, gst, gcc, gct, gm)) by (rewrite <- G1; reflexivity) end.
    cbn [bind].
    match goal with |- context [bind (if i_has_lake z then ?a else ?b) _] => replace (if i_has_lake z then a else b) with (Ok (lsc, lst', lcc, lct, lm)) by (rewrite <- L1; reflexivity) end.
    cbn [bind]. clear G1 L1 HG. unfold map_cells. set (b := Tables _ _ _ _ _ _ _ _ _ _ _ _ _ _ _).
    assert (forall k i, present z k = true -> 0 <= i < nxc -> 0 < zlen (cold_entries z k (isc + i)) ->
       0 <= fst (near k (isc + i)) /\ 0 <= pos_of ns (near k (isc + i)) < i_nface z * ns) as HN.
    { intros k i Hp Hii Hc. destruct (near_in k (isc + i) ltac:(unfold nxc in Hii; lia) Hp Hc) as (f & _ & _ & _ & N1 & N2 & _). unfold pos_of. split; [lia|nia]. }
    set (ALL := fun i => map (dth (isc + i)) (dest_tiles z near (isc + i))).
    set (upi := fun i j => if j <? i then ALL j else []).
    match goal with |- context [ofor 0 nxc ?f ?s] => destruct (ofor_inv (fun i st => st_ok (i_ntile z) nxc (upi i) (zlen (flat_map (fun i => filter held (dest_tiles z near i)) (zseq isc i))) st) f 0 nxc s ltac:(unfold nxc; lia)) as (((lc, tiles), nidx) & E & HI) end.
    - split; [|split; auto].
      + eapply vec_ext; [|apply vec_repeat; unfold nxc; lia]. intros j Hj. unfold upi. destruct (Z.ltb_spec j 0); [lia|reflexivity].
      + eapply fields_ext; [|apply fields_repeat; [lia|unfold nxc; lia|reflexivity]]. intros x j Hx Hj. unfold upi. destruct (Z.ltb_spec j 0); [lia|]. unfold slot. now rewrite zget_nil.
    - intros i s Hii Hs. rewrite Z.add_0_l in Hii.
      assert (upi i i = []) as Hui by (unfold upi; destruct (Z.ltb_spec i i); [lia|auto]).
      pose proof (Hfits (isc + i) ltac:(unfold nxc in Hii; lia)) as HFi. rewrite <- (zlen_map (dth (isc + i))), kinds, !zlen_app in HFi.
      pose proof (zlen_nonneg (slots_of Soil (isc + i))). pose proof (zlen_nonneg (slots_of Glacier (isc + i))). pose proof (zlen_nonneg (slots_of Lake (isc + i))).
      destruct (map_soil_run ft (i_ntile z) ns nxc (i_nface z * ns) b _ (fun i => near Soil (isc + i)) (fun p => zlen (SE (i_files z) Soil p)) (ST (i_files z) Soil) _ C1 C3) with (S := upi i) (n := zlen (flat_map (fun i => filter held (dest_tiles z near i)) (zseq isc i))) (st := s) (i := i) as (s1 & F1 & F2); auto; try exact S1; try exact S2.
      { intros j Hj Hc. split; [exact (C4 j Hj Hc)|]. exact (HN Soil j eq_refl Hj Hc). }
      { intros p Hp. split; [apply zlen_nonneg|]. unfold SE. pose proof (R1 (p / ns) (p mod ns)) as Hr. exact Hr. }
      rewrite F1. cbn [bind]. clear F1. rewrite soil_slots_eq in F2 by lia.
      assert (forall k set S n s sc st cc ct m, k <> Soil -> st_ok (i_ntile z) nxc S n s ->
        (forall v fr ix fa, let d := set no_dtile v in DTile (d_soil d) (d_vegn d) (d_glac d) (d_lake d) fr ix (d_otn d) fa =
           match k with Glacier => DTile FILL_INT FILL_INT v FILL_INT fr ix 0 fa | _ => DTile FILL_INT FILL_INT FILL_INT v fr ix 0 fa end) ->
        (present z k = true -> vec sc (i_nface z * ns) (fun p => zlen (SE (i_files z) k p)) /\ vec st (i_nface z * ns) (ST (i_files z) k 0) /\
         vec cc nxc (fun i => zlen (cold_entries z k (isc + i))) /\ vec ct nxc (cold_at k 0) /\
         forall i, 0 <= i < nxc -> 0 < zlen (cold_entries z k (isc + i)) -> zget m i = Some (near k (isc + i))) ->
        zlen (S i) + zlen (slots_of k (isc + i)) <= i_ntile z ->
        exists s', (if present z k then map_single (want k) (i_ntile z) ns set cc ct sc st m s i else Ok s) = Ok s' /\
          st_ok (i_ntile z) nxc (put S i (S i ++ slots_of k (isc + i))) (n + (if want k then zlen (slots_of k (isc + i)) else 0)) s') as HS.
      { intros k set S n s' sc' st' cc' ct' m Hk Hst Hset Hg Hlen. destruct (present z k) eqn:Ep.
        - destruct (Hg eq_refl) as (g1 & g2 & g3 & g4 & g5). rewrite <- (single_slots_eq k set i Hii Hk Ep Hset) in Hlen |- *.
          eapply map_single_run; eauto. intros j Hj Hc. destruct (HN k j Ep Hj Hc) as (_ & Hp). split; [exact (g5 j Hj Hc)|]. split; auto. cbn beta.
          destruct (near_in k (isc + j) ltac:(unfold nxc in Hj; lia) Ep Hc) as (f & _ & _ & _ & N1 & N2 & _ & Hne & _). unfold pos_of. rewrite SE_source by lia.
          destruct (R3 k Hk Ep) as (Q1 & _). specialize (Q1 (fst (near k (isc + j))) (snd (near k (isc + j)))).
          destruct (source_entries z k (fst (near k (isc + j))) (snd (near k (isc + j)))) as [|e L]; [easy|]. rewrite zlen_cons in Q1 |- *. pose proof (zlen_nonneg L). lia.
        - rewrite slots_absent by auto. eexists; split; [reflexivity|]. apply (st_ok_ext _ _ S _ n); auto; [|destruct (want k); cbn; lia].
          intros j Hj. unfold put. destruct (Z.eqb_spec j i) as [->|]; auto. now rewrite app_nil_r. }
      destruct (HS Glacier set_glac _ _ _ gsc gst gcc gct gm ltac:(easy) F2 ltac:(reflexivity) G2) as (s2 & F3 & F4).
      { unfold put. rewrite Z.eqb_refl. lia. }
      change (present z Glacier) with (i_has_glac z) in F3. change (want Glacier) with (with_glac ft) in F3. cbn [b b_glac_cold b_glac_cold_tile b_glac_count b_glac b_glac_map]. rewrite F3. cbn [bind].
      destruct (HS Lake set_lake _ _ _ lsc lst' lcc lct lm ltac:(easy) F4 ltac:(reflexivity) L2) as (s3 & F5 & F6).
      { unfold put. rewrite !Z.eqb_refl, zlen_app. lia. }
      change (present z Lake) with (i_has_lake z) in F5. change (want Lake) with (with_lake ft) in F5. cbn [b b_lake_cold b_lake_cold_tile b_lake_count b_lake b_lake_map]. rewrite F5.
      eexists; split; [reflexivity|]. eapply st_ok_ext; [| |exact F6].
      + intros j Hj. unfold put, upi. rewrite !Z.eqb_refl. destruct (Z.eqb_spec j i) as [->|].
        * destruct (Z.ltb_spec i (i + 1)); [|lia]. unfold ALL. rewrite kinds. now rewrite <- app_assoc.
        * destruct (Z.ltb_spec j i), (Z.ltb_spec j (i + 1)); auto; lia.
      + rewrite zseq_snoc by lia. rewrite flat_map_app, zlen_app. cbn [flat_map]. rewrite app_nil_r, held_len. change (with_soil ft) with (want Soil). lia.
    - rewrite E. rewrite Z.add_0_l in HI. destruct HI as (H1 & H2 & H3). eexists _, _, _. split; [reflexivity|]. split; [|split; auto].
      + eapply vec_ext; [|exact H1]. intros j Hj. cbn beta. unfold upi. destruct (Z.ltb_spec j nxc); [|lia]. unfold ALL. apply zlen_map.
      + eapply fields_ext; [|exact H2]. intros x j Hx Hj. cbn beta. unfold upi. destruct (Z.ltb_spec j nxc); [|lia]. reflexivity.
  Qed.
End PE.
