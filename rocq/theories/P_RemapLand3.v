(** * Proofs about remap_land: filling the destination cells *)
From Coq Require Import Reals Lra.
From Verif Require Import Base Loops Vec Grid2 M_Interp M_RemapLand Spec_Interp P_Interp P_Interp2 Spec_RemapLand P_RemapLand.
Open Scope Z_scope.

Definition slot (S : list dtile) (k : Z) : dtile := match zget S k with Some d => d | None => no_dtile end.

Lemma slot_app_single S d k : slot (S ++ [d]) k = if k =? zlen S then d else slot S k.
Proof.
  unfold slot. destruct (Z.eqb_spec k (zlen S)) as [->|Hn].
  - rewrite zget_app_r by lia. now rewrite Z.sub_diag.
  - destruct (Z.lt_ge_cases k (zlen S)) as [H|H].
    + now rewrite zget_app_l by lia.
    + rewrite zget_app_r, zget_cons_pos, zget_nil by lia. destruct (zget S k) eqn:E; auto. apply zget_Some_range in E. lia.
Qed.
Lemma slot_map_zseq (f : Z -> dtile) n k : 0 <= k -> slot (map f (zseq 0 n)) k = if k <? n then f k else no_dtile.
Proof.
  intros Hk. unfold slot. rewrite zget_map. destruct (Z.ltb_spec k n) as [H|H].
  - rewrite zget_zseq by lia. now rewrite Z.add_0_l.
  - destruct (zget (zseq 0 n) k) as [v|] eqn:E; auto. exfalso. pose proof (proj1 (In_zseq v 0 n) (zget_In _ _ _ E)) as Hv. apply zget_Some_range in E.
    destruct (Z.lt_ge_cases n 0); [lia|]. rewrite zlen_zseq in E by lia. lia.
Qed.

Section Cells.
  Variables (ft : ftype) (ntile ns nxc NP : Z) (b : tables).
  Hypothesis Ht : 0 < ntile.
  Hypothesis Hn : 0 <= nxc.

  Definition st_ok (S : Z -> list dtile) (n : Z) (st : list Z * list dtile * Z) : Prop :=
    let '(lc, tiles, nidx) := st in
    vec lc nxc (fun j => zlen (S j)) /\ fields tiles ntile nxc (fun k j => slot (S j) k) /\ nidx = n.
  Definition put (S : Z -> list dtile) (i : Z) (l : list dtile) (j : Z) : list dtile := if j =? i then l else S j.

  Lemma st_ok_ext S S' n n' st : (forall j, 0 <= j < nxc -> S j = S' j) -> n = n' -> st_ok S n st -> st_ok S' n' st.
  Proof.
    intros E -> . destruct st as ((lc, tiles), nidx). intros (H1 & H2 & H3). split; [|split; auto].
    - eapply vec_ext; [|exact H1]. intros j Hj. cbn beta. now rewrite E.
    - eapply fields_ext; [|exact H2]. intros k j Hk Hj. cbn beta. now rewrite E.
  Qed.

  (** ** Soil *)
  Variables (CS : Z -> Z) (MS : Z -> Z * Z) (cnt : Z -> Z) (ST : Z -> Z -> tile) (FC : Z -> R).
  Hypothesis HCS : vec (b_soil_cold b) nxc CS.
  Hypothesis HFC : vec (b_soil_frac_cold b) nxc FC.
  Hypothesis HMS : forall i, 0 <= i < nxc -> 0 < CS i -> zget (b_soil_map b) i = Some (MS i) /\ 0 <= fst (MS i) /\ 0 <= fst (MS i) * ns + snd (MS i) < NP.
  Hypothesis Hcnt : vec (b_soil_count b) NP cnt.
  Hypothesis HST : fields (b_soil b) ntile NP ST.
  Hypothesis Hroom : forall p, 0 <= p < NP -> 0 <= cnt p <= ntile.

  Definition pos_of (m : Z * Z) : Z := fst m * ns + snd m.
  Definition tot (p : Z) (n : Z) : R := rsum (fun l => t_frac (ST l p)) (zseq 0 n).
  Definition soil_tile (i l : Z) : dtile :=
    let p := pos_of (MS i) in let s := ST l p in
    DTile (t_tag1 s) (t_tag2 s) FILL_INT FILL_INT (t_frac s * FC i / tot p (cnt p))%R (t_idx s) (t_otn s) (fst (MS i)).
  Definition soil_slots (i : Z) : list dtile :=
    if 0 <? CS i then map (fun l => if with_soil ft then soil_tile i l else no_dtile) (zseq 0 (cnt (pos_of (MS i)))) else [].

  Lemma map_soil_run S n st i : 0 <= i < nxc -> S i = [] -> st_ok S n st ->
    exists st', map_soil ft ntile ns b st i = Ok st' /\ st_ok (put S i (soil_slots i)) (n + (if with_soil ft then zlen (soil_slots i) else 0)) st'.
  Proof.
    intros Hi HS. destruct st as ((lc, tiles), nidx). intros (H1 & H2 & ->). unfold map_soil.
    rewrite (vec_get _ _ _ _ HCS) by lia. cbn [bind]. unfold soil_slots. destruct (Z.ltb_spec 0 (CS i)) as [Hc|Hc]; cbn [negb].
    2: { eexists; split; [reflexivity|]. apply (st_ok_ext S _ n); [|destruct (with_soil ft); cbn; lia|split; auto].
         intros j Hj. unfold put. destruct (Z.eqb_spec j i) as [->|]; auto. }
    destruct (HMS i Hi Hc) as (E1 & Hf & Hp). rewrite (proj2 (oget_Ok _ _ _) E1). cbn [bind].
    destruct (MS i) as (f, c) eqn:Em. cbn [fst snd] in *. destruct (Z.ltb_spec f 0); [lia|].
    rewrite (vec_get _ _ _ _ Hcnt) by lia. cbn [bind].
    rewrite (vec_get _ _ _ _ H1) by lia. cbn [bind]. rewrite HS. change (zlen (@nil dtile)) with 0.
    change (pos_of (f, c)) with (f * ns + c) in *. set (p := f * ns + c) in *.
    pose proof (Hroom p Hp) as Hr. rewrite zlen_map, zlen_zseq by lia.
    assert (forall lc', vec lc' nxc (fun j => zlen (put S i (map (fun l => if with_soil ft then soil_tile i l else no_dtile) (zseq 0 (cnt p))) j)) <->
       vec lc' nxc (fun j => if j =? i then cnt p else zlen (S j))) as Elc.
    { intros lc'. split; apply vec_ext; intros j Hj; unfold put; destruct (j =? i); auto; rewrite zlen_map, zlen_zseq; auto; lia. }
    destruct (vec_set lc nxc _ (fun j => if j =? i then cnt p else zlen (S j)) i (0 + cnt p) H1 ltac:(lia)) as (lc' & E2 & H1').
    { intros j Hj. destruct (j =? i); auto. }
    destruct (with_soil ft) eqn:Ew.
    - set (raw := fun l => DTile (t_tag1 (ST l p)) (t_tag2 (ST l p)) FILL_INT FILL_INT (t_frac (ST l p) * FC i)%R (t_idx (ST l p)) (t_otn (ST l p)) f).
      match goal with |- context [ofor 0 (cnt p) ?g ?s] =>
        destruct (ofor_inv (fun l st => fields (fst st) ntile nxc (fun k j => if j =? i then if k <? l then raw k else no_dtile else slot (S j) k) /\ snd st = tot p l)
           g 0 (cnt p) s ltac:(lia)) as ((tiles1, t1) & E3 & H3 & H4) end.
      + split; [|reflexivity]. eapply fields_ext; [|exact H2]. intros k j Hk Hj. cbn beta. destruct (Z.eqb_spec j i) as [->|]; auto.
        rewrite HS. destruct (Z.ltb_spec k 0); [lia|]. unfold slot. now rewrite zget_nil.
      + intros l (tiles1, t1) Hl (H3 & H4). rewrite Z.add_0_l in Hl. cbn [fst snd] in H3, H4.
        rewrite (Z.mul_comm ntile p). rewrite (fields_get _ _ _ _ _ _ HST) by lia. cbn [bind].
        rewrite (vec_get _ _ _ _ HFC) by lia. cbn [bind]. rewrite Z.add_0_l, (Z.mul_comm ntile i).
        rewrite (fields_get _ _ _ _ _ _ H3) by lia. cbn beta. cbn [bind]. rewrite Z.eqb_refl. destruct (Z.ltb_spec l l); [lia|]. cbn [no_dtile d_glac d_lake].
        destruct (fields_set tiles1 ntile nxc _ (fun k j => if j =? i then if k <? l + 1 then raw k else no_dtile else slot (S j) k) l i (raw l) H3 ltac:(lia) ltac:(lia)) as (tiles2 & E4 & H5).
        { intros k j Hk Hj. destruct (Z.eqb_spec j i); [|now rewrite andb_false_r]. rewrite andb_true_r.
          destruct (Z.eqb_spec k l) as [->|]; [destruct (Z.ltb_spec l (l + 1)); auto; lia|].
          destruct (Z.ltb_spec k (l + 1)), (Z.ltb_spec k l); auto; lia. }
        unfold raw in E4. rewrite E4. cbn [bind]. eexists; split; [reflexivity|]. split; [exact H5|]. cbn [snd].
        rewrite H4. unfold tot. rewrite zseq_snoc by lia. rewrite Z.add_0_l, rsum_app. unfold rsum at 3. cbn. lra.
      + rewrite E3. cbn [bind]. rewrite Z.add_0_l in H4, H3. cbn [fst snd] in H3, H4. subst t1.
        match goal with |- context [ofor 0 (cnt p) ?g tiles1] =>
          destruct (ofor_fields g ntile nxc 0 (cnt p) (fun l k j => if j =? i then if k <? cnt p then if k <? l then soil_tile i k else raw k else no_dtile else slot (S j) k) tiles1) as (tiles2 & E4 & H5) end.
        * lia.
        * eapply fields_ext; [|exact H3]. intros k j Hk Hj. cbn beta. destruct (j =? i); auto. destruct (Z.ltb_spec k 0); [lia|auto].
        * intros l g Hl Hg. rewrite Z.add_0_l in Hl. rewrite (Z.mul_comm ntile i). rewrite (fields_get _ _ _ _ _ _ Hg) by lia. cbn beta. cbn [bind].
          rewrite Z.eqb_refl. destruct (Z.ltb_spec l (cnt p)); [|lia]. destruct (Z.ltb_spec l l); [lia|].
          apply (fields_set g ntile nxc _ _ l i _ Hg ltac:(lia) ltac:(lia)). intros k j Hk Hj. cbn beta.
          destruct (Z.eqb_spec j i) as [->|]; [|now rewrite andb_false_r]. rewrite andb_true_r.
          destruct (Z.eqb_spec k l) as [->|].
          -- destruct (Z.ltb_spec l (cnt p)); [|lia]. destruct (Z.ltb_spec l (l + 1)); [|lia]. unfold soil_tile, raw. cbn. rewrite Em. reflexivity.
          -- destruct (Z.ltb_spec k (cnt p)); auto. destruct (Z.ltb_spec k (l + 1)), (Z.ltb_spec k l); auto; lia.
        * rewrite E4. cbn [bind]. rewrite E2. cbn [bind]. eexists; split; [reflexivity|]. split; [|split; auto].
          -- apply Elc. exact H1'.
          -- eapply fields_ext; [|exact H5]. intros k j Hk Hj. cbn beta. unfold put. destruct (Z.eqb_spec j i) as [->|]; auto.
             rewrite slot_map_zseq by lia. rewrite Z.add_0_l. destruct (Z.ltb_spec k (cnt p)); auto.
    - cbn [bind]. rewrite E2. cbn [bind]. eexists; split; [reflexivity|]. split; [|split; [|lia]].
      + apply Elc. exact H1'.
      + eapply fields_ext; [|exact H2]. intros k j Hk Hj. cbn beta. unfold put. destruct (Z.eqb_spec j i) as [->|]; auto.
        rewrite slot_map_zseq, HS by lia. unfold slot. rewrite zget_nil. now destruct (k <? cnt p).
  Qed.

  (** ** Glacier or lake *)
  Section Single.
    Variables (wanted : bool) (set : dtile -> Z -> dtile) (cold : list Z) (cold_tile : list tile) (count : list Z) (src : list tile) (smap : list (Z * Z)).
    Variables (CG : Z -> Z) (CT : Z -> tile) (MG : Z -> Z * Z) (GT : Z -> tile) (gcnt : Z -> Z).
    Hypothesis H_cold : vec cold nxc CG.
    Hypothesis H_cold_tile : vec cold_tile nxc CT.
    Hypothesis H_count : vec count NP gcnt.
    Hypothesis H_src : vec src NP GT.
    Hypothesis H_map : forall i, 0 <= i < nxc -> 0 < CG i -> zget smap i = Some (MG i) /\ 0 <= pos_of (MG i) < NP /\ gcnt (pos_of (MG i)) = 1.

    Definition single_tile (i : Z) : dtile :=
      let s := GT (pos_of (MG i)) in let d := set no_dtile (t_tag1 s) in
      DTile (d_soil d) (d_vegn d) (d_glac d) (d_lake d) (t_frac (CT i)) (t_idx s) (d_otn d) (fst (MG i)).
    Definition single_slots (i : Z) : list dtile := if 0 <? CG i then [if wanted then single_tile i else no_dtile] else [].

    Lemma map_single_run S n st i : 0 <= i < nxc -> zlen (S i) + zlen (single_slots i) <= ntile -> st_ok S n st ->
      exists st', map_single wanted ntile ns set cold cold_tile count src smap st i = Ok st' /\
        st_ok (put S i (S i ++ single_slots i)) (n + (if wanted then zlen (single_slots i) else 0)) st'.
    Proof.
      clear HMS Hroom. intros Hi HR. destruct st as ((lc, tiles), nidx). intros (H1 & H2 & ->). unfold map_single. unfold single_slots in *.
      rewrite (vec_get _ _ _ _ H_cold) by lia. cbn [bind]. destruct (Z.ltb_spec 0 (CG i)) as [Hc|Hc]; cbn [negb].
      2: { eexists; split; [reflexivity|]. apply (st_ok_ext S _ n); [|destruct wanted; cbn; lia|split; auto].
           intros j Hj. unfold put. destruct (Z.eqb_spec j i) as [->|]; auto. now rewrite app_nil_r. }
      destruct (H_map i Hi Hc) as (E1 & Hp & E1'). rewrite (proj2 (oget_Ok _ _ _) E1). cbn [bind].
      destruct (MG i) as (f, c) eqn:Em. unfold pos_of in Hp, E1'. cbn [fst snd] in *. set (p := f * ns + c) in *.
      rewrite (vec_get _ _ _ _ H1) by lia. cbn [bind]. rewrite (vec_get _ _ _ _ H_count) by lia. cbn [bind]. rewrite E1'. cbn [Z.eqb negb Pos.eqb].
      change (zlen [if wanted then single_tile i else no_dtile]) with 1 in *. pose proof (zlen_nonneg (S i)) as HSn.
      destruct (vec_set lc nxc _ (fun j => if j =? i then zlen (S i) + 1 else zlen (S j)) i (zlen (S i) + 1) H1 ltac:(lia)) as (lc' & E2 & H1').
      { intros j Hj. destruct (j =? i); auto. }
      assert (vec lc' nxc (fun j => zlen (put S i (S i ++ [if wanted then single_tile i else no_dtile]) j))) as H1''.
      { eapply vec_ext; [|exact H1']. intros j Hj. unfold put. cbn beta. destruct (j =? i); auto. rewrite zlen_app. reflexivity. }
      destruct wanted.
      - rewrite (vec_get _ _ _ _ H_src) by lia. cbn [bind]. rewrite (vec_get _ _ _ _ H_cold_tile) by lia. cbn [bind].
        rewrite (Z.mul_comm ntile i). rewrite (fields_get _ _ _ _ _ _ H2) by lia. cbn beta. cbn [bind].
        assert (slot (S i) (zlen (S i)) = no_dtile) as ->.
        { unfold slot. destruct (zget (S i) (zlen (S i))) eqn:E; auto. apply zget_Some_range in E. lia. }
        destruct (fields_set tiles ntile nxc _ (fun k j => slot (put S i (S i ++ [single_tile i]) j) k) (zlen (S i)) i (single_tile i) H2 ltac:(lia) ltac:(lia)) as (tiles' & E3 & H3).
        { intros k j Hk Hj. unfold put. destruct (Z.eqb_spec j i) as [->|]; [|now rewrite andb_false_r]. rewrite slot_app_single, andb_true_r. reflexivity. }
        unfold single_tile in E3 at 1. rewrite Em in E3. unfold pos_of in E3. cbn [fst snd] in E3. fold p in E3. rewrite E3. cbn [bind]. rewrite E2. cbn [bind].
        eexists; split; [reflexivity|]. split; auto.
      - cbn [bind]. rewrite E2. cbn [bind]. eexists; split; [reflexivity|]. split; [auto|]. split; [|lia].
        eapply fields_ext; [|exact H2]. intros k j Hk Hj. cbn beta. unfold put. destruct (Z.eqb_spec j i) as [->|]; auto.
        rewrite slot_app_single. destruct (Z.eqb_spec k (zlen (S i))) as [->|]; auto. unfold slot. destruct (zget (S i) (zlen (S i))) eqn:E; auto. apply zget_Some_range in E. lia.
    Qed.
  End Single.
End Cells.
