From Verif Require Import Base Loops Lst M_Ncc.
From Coq Require Import Permutation Sorting.Sorted.

(** ** The merge sort *)
Section Sort.
  Variable x : list Z.
  Definition key (r : Z) : Z := match zget x r with Some v => v | None => 0 end.
  Definition valid (r : Z) : Prop := 0 <= r < zlen x.
  Definition lexlt (a b : Z) : Prop := key a < key b \/ (key a = key b /\ a < b).

  Lemma oget_key r : valid r -> oget x r = Ok (key r).
  Proof. intros H. destruct (zget_in_range x r H) as (v & E). unfold key. rewrite E. now apply oget_Ok. Qed.

  Fixpoint fmerge (l1 l2 : list Z) : list Z :=
    match l1 with
    | [] => l2
    | a :: l1' => (fix go (l2 : list Z) := match l2 with
        | [] => a :: l1'
        | b :: l2' => if key a <=? key b then a :: fmerge l1' (b :: l2') else b :: go l2' end) l2
    end.
  Lemma fmerge_nil_r l : fmerge l [] = l.
  Proof. destruct l; reflexivity. Qed.
  Lemma fmerge_cons a l1 b l2 : fmerge (a :: l1) (b :: l2) = if key a <=? key b then a :: fmerge l1 (b :: l2) else b :: fmerge (a :: l1) l2.
  Proof. reflexivity. Qed.

  Lemma merge_rest_ok arest : forall tpre gap pre post fuel na off i k,
    zlen tpre = i -> zlen gap = zlen arest -> na = i + zlen arest -> off + k = zlen pre -> (length arest <= fuel)%nat ->
    merge_rest fuel (tpre ++ arest) na off (pre ++ gap ++ post) i k = Ok (pre ++ arest ++ post).
  Proof.
    induction arest as [|a arest IH]; intros tpre gap pre post fuel na off i k H1 H2 H3 H4 H5.
    - assert (gap = []) as -> by (destruct gap; auto; rewrite zlen_cons in H2; pose proof (zlen_nonneg gap); change (zlen (@nil Z)) with 0 in H2; lia).
      destruct fuel; cbn [merge_rest]; change (zlen (@nil Z)) with 0 in H3; destruct (Z.ltb_spec i na); try lia; auto.
    - rewrite zlen_cons in *. pose proof (zlen_nonneg arest). destruct gap as [|g gap]; [change (zlen (@nil Z)) with 0 in H2; lia|]. rewrite zlen_cons in H2.
      destruct fuel as [|fuel]; [cbn in H5; lia|]. cbn [merge_rest]. destruct (Z.ltb_spec i na); [|lia].
      assert (E : zget (tpre ++ a :: arest) i = Some a) by (rewrite zget_app_r by lia; rewrite H1, Z.sub_diag; apply zget_cons_0).
      rewrite (proj2 (oget_Ok _ _ _) E). cbn [bind]. rewrite H4. cbn [app]. rewrite oset_middle. cbn [bind].
      specialize (IH (tpre ++ [a]) gap (pre ++ [a]) post fuel na off (i + 1) (k + 1)). rewrite <- !app_assoc in IH. cbn [app] in IH. apply IH; try lia.
      + rewrite zlen_app. cbn. lia.
      + rewrite zlen_app. cbn. lia.
      + cbn in H5. lia.
  Qed.

  Lemma merge_loop_ok fuel : forall arest brest tpre gap pre post na nb off i j k,
    zlen tpre = i -> zlen gap = zlen arest -> na = i + zlen arest -> nb = j + zlen brest -> off + k = zlen pre -> off + na + j = zlen pre + zlen gap ->
    (length arest + length brest <= fuel)%nat -> Forall valid arest -> Forall valid brest ->
    0 <= i -> merge_loop fuel x (tpre ++ arest) na nb off (pre ++ gap ++ brest ++ post) i j k = Ok (pre ++ fmerge arest brest ++ post).
  Proof.
    induction fuel as [|fuel IH]; intros arest brest tpre gap pre post na nb off i j k H1 H2 H3 H4 H5 H6 H7 V1 V2 H8.
    - destruct arest, brest; cbn in H7; try lia. cbn [merge_loop]. change (zlen (@nil Z)) with 0 in H3. destruct (Z.ltb_spec i na); [lia|]. cbn [andb].
      rewrite (merge_rest_ok [] tpre gap pre post) by (auto; cbn; lia). reflexivity.
    - destruct arest as [|a arest].
      + cbn [merge_loop]. change (zlen (@nil Z)) with 0 in H3. destruct (Z.ltb_spec i na); [lia|]. cbn [andb].
        rewrite (merge_rest_ok [] tpre gap pre (brest ++ post)) by (auto; cbn; lia). reflexivity.
      + destruct brest as [|b brest].
        * cbn [merge_loop]. change (zlen (@nil Z)) with 0 in H4. destruct (Z.ltb_spec j nb); [lia|]. rewrite andb_false_r.
          rewrite fmerge_nil_r. apply merge_rest_ok; auto. rewrite H3. unfold zlen. lia.
        * rewrite !zlen_cons in *. pose proof (zlen_nonneg arest). pose proof (zlen_nonneg brest). cbn [merge_loop].
          destruct (Z.ltb_spec i na); [|lia]. destruct (Z.ltb_spec j nb); [|lia]. cbn [andb].
          assert (Ea : zget (tpre ++ a :: arest) i = Some a) by (rewrite zget_app_r by lia; rewrite H1, Z.sub_diag; apply zget_cons_0).
          rewrite (proj2 (oget_Ok _ _ _) Ea). cbn [bind].
          assert (Eb : zget (pre ++ gap ++ (b :: brest) ++ post) (off + na + j) = Some b).
          { rewrite zget_app_r by (pose proof (zlen_nonneg gap); lia). rewrite zget_app_r by lia. replace (off + na + j - zlen pre - zlen gap) with 0 by lia. apply zget_cons_0. }
          rewrite (proj2 (oget_Ok _ _ _) Eb). cbn [bind]. inversion V1; subst. inversion V2; subst. rewrite !oget_key by auto. cbn [bind]. rewrite fmerge_cons.
          destruct gap as [|g gap]; [change (zlen (@nil Z)) with 0 in H2; lia|]. rewrite zlen_cons in *.
          destruct (key a <=? key b).
          -- rewrite H5. cbn [app]. rewrite oset_middle. cbn [bind]. specialize (IH arest (b :: brest) (tpre ++ [a]) gap (pre ++ [a]) post (zlen tpre + (1 + zlen arest)) (j + (1 + zlen brest)) off (zlen tpre + 1) j (k + 1)).
             rewrite <- !app_assoc in IH. cbn [app] in IH. apply IH; auto; rewrite ?zlen_app, ?zlen_cons, ?zlen_nil; try lia. cbn in H7 |- *. lia.
          -- rewrite H5. cbn [app]. rewrite oset_middle. cbn [bind]. specialize (IH (a :: arest) brest tpre (gap ++ [b]) (pre ++ [b]) post (zlen tpre + (1 + zlen arest)) (j + (1 + zlen brest)) off (zlen tpre) (j + 1) (k + 1)).
             rewrite <- !app_assoc in IH. cbn [app] in IH. apply IH; auto; rewrite ?zlen_app, ?zlen_cons, ?zlen_nil; try lia. cbn in H7 |- *. lia.
  Qed.

  (** Functional facts. *)
  Lemma fmerge_perm l1 : forall l2, Permutation (l1 ++ l2) (fmerge l1 l2).
  Proof.
    induction l1 as [|a l1 IH1]; intros l2; [apply Permutation_refl|]. induction l2 as [|b l2 IH2]; [rewrite fmerge_nil_r, app_nil_r; auto|].
    rewrite fmerge_cons. destruct (key a <=? key b).
    - cbn. constructor. apply IH1.
    - rewrite <- Permutation_middle. constructor. apply IH2.
  Qed.
  Lemma lexlt_trans a b c : lexlt a b -> lexlt b c -> lexlt a c.
  Proof. unfold lexlt. lia. Qed.
  Lemma fmerge_sorted l1 : forall l2, StronglySorted lexlt l1 -> StronglySorted lexlt l2 -> (forall a b, In a l1 -> In b l2 -> a < b) -> StronglySorted lexlt (fmerge l1 l2).
  Proof.
    induction l1 as [|a l1 IH1]; intros l2 S1 S2 H; [auto|]. induction l2 as [|b l2 IH2]; [now rewrite fmerge_nil_r|].
    rewrite fmerge_cons. inversion S1 as [|? ? S1' F1]; subst. inversion S2 as [|? ? S2' F2]; subst.
    destruct (Z.leb_spec (key a) (key b)) as [L|L].
    - constructor; [apply IH1; auto; intros; apply H; cbn; auto|].
      eapply Permutation_Forall; [apply fmerge_perm|]. apply Forall_app. split; auto.
      assert (Hab : lexlt a b). { specialize (H a b ltac:(left; auto) ltac:(left; auto)). unfold lexlt. lia. }
      constructor; auto. eapply Forall_impl; [|exact F2]. intros c Hc. eapply lexlt_trans; eauto.
    - assert (Hba : lexlt b a) by (unfold lexlt; lia).
      constructor.
      + apply IH2; auto. intros; apply H; cbn; auto.
      + eapply Permutation_Forall; [apply fmerge_perm|]. apply Forall_app. split; auto. constructor; auto. eapply Forall_impl; [|exact F1]. intros c Hc. eapply lexlt_trans; eauto.
  Qed.

  Lemma sorted_app l1 l2 : StronglySorted lexlt l1 -> StronglySorted lexlt l2 -> (forall a b, In a l1 -> In b l2 -> lexlt a b) -> StronglySorted lexlt (l1 ++ l2).
  Proof.
    induction 1 as [|a l1 S1 IH F]; intros S2 H; auto. cbn. constructor; [apply IH; auto; intros; apply H; cbn; auto|]. apply Forall_app. split; auto. apply Forall_forall. intros b Hb. apply H; cbn; auto.
  Qed.
  Lemma ss_split {R : Z -> Z -> Prop} l1 : forall l2, StronglySorted R (l1 ++ l2) -> StronglySorted R l1 /\ StronglySorted R l2 /\ forall a b, In a l1 -> In b l2 -> R a b.
  Proof.
    induction l1 as [|a l1 IH]; intros l2 S; cbn in S.
    - split; [constructor|]. split; auto. intros a b [].
    - inversion S as [|? ? S' F]; subst. destruct (IH l2 S') as (A & B & C). apply Forall_app in F. destruct F as [F1 F2]. split; [constructor; auto|]. split; auto.
      intros c d [<-|Hc] Hd; [rewrite Forall_forall in F2; auto|auto].
  Qed.

  Lemma copy_loop (pre seg post : list Z) : ofor 0 (zlen seg) (fun t i => do v <- oget (pre ++ seg ++ post) (zlen pre + i) ; Ok (t ++ [v])) [] = Ok seg.
  Proof.
    match goal with |- context [ofor 0 _ ?f ?s] => destruct (ofor_inv (fun i (t : list Z) => zlen t = i /\ forall p, 0 <= p < i -> zget t p = zget seg p) f 0 (zlen seg) s) as (t & E & L & G) end.
    - apply zlen_nonneg.
    - split; [reflexivity|lia].
    - intros i t Hi [L G]. destruct (zget_in_range seg i ltac:(lia)) as (v & Ev).
      assert (E : zget (pre ++ seg ++ post) (zlen pre + i) = Some v). { rewrite zget_app_r by lia. replace (zlen pre + i - zlen pre) with i by lia. rewrite zget_app_l by lia. auto. }
      rewrite (proj2 (oget_Ok _ _ _) E). cbn [bind]. eexists. split; [reflexivity|]. split; [rewrite zlen_app; cbn; lia|]. intros p Hp. destruct (Z.eq_dec p i) as [->|].
      + rewrite zget_app_r by lia. rewrite L, Z.sub_diag, Ev. apply zget_cons_0.
      + rewrite zget_app_l by lia. apply G. lia.
    - rewrite E. f_equal. apply zget_ext; [lia|]. intros p Hp. apply G. lia.
  Qed.

  Lemma last_in (l : list Z) : l <> [] -> exists l' z, l = l' ++ [z].
  Proof. intros H. destruct (exists_last H) as (l' & z & E). eauto. Qed.

  Lemma mergerank_ok fuel : forall seg pre post, (length seg <= fuel)%nat -> Forall valid seg -> StronglySorted Z.lt seg ->
    exists seg', mergerank fuel x (pre ++ seg ++ post) (zlen pre) (zlen seg) = Ok (pre ++ seg' ++ post) /\ Permutation seg seg' /\ StronglySorted lexlt seg'.
  Proof.
    induction fuel as [|fuel IH]; intros seg pre post Hf V S.
    - destruct seg; [|cbn in Hf; lia]. exists []. split; [reflexivity|]. split; auto. constructor.
    - destruct seg as [|a1 [|a2 [|a3 rest]]].
      + exists []. split; [reflexivity|]. split; auto. constructor.
      + exists [a1]. split; [reflexivity|]. split; auto. repeat constructor.
      + (* n = 2 *)
        cbn [mergerank]. change (zlen [a1; a2]) with 2. change (2 <? 2) with false. change (2 =? 2) with true. cbv iota.
        assert (E1 : zget (pre ++ [a1; a2] ++ post) (zlen pre) = Some a1) by (rewrite zget_app_r, Z.sub_diag by lia; apply zget_cons_0).
        assert (E2 : zget (pre ++ [a1; a2] ++ post) (zlen pre + 1) = Some a2).
        { rewrite zget_app_r by lia. replace (zlen pre + 1 - zlen pre) with 1 by lia. cbn [app]. rewrite zget_cons_pos by lia. apply zget_cons_0. }
        rewrite (proj2 (oget_Ok _ _ _) E1), (proj2 (oget_Ok _ _ _) E2). cbn [bind]. inversion V as [|? ? V1 V']; subst. inversion V' as [|? ? V2 _]; subst. rewrite !oget_key by auto. cbn [bind].
        inversion S as [|? ? _ F]; subst. inversion F as [|? ? Hlt _]; subst.
        destruct (Z.gtb_spec (key a1) (key a2)).
        * cbn [app]. rewrite oset_middle. cbn [bind]. pose proof (oset_middle (pre ++ [a2]) a2 post a1) as O. rewrite zlen_app in O. change (zlen [a2]) with 1 in O. rewrite <- !app_assoc in O. cbn [app] in O.
          rewrite O. exists [a2; a1]. split; auto. split; [constructor|]. apply SSorted_cons; [repeat constructor|]. apply Forall_cons; [left; lia|constructor].
        * exists [a1; a2]. split; auto. split; auto. apply SSorted_cons; [repeat constructor|]. apply Forall_cons; [unfold lexlt; lia|constructor].
      + remember (a1 :: a2 :: a3 :: rest) as seg eqn:Eseg.
        assert (Hn : 3 <= zlen seg) by (subst seg; rewrite !zlen_cons; pose proof (zlen_nonneg rest); lia). clear Eseg a1 a2 a3 rest.
        cbn [mergerank]. destruct (Z.ltb_spec (zlen seg) 2); [lia|]. destruct (Z.eqb_spec (zlen seg) 2); [lia|].
        set (na := (zlen seg + 1) / 2). assert (Hna : 2 * na <= zlen seg + 1 < 2 * na + 2) by (unfold na; pose proof (Z.div_mod (zlen seg + 1) 2 ltac:(lia)); pose proof (Z.mod_pos_bound (zlen seg + 1) 2 ltac:(lia)); lia).
        set (s1 := firstn (Z.to_nat na) seg). set (s2 := skipn (Z.to_nat na) seg).
        assert (Es : seg = s1 ++ s2) by (symmetry; apply firstn_skipn). assert (L1 : zlen s1 = na) by (unfold zlen in *; unfold s1; rewrite firstn_length; lia).
        assert (L2 : zlen s2 = zlen seg - na) by (unfold zlen in *; unfold s2; rewrite skipn_length; lia). clearbody s1 s2 na. rewrite Es in V, S, Hf. replace (pre ++ seg ++ post) with (pre ++ s1 ++ s2 ++ post) by (rewrite Es, <- app_assoc; auto).
        apply Forall_app in V. destruct V as [V1 V2]. apply ss_split in S. destruct S as (S1 & S2 & S12). rewrite app_length in Hf.
        rewrite <- L1. cbv zeta.
        destruct (IH s1 pre (s2 ++ post)) as (s1' & E1 & P1 & O1); auto. { unfold zlen in *. lia. } rewrite E1. cbn [bind].
        assert (L1' : zlen s1' = zlen s1) by (unfold zlen; f_equal; symmetry; apply Permutation_length; auto).
        assert (Ep : zlen (pre ++ s1') = zlen pre + zlen s1) by (rewrite zlen_app; lia).
        destruct (IH s2 (pre ++ s1') post) as (s2' & E2 & P2 & O2); auto. { unfold zlen in *. lia. }
        rewrite Ep in E2. rewrite <- app_assoc in E2. rewrite L1, <- L2, <- L1. rewrite E2. cbn [bind]. rewrite <- app_assoc.
        assert (L2' : zlen s2' = zlen s2) by (unfold zlen; f_equal; symmetry; apply Permutation_length; auto).
        assert (V1' : Forall valid s1') by (eapply Permutation_Forall; eauto). assert (V2' : Forall valid s2') by (eapply Permutation_Forall; eauto).
        destruct (last_in s1') as (f1 & p & Ef). { intros ->. change (zlen (@nil Z)) with 0 in L1'. lia. }
        destruct s2' as [|q f2]; [change (zlen (@nil Z)) with 0 in L2'; lia|].
        assert (Gp : zget (pre ++ s1' ++ (q :: f2) ++ post) (zlen pre + zlen s1 - 1) = Some p).
        { rewrite zget_app_r by lia. rewrite zget_app_l by lia. rewrite Ef. rewrite Ef, zlen_app in L1'. change (zlen [p]) with 1 in L1'. rewrite zget_app_r by lia. replace (zlen pre + zlen s1 - 1 - zlen pre - zlen f1) with 0 by lia. apply zget_cons_0. }
        assert (Gq : zget (pre ++ s1' ++ (q :: f2) ++ post) (zlen pre + zlen s1) = Some q).
        { rewrite zget_app_r by lia. rewrite zget_app_r by lia. replace (zlen pre + zlen s1 - zlen pre - zlen s1') with 0 by lia. apply zget_cons_0. }
        rewrite (proj2 (oget_Ok _ _ _) Gp), (proj2 (oget_Ok _ _ _) Gq). cbn [bind].
        assert (Vp : valid p). { rewrite Ef in V1'. apply Forall_app in V1'. destruct V1' as [_ V]. inversion V; auto. } assert (Vq : valid q) by (inversion V2'; auto).
        rewrite !oget_key by auto. cbn [bind].
        assert (S12' : forall a b, In a s1' -> In b (q :: f2) -> a < b).
        { intros a b Ha Hb. apply S12; eapply Permutation_in; [apply Permutation_sym; eauto|auto|apply Permutation_sym; eauto|auto]. }
        destruct (Z.gtb_spec (key p) (key q)) as [G|G].
        * rewrite <- L1'. rewrite copy_loop. cbn [bind]. unfold merge.
          pose proof (merge_loop_ok (Z.to_nat (zlen s1' + zlen s2)) s1' (q :: f2) [] s1' pre post (zlen s1') (zlen s2) (zlen pre) 0 0 0) as M. cbn [app] in M.
          cbn [app]. rewrite M; auto; try (rewrite ?zlen_nil; lia). 2: { unfold zlen in *. lia. }
          exists (fmerge s1' (q :: f2)). split; auto. rewrite Es. split.
          -- eapply perm_trans; [apply Permutation_app; eauto|]. apply fmerge_perm.
          -- apply fmerge_sorted; auto.
        * exists (s1' ++ q :: f2). split; [rewrite <- app_assoc; auto|]. rewrite Es. split; [apply Permutation_app; auto|].
          apply sorted_app; auto. intros a b Ha Hb.
          assert (Ka : key a <= key p). { rewrite Ef in O1, Ha. apply ss_split in O1. destruct O1 as (_ & _ & O). apply in_app_or in Ha. destruct Ha as [Ha|[<-|[]]]; [|lia]. specialize (O a p Ha ltac:(left; auto)). unfold lexlt in O. lia. }
          assert (Kb : key q <= key b). { inversion O2 as [|? ? _ F]; subst. destruct Hb as [<-|Hb]; [lia|]. rewrite Forall_forall in F. specialize (F b Hb). unfold lexlt in F. lia. }
          specialize (S12' a b Ha Hb). unfold lexlt. lia.
  Qed.
End Sort.

Lemma ss_zseq lo n : StronglySorted Z.lt (zseq lo n).
Proof.
  unfold zseq. generalize (Z.to_nat n). intros k. revert lo. induction k as [|k IH]; intros lo; cbn; constructor; auto.
  apply Forall_forall. intros z Hz. assert (H : In z (zseq (lo + 1) (Z.of_nat k))) by (unfold zseq; now rewrite Nat2Z.id). apply In_zseq in H. lia.
Qed.

Lemma rank_ascending_ok x : exists r, rank_ascending x = Ok r /\ Permutation (zseq 0 (zlen x)) r /\ StronglySorted (lexlt x) r.
Proof.
  unfold rank_ascending. pose proof (zlen_nonneg x) as Hx.
  destruct (mergerank_ok x (length x) (zseq 0 (zlen x)) [] []) as (r & E & P & S).
  - assert (H : zlen (zseq 0 (zlen x)) = zlen x) by (rewrite zlen_zseq; lia). unfold zlen in *. lia.
  - apply Forall_forall. intros z Hz. apply In_zseq in Hz. unfold valid. lia.
  - apply ss_zseq.
  - cbn [app] in E. rewrite !app_nil_r in E. rewrite zlen_zseq in E by lia. change (zlen (@nil Z)) with 0 in E. exists r. auto.
Qed.

(** ** Dropping the negatives *)
Lemma first_valid_ok x r : forall k, Forall (valid x) r -> exists negs pos, r = negs ++ pos /\ first_valid x r k = Ok (k + zlen negs)
  /\ Forall (fun q => key x q < 0) negs /\ (forall q l, pos = q :: l -> 0 <= key x q).
Proof.
  induction r as [|q r IH]; intros k V.
  - exists [], []. split; auto. split; [cbn; f_equal; change (zlen (@nil Z)) with 0; lia|]. split; [constructor|discriminate].
  - inversion V; subst. cbn [first_valid]. rewrite oget_key by auto. cbn [bind]. destruct (Z.geb_spec (key x q) 0).
    + exists [], (q :: r). split; auto. split; [f_equal; change (zlen (@nil Z)) with 0; lia|]. split; [constructor|]. intros q' l Eq. injection Eq as <- <-. lia.
    + destruct (IH (k + 1)) as (negs & pos & E & F & N & P); auto. exists (q :: negs), pos. rewrite E. split; auto. rewrite <- E. rewrite F. split; [f_equal; rewrite zlen_cons; lia|]. split; auto.
Qed.

Lemma shift_loop (negs pos : list Z) : exists r', ofor 0 (zlen pos) (fun rank i => do v <- oget rank (i + zlen negs) ; oset rank i v) (negs ++ pos) = Ok r'
  /\ zlen r' = zlen negs + zlen pos /\ forall p, 0 <= p < zlen pos -> zget r' p = zget pos p.
Proof.
  pose proof (zlen_nonneg negs). pose proof (zlen_nonneg pos).
  match goal with |- context [ofor 0 _ ?f ?s] => destruct (ofor_inv (fun i (t : list Z) => zlen t = zlen negs + zlen pos /\ (forall p, 0 <= p < i -> zget t p = zget pos p) /\ (forall p, i <= p -> zget t p = zget (negs ++ pos) p)) f 0 (zlen pos) s) as (t & E & L & G & K) end.
  - lia.
  - split; [apply zlen_app|]. split; [lia|auto].
  - intros i t Hi (L & G & K). cbn beta. destruct (zget_in_range pos i ltac:(lia)) as (v & Ev).
    assert (E : zget t (i + zlen negs) = Some v). { rewrite K by lia. rewrite zget_app_r by lia. replace (i + zlen negs - zlen negs) with i by lia. auto. }
    rewrite (proj2 (oget_Ok _ _ _) E). cbn [bind]. destruct (zset_Some t i v ltac:(lia)) as (t' & Et). exists t'. split; [now apply oset_Ok|].
    pose proof (zset_len _ _ _ _ Et). split; [lia|]. split.
    + intros p Hp. destruct (Z.eq_dec p i) as [->|]; [rewrite (zget_zset_eq _ _ _ _ Et); auto|]. rewrite (zget_zset_ne _ _ _ _ _ Et) by lia. apply G. lia.
    + intros p Hp. rewrite (zget_zset_ne _ _ _ _ _ Et) by lia. apply K. lia.
  - exists t. split; [exact E|]. split; [exact L|]. intros p Hp. apply G. lia.
Qed.

Lemma fill_loop (r : list Z) lo n v : 0 <= lo -> 0 <= n -> lo + n = zlen r -> exists r', ofor lo n (fun rank i => oset rank i v) r = Ok r' /\ forall p, p < lo -> zget r' p = zget r p.
Proof.
  intros H1 H2 H3. match goal with |- context [ofor lo n ?f ?s] => destruct (ofor_inv (fun i (t : list Z) => zlen t = zlen r /\ forall p, p < lo -> zget t p = zget r p) f lo n s) as (t & E & L & G) end; auto.
  - intros i t Hi [L G]. destruct (zset_Some t i v ltac:(lia)) as (t' & Et). exists t'. split; [now apply oset_Ok|]. pose proof (zset_len _ _ _ _ Et). split; [lia|]. intros p Hp. rewrite (zget_zset_ne _ _ _ _ _ Et) by lia. auto.
  - exists t. auto.
Qed.

Lemma map_key x : map (key x) (zseq 0 (zlen x)) = x.
Proof.
  pose proof (zlen_nonneg x). apply zget_ext; [rewrite zlen_map, zlen_zseq; lia|]. rewrite zlen_map, zlen_zseq by lia. intros i Hi. rewrite zget_map, zget_zseq by lia. cbn [option_map]. unfold key. destruct (zget_in_range x i ltac:(lia)) as (v & Ev). replace (0 + i) with i by lia. rewrite !Ev. reflexivity.
Qed.

Lemma filter_map {A B} (f : A -> B) p l : filter p (map f l) = map f (filter (fun z => p (f z)) l).
Proof. induction l as [|a l IH]; cbn; auto. destruct (p (f a)); cbn; now rewrite IH. Qed.
Lemma filter_all {A} (p : A -> bool) l : Forall (fun z => p z = true) l -> filter p l = l.
Proof. induction 1; cbn; auto. rewrite H. now f_equal. Qed.
Lemma filter_none {A} (p : A -> bool) l : Forall (fun z => p z = false) l -> filter p l = [].
Proof. induction 1; cbn; auto. now rewrite H. Qed.
Lemma filter_perm {A} (p : A -> bool) l l' : Permutation l l' -> Permutation (filter p l) (filter p l').
Proof. induction 1; cbn; auto; repeat match goal with |- context [if ?b then _ else _] => destruct b end; auto; try constructor. eapply perm_trans; eauto. Qed.

Lemma reorder_ok idxs : let x := concat idxs in exists rank pos, reorder_compressed_index idxs = Ok rank
  /\ zlen pos = dim_len idxs /\ (forall p, 0 <= p < zlen pos -> zget rank p = zget pos p)
  /\ Permutation pos (filter (fun q => key x q >=? 0) (zseq 0 (zlen x))) /\ StronglySorted (lexlt x) pos.
Proof.
  intros x. unfold reorder_compressed_index. fold x. destruct (rank_ascending_ok x) as (r & -> & P & S). cbn [bind].
  assert (V : Forall (valid x) r). { eapply Permutation_Forall; [exact P|]. apply Forall_forall. intros z Hz. apply In_zseq in Hz. unfold valid. lia. }
  destruct (first_valid_ok x r 0 V) as (negs & pos & Er & -> & N & Hd). cbn [bind]. rewrite Z.add_0_l.
  subst r. rewrite zlen_app. replace (zlen negs + zlen pos - zlen negs) with (zlen pos) by lia.
  destruct (shift_loop negs pos) as (r' & -> & L & G). cbn [bind].
  destruct (fill_loop r' (zlen pos) (zlen negs) (-1)) as (r'' & E & K); try lia; try apply zlen_nonneg. exists r'', pos. split; auto.
  apply ss_split in S. destruct S as (S1 & S2 & S12).
  assert (HP : Forall (fun q => (key x q >=? 0) = true) pos).
  { destruct pos as [|q l]; constructor.
    - specialize (Hd q l eq_refl). lia.
    - inversion S2 as [|? ? _ F]; subst. specialize (Hd q l eq_refl). eapply Forall_impl; [|exact F]. intros c Hc. unfold lexlt in Hc. lia. }
  assert (HN : Forall (fun q => (key x q >=? 0) = false) negs) by (eapply Forall_impl; [|exact N]; cbn; intros; lia).
  assert (HF : Permutation pos (filter (fun q => key x q >=? 0) (zseq 0 (zlen x)))).
  { apply Permutation_sym. eapply perm_trans; [apply filter_perm; exact P|]. rewrite filter_app, (filter_none _ _ HN), (filter_all _ _ HP). apply Permutation_refl. }
  split; [|split; [intros p Hp; rewrite K by lia; apply G; auto|split; auto]].
  unfold dim_len. fold x. rewrite <- (map_key x) at 1. rewrite filter_map, zlen_map. unfold zlen. f_equal. apply Permutation_length. auto.
Qed.

(** ** One slice *)
Lemma zlen_concat_eq {A B} (l : list (list A)) : forall (m : list (list B)), map (@length A) l = map (@length B) m -> zlen (concat l) = zlen (concat m).
Proof. induction l as [|a l IH]; intros [|b m] H; try discriminate; auto. cbn in *. injection H as H1 H2. rewrite !zlen_app, (IH m) by auto. unfold zlen. lia. Qed.

Lemma combine_slice_ok {A} idxs (datas : list (list A)) pos rank : map (@length A) datas = map (@length Z) idxs ->
  reorder_compressed_index idxs = Ok rank -> zlen pos = dim_len idxs -> (forall p, 0 <= p < zlen pos -> zget rank p = zget pos p) ->
  Forall (valid (concat idxs)) pos ->
  exists out, combine_slice idxs datas = Ok out /\ zlen out = zlen pos /\ forall k q, zget pos k = Some q -> zget out k = zget (concat datas) q.
Proof.
  intros HL ER Lp Hr V. unfold combine_slice. pose proof (zlen_nonneg pos). destruct (Z.eqb_spec (dim_len idxs) 0).
  - exists []. split; auto. split; [change (zlen (@nil A)) with 0; lia|]. intros k q Hk. apply zget_Some_range in Hk. lia.
  - rewrite ER. cbn [bind].
    match goal with |- context [ofor 0 _ ?f ?s] => destruct (ofor_inv (fun i (t : list A) => zlen t = i /\ forall k q, k < i -> zget pos k = Some q -> zget t k = zget (concat datas) q) f 0 (dim_len idxs) s) as (t & E & L & G) end.
    + lia.
    + split; auto. intros k q Hk Hq. apply zget_Some_range in Hq. lia.
    + intros i t Hi [L G]. cbn beta. destruct (zget_in_range pos i ltac:(lia)) as (q & Eq). rewrite <- Hr in Eq by lia. rewrite (proj2 (oget_Ok _ _ _) Eq). cbn [bind]. rewrite Hr in Eq by lia.
      assert (Vq : valid (concat idxs) q) by (rewrite Forall_forall in V; apply V; eapply zget_In; eauto). unfold valid in Vq. rewrite <- (zlen_concat_eq datas idxs HL) in Vq.
      destruct (zget_in_range _ q Vq) as (v & Ev). rewrite (proj2 (oget_Ok _ _ _) Ev). cbn [bind]. eexists. split; [reflexivity|]. split; [rewrite zlen_app; change (zlen [v]) with 1; lia|].
      intros k q' Hk Hq'. pose proof (zget_Some_range _ _ _ Hq'). destruct (Z.eq_dec k i) as [->|].
      * rewrite zget_app_r by lia. rewrite L, Z.sub_diag, zget_cons_0. congruence.
      * rewrite zget_app_l by lia. apply G; auto. lia.
    + exists t. rewrite E. split; auto. split; [lia|]. intros k q Hk. pose proof (zget_Some_range _ _ _ Hk). apply G; auto. lia.
Qed.
