(** * Assembling a global array tile by tile (proofs about [Spec_Combine]) *)
From Verif Require Import Base Loops Spec_Hyperslab Shape Spec_Combine.

Fixpoint vsub (a b : list Z) : list Z :=
  match a, b with x :: a', y :: b' => x - y :: vsub a' b' | _, _ => [] end.
Fixpoint validb (dims idx : list Z) : bool :=
  match dims, idx with
  | [], [] => true
  | d :: dims', i :: idx' => (0 <=? i) && (i <? d) && validb dims' idx'
  | _, _ => false
  end.
Lemma validb_valid dims idx : validb dims idx = true <-> valid dims idx.
Proof.
  revert idx; induction dims as [|d dims IH]; intros [|i idx]; simpl; split; intros H; try discriminate; try constructor;
    try (inversion H; fail).
  - lia.
  - apply IH. destruct (validb dims idx); auto. lia.
  - inversion H as [|? ? ? ? E1 E2]; subst. apply IH in E2. rewrite E2. lia.
Qed.
Lemma vsub_vadd s i : length s = length i -> vsub (vadd s i) s = i.
Proof. revert i; induction s as [|x s IH]; intros [|y i]; simpl; intros H; try discriminate; auto. f_equal; [lia|auto]. Qed.
Lemma vadd_vsub s g : length g = length s -> vadd s (vsub g s) = g.
Proof. revert g; induction s as [|x s IH]; intros [|y i]; simpl; intros H; try discriminate; auto. f_equal; [lia|auto]. Qed.

Section A.
  Context {A : Type}.
  Implicit Types (t : @tile A).

  Definition local t g : option (list Z) :=
    let l := vsub g (t_start t) in if validb (t_count t) l then Some l else None.

  Lemma local_at full t g idx : tile_ok full t -> valid full g -> (local t g = Some idx <-> at_tile t g idx).
  Proof.
    intros [HB _] Hg. unfold local, at_tile. destruct (block_in_length _ _ _ HB) as [L1 L2].
    pose proof (valid_length _ _ Hg) as L3. split.
    - destruct (validb _ _) eqn:E; [|discriminate]. intros H; inversion H; subst. apply validb_valid in E.
      split; auto. symmetry. apply vadd_vsub. congruence.
    - intros [V ->]. pose proof (valid_length _ _ V). rewrite vsub_vadd by congruence. apply validb_valid in V. now rewrite V.
  Qed.
  Lemma local_none full t g : tile_ok full t -> valid full g -> (local t g = None <-> ~ covers t g).
  Proof.
    intros HT Hg. split.
    - intros H [idx Hi]. apply (local_at full) in Hi; auto. congruence.
    - intros H. destruct (local t g) as [idx|] eqn:E; auto. exfalso. apply H. exists idx. now apply (local_at full).
  Qed.
  Lemma at_tile_valid full t g idx : tile_ok full t -> at_tile t g idx -> valid full g.
  Proof. intros [HB _] [V ->]. eapply block_valid; eauto. Qed.
  Lemma covers_valid full t g : tile_ok full t -> covers t g -> valid full g.
  Proof. intros HT [idx H]. eapply at_tile_valid; eauto. Qed.

  Context (fill : A).
  Definition dget (l : list A) p : A := match zget l p with Some x => x | None => fill end.

  (** Paint tile [t] over the array [old]. *)
  Definition paint full t (old : list A) : list A :=
    map (fun p => match local t (unpos full p) with
                  | Some idx => dget (t_data t) (pos (t_count t) idx)
                  | None => dget old p
                  end) (zseq 0 (size full)).

  Definition combined full (tiles : list (@tile A)) : list A :=
    fold_left (fun acc t => paint full t acc) tiles (repeat fill (Z.to_nat (size full))).

  Lemma paint_len full t old : 0 <= size full -> zlen (paint full t old) = size full.
  Proof. intros. unfold paint. rewrite zlen_map, zlen_zseq; auto. Qed.

  Lemma paint_in full t old g idx : tile_ok full t -> at_tile t g idx ->
    zget (paint full t old) (pos full g) = zget (t_data t) (pos (t_count t) idx).
  Proof.
    intros HT Ha. pose proof (at_tile_valid _ _ _ _ HT Ha) as Hg. pose proof (pos_range _ _ Hg).
    unfold paint. rewrite zget_map, zget_zseq by lia. cbn [option_map]. rewrite Z.add_0_l, unpos_pos by auto.
    rewrite (proj2 (local_at full t g idx HT Hg) Ha). unfold dget.
    destruct HT as [HB HL]. destruct Ha as [Hv _]. pose proof (pos_range _ _ Hv).
    destruct (zget_in_range (t_data t) (pos (t_count t) idx) ltac:(lia)) as [x ->]. reflexivity.
  Qed.
  Lemma paint_out full t old g : tile_ok full t -> valid full g -> zlen old = size full -> ~ covers t g ->
    zget (paint full t old) (pos full g) = zget old (pos full g).
  Proof.
    intros HT Hg HL Hc. pose proof (pos_range _ _ Hg).
    unfold paint. rewrite zget_map, zget_zseq by lia. cbn [option_map]. rewrite Z.add_0_l, unpos_pos by auto.
    rewrite (proj2 (local_none full t g HT Hg) Hc). unfold dget.
    destruct (zget_in_range old (pos full g) ltac:(lia)) as [x ->]. reflexivity.
  Qed.

  Lemma combined_snoc full ts t : combined full (ts ++ [t]) = paint full t (combined full ts).
  Proof. unfold combined. now rewrite fold_left_app. Qed.
  Lemma combined_len full ts : 0 <= size full -> zlen (combined full ts) = size full.
  Proof.
    intros H. destruct ts as [|t ts] using rev_ind.
    - unfold combined. cbn. rewrite zlen_repeat. lia.
    - rewrite combined_snoc. now apply paint_len.
  Qed.

  Lemma combined_assembled full ts : Forall (fun d => 0 <= d) full -> Forall (tile_ok full) ts ->
    assembled full ts fill (combined full ts).
  Proof.
    intros HF HT. pose proof (size_nonneg _ HF) as Hs. split; [now apply combined_len|].
    induction ts as [|t ts IH] using rev_ind.
    - split.
      + intros t1 t t2 g idx H. destruct t1; discriminate.
      + intros g Hg _. unfold combined. cbn. apply zget_repeat. pose proof (pos_range _ _ Hg). lia.
    - apply Forall_app in HT. destruct HT as [HT1 HT2]. inversion HT2 as [|? ? Ht _]; subst.
      destruct (IH HT1) as [I1 I2]. rewrite combined_snoc. split.
      + intros t1 t0 t2 g idx E Ha Hc.
        destruct t2 as [|t2 t2' _] using rev_ind.
        * apply app_inj_tail in E. destruct E as [-> ->]. apply paint_in; auto.
        * rewrite app_comm_cons, app_assoc in E. apply app_inj_tail in E. destruct E as [-> ->].
          assert (tile_ok full t0) as Ht0.
          { rewrite Forall_forall in HT1. apply HT1. apply in_or_app. right; left; auto. }
          rewrite paint_out; auto.
          -- apply (I1 t1 t0 t2' g idx); auto. intros t' Hin. apply Hc. apply in_or_app; auto.
          -- eapply at_tile_valid; eauto.
          -- now apply combined_len.
          -- apply Hc. apply in_or_app. right; left; auto.
      + intros g Hg Hc. rewrite paint_out; auto.
        * apply I2; auto. intros t' Hin. apply Hc. apply in_or_app; auto.
        * now apply combined_len.
        * apply Hc. apply in_or_app. right; left; auto.
  Qed.

  (** The last tile covering an index, if any. *)
  Lemma last_cover full ts g : Forall (tile_ok full) ts -> valid full g ->
    (forall t, In t ts -> ~ covers t g) \/
    exists pre t post idx, ts = pre ++ t :: post /\ at_tile t g idx /\ forall t', In t' post -> ~ covers t' g.
  Proof.
    intros HT Hg. induction ts as [|t ts IH]; [left; intros t []|].
    inversion HT as [|? ? Ht Hts]; subst. destruct (IH Hts) as [N|(t1 & t0 & t2 & idx & -> & Ha & Hn)].
    - destruct (local t g) as [idx|] eqn:E.
      + right. exists [], t, ts, idx. repeat split; auto; apply (local_at full) in E; auto; apply E.
      + left. intros t' [<-|Hin]; [|now apply N]. now apply (local_none full).
    - right. exists (t :: t1), t0, t2, idx. auto.
  Qed.

  Lemma assembled_unique full ts out1 out2 : Forall (fun d => 0 <= d) full -> Forall (tile_ok full) ts ->
    assembled full ts fill out1 -> assembled full ts fill out2 -> out1 = out2.
  Proof.
    intros HF HT (L1 & A1 & B1) (L2 & A2 & B2). apply zget_ext; [congruence|].
    intros p Hp. destruct (unpos_spec full p HF ltac:(lia)) as [V P]. rewrite <- P.
    destruct (last_cover full ts (unpos full p) HT V) as [N|(t1 & t & t2 & idx & E & Ha & Hn)].
    - rewrite B1, B2; auto.
    - rewrite (A1 t1 t t2 _ idx), (A2 t1 t t2 _ idx); auto.
  Qed.

  (** With disjoint tiles the order of the tiles does not matter. *)
  Lemma disjoint_last (ts t1 t2 : list (@tile A)) t g : disjoint_tiles ts -> ts = t1 ++ t :: t2 -> covers t g ->
    forall t', In t' t2 -> ~ covers t' g.
  Proof.
    intros HD E Hc t' Hin. apply in_split in Hin. destruct Hin as (a & b & ->).
    eapply (HD t1 t a t' b g); eauto.
  Qed.
End A.
