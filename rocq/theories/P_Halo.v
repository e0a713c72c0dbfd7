(** * Proofs about update_halo *)
From Verif Require Import Base Loops M_River Spec_River Tiles.
Open Scope Z_scope.

Lemma around_id m i : 1 <= i <= m -> around m i = i.
Proof. intros H. unfold around. rewrite Z.mod_small; lia. Qed.
Lemma around_0 m : 1 <= m -> around m 0 = m.
Proof. intros H. unfold around. replace (0 - 1) with (m - 1 + (-1) * m) by ring. rewrite Z_mod_plus_full, Z.mod_small; lia. Qed.
Lemma around_S m : 1 <= m -> around m (m + 1) = 1.
Proof. intros H. unfold around. replace (m + 1 - 1) with (0 + 1 * m) by ring. rewrite Z_mod_plus_full, Z.mod_small; lia. Qed.
Lemma around_range m i : 1 <= m -> 1 <= around m i <= m.
Proof. intros H. unfold around. pose proof (Z.mod_pos_bound (i - 1) m). lia. Qed.

Section Halo.
  Context {A : Type} (nt nx ny : Z) (op : opcode) (F : cell -> A).
  Definition Inv (D : Z -> Z -> Z -> Prop) (d : list (list A)) : Prop :=
    exists G, haloed nt nx ny d G /\ forall n j i, in_frame nt nx ny (n, j, i) ->
      (D n j i -> G (n, j, i) = F (wrap op nx ny (n, j, i))) /\ (~ D n j i -> G (n, j, i) = F (n, j, i)).
  Lemma copy_step n1 j1 i1 n2 j2 i2 k1 k2 (D D' : Z -> Z -> Z -> Prop) d : Inv D d ->
    k1 = j1 * (nx + 2) + i1 -> k2 = j2 * (nx + 2) + i2 ->
    in_frame nt nx ny (n1, j1, i1) -> in_frame nt nx ny (n2, j2, i2) ->
    wrap op nx ny (n2, j2, i2) = wrap op nx ny (n1, j1, i1) ->
    (D n2 j2 i2 \/ (~ D n2 j2 i2 /\ wrap op nx ny (n2, j2, i2) = (n2, j2, i2))) ->
    (forall n j i, D' n j i <-> D n j i \/ (n = n1 /\ j = j1 /\ i = i1)) ->
    exists d', copy d n1 k1 n2 k2 = Ok d' /\ Inv D' d'.
  Proof.
    intros (G & HG & HD) -> -> H1 H2 Hw Hs HD'. unfold copy. rewrite (haloed_get _ _ _ _ _ _ _ _ HG H2). cbn [bind].
    destruct (haloed_put nt nx ny d G n1 j1 i1 (G (n2, j2, i2)) HG H1) as (d' & E & H'). exists d'. split; auto.
    exists (put G (n1, j1, i1) (G (n2, j2, i2))). split; auto. intros n j i Hf.
    assert (Ev : G (n2, j2, i2) = F (wrap op nx ny (n1, j1, i1))).
    { destruct Hs as [Hs|[Hs Hs']]; [rewrite (proj1 (HD _ _ _ H2) Hs)|rewrite (proj2 (HD _ _ _ H2) Hs), <- Hw, Hs']; congruence. }
    split; intros Hd.
    - destruct (cell_dec (n, j, i) (n1, j1, i1)) as [E1|N1].
      + rewrite E1, put_eq. auto.
      + rewrite put_ne by auto. apply HD; auto. apply HD' in Hd. destruct Hd as [|(-> & -> & ->)]; congruence.
    - rewrite put_ne. { apply HD; auto. intros HH. apply Hd, HD'. auto. }
      intros E1. injection E1 as -> -> ->. apply Hd, HD'. auto.
  Qed.
  Lemma Inv_ext D D' d : (forall n j i, in_frame nt nx ny (n, j, i) -> (D n j i <-> D' n j i)) -> Inv D d -> Inv D' d.
  Proof. intros H (G & HG & HD). exists G. split; auto. intros n j i Hf. specialize (H n j i Hf). specialize (HD n j i Hf). tauto. Qed.
End Halo.

Ltac bool_cases := repeat match goal with
  | |- context [(?a <=? ?b)%Z] => destruct (Z.leb_spec a b); try lia
  | |- context [(?a =? ?b)%Z] => destruct (Z.eqb_spec a b); try lia
  end; cbn [andb].

Lemma wrap_own op nt nx ny c : own nt nx ny c -> wrap op nx ny c = c.
Proof.
  destruct c as [[n j] i]. intros (_ & Hj & Hi). unfold wrap. destruct (cubic op).
  - rewrite (proj2 (Z.eqb_neq i 0)), (proj2 (Z.eqb_neq i (nx + 1))), (proj2 (Z.eqb_neq j 0)), (proj2 (Z.eqb_neq j (ny + 1))) by lia.
    rewrite !andb_false_r. reflexivity.
  - rewrite !around_id by lia. destruct (x_cyclic op), (y_cyclic op), ((1 <=? i) && (i <=? nx)), ((1 <=? j) && (j <=? ny)); reflexivity.
Qed.

(** The four sides of a cube tile *)
Section Cube.
  Context (nx : Z) (op : opcode) (Hop : cubic op = true).
  Lemma wrap_w n j : 1 <= j <= nx -> wrap op nx nx (n, j, 0) = if n mod 2 =? 0 then ((n + 4) mod 6, nx, nx + 1 - j) else ((n + 5) mod 6, j, nx).
  Proof. intros H. unfold wrap. rewrite Hop. rewrite (proj2 (Z.leb_le 1 j)), (proj2 (Z.leb_le j nx)) by lia. reflexivity. Qed.
  Lemma wrap_e n j : 1 <= j <= nx -> wrap op nx nx (n, j, nx + 1) = if n mod 2 =? 0 then ((n + 1) mod 6, j, 1) else ((n + 2) mod 6, 1, nx + 1 - j).
  Proof. intros H. unfold wrap. rewrite Hop. rewrite (proj2 (Z.leb_le 1 j)), (proj2 (Z.leb_le j nx)), (proj2 (Z.eqb_neq (nx + 1) 0)), Z.eqb_refl by lia. reflexivity. Qed.
  Lemma wrap_s n i : 1 <= i <= nx -> wrap op nx nx (n, 0, i) = if n mod 2 =? 0 then ((n + 5) mod 6, nx, i) else ((n + 4) mod 6, nx + 1 - i, nx).
  Proof. intros H. unfold wrap. rewrite Hop. rewrite (proj2 (Z.leb_le 1 i)), (proj2 (Z.leb_le i nx)) by lia. reflexivity. Qed.
  Lemma wrap_n n i : 1 <= i <= nx -> wrap op nx nx (n, nx + 1, i) = if n mod 2 =? 0 then ((n + 2) mod 6, nx + 1 - i, 1) else ((n + 1) mod 6, 1, i).
  Proof.
    intros H. unfold wrap. rewrite Hop. rewrite (proj2 (Z.leb_le 1 i)), (proj2 (Z.leb_le i nx)), (proj2 (Z.leb_gt (nx + 1) nx)), (proj2 (Z.eqb_neq (nx + 1) 0)), Z.eqb_refl by lia.
    rewrite andb_false_r. reflexivity.
  Qed.
  Lemma wrap_corner n j i : (j < 1 \/ nx < j) -> (i < 1 \/ nx < i) -> wrap op nx nx (n, j, i) = (n, j, i).
  Proof.
    intros Hj Hi. unfold wrap. rewrite Hop.
    assert (E1 : (1 <=? j) && (j <=? nx) = false). { destruct (Z.leb_spec 1 j); [|reflexivity]. apply (proj2 (Z.leb_gt _ _)). lia. }
    assert (E2 : (1 <=? i) && (i <=? nx) = false). { destruct (Z.leb_spec 1 i); [|reflexivity]. apply (proj2 (Z.leb_gt _ _)). lia. }
    rewrite E1, E2. reflexivity.
  Qed.
  Definition sides (m n j i : Z) : Prop := n < m /\ ((1 <= j <= nx /\ (i = 0 \/ i = nx + 1)) \/ (1 <= i <= nx /\ (j = 0 \/ j = nx + 1))).
  Definition west_east (m n j i : Z) : Prop := n = m /\ 1 <= j <= nx /\ (i = 0 \/ i = nx + 1).
  Lemma tile_pass {A} (F : cell -> A) n d1 tw te ts tn (kw ke ks kn jw iw je ie js is_ jn in_ : Z -> Z) : 1 <= nx -> 0 <= n < 6 ->
    (forall j, 1 <= j <= nx -> own 6 nx nx (tw, jw j, iw j) /\ kw j = jw j * (nx + 2) + iw j /\ wrap op nx nx (n, j, 0) = (tw, jw j, iw j)) ->
    (forall j, 1 <= j <= nx -> own 6 nx nx (te, je j, ie j) /\ ke j = je j * (nx + 2) + ie j /\ wrap op nx nx (n, j, nx + 1) = (te, je j, ie j)) ->
    (forall i, 1 <= i <= nx -> own 6 nx nx (ts, js i, is_ i) /\ ks i = js i * (nx + 2) + is_ i /\ wrap op nx nx (n, 0, i) = (ts, js i, is_ i)) ->
    (forall i, 1 <= i <= nx -> own 6 nx nx (tn, jn i, in_ i) /\ kn i = jn i * (nx + 2) + in_ i /\ wrap op nx nx (n, nx + 1, i) = (tn, jn i, in_ i)) ->
    Inv 6 nx nx op F (sides n) d1 ->
    exists d', (do d <- ofor 1 nx (fun d j => do d <- copy d n (j * (nx + 2)) tw (kw j) ; copy d n (j * (nx + 2) + (nx + 1)) te (ke j)) d1 ;
      ofor 1 nx (fun d i => do d <- copy d n i ts (ks i) ; copy d n ((nx + 1) * (nx + 2) + i) tn (kn i)) d) = Ok d' /\
      Inv 6 nx nx op F (sides (n + 1)) d'.
  Proof.
    intros Hx Hn HW HE HS HN H1.
    destruct (ofor_inv (fun jj d => Inv 6 nx nx op F (fun n' j i => sides n n' j i \/ (n' = n /\ 1 <= j < jj /\ (i = 0 \/ i = nx + 1))) d)
      (fun d j => do d <- copy d n (j * (nx + 2)) tw (kw j) ; copy d n (j * (nx + 2) + (nx + 1)) te (ke j)) 1 nx d1) as (d2 & E2 & I2); [lia| | |].
    - revert H1. apply Inv_ext. intros n' j i _. split; [auto|]. intros [?|?]; [auto|lia].
    - intros j d2 Hj I2. destruct (HW j ltac:(lia)) as (Ow & Kw & Ww). destruct (HE j ltac:(lia)) as (Oe & Ke & We).
      destruct (copy_step 6 nx nx op F n j 0 tw (jw j) (iw j) (j * (nx + 2)) (kw j) _ (fun n' j' i => (sides n n' j' i \/ (n' = n /\ 1 <= j' < j /\ (i = 0 \/ i = nx + 1))) \/ (n' = n /\ j' = j /\ i = 0)) d2 I2) as (d3 & E3 & I3);
        [lia|exact Kw|unfold in_frame; lia|apply own_frame, Ow|rewrite Ww; apply (wrap_own _ 6), Ow
        |right; split; [unfold sides; unfold own in Ow; lia|apply (wrap_own _ 6), Ow]|intros; tauto|].
      rewrite E3. cbn [bind].
      destruct (copy_step 6 nx nx op F n j (nx + 1) te (je j) (ie j) (j * (nx + 2) + (nx + 1)) (ke j) _ (fun n' j' i => sides n n' j' i \/ (n' = n /\ 1 <= j' < j + 1 /\ (i = 0 \/ i = nx + 1))) d3 I3) as (d4 & E4 & I4);
        [lia|exact Ke|unfold in_frame; lia|apply own_frame, Oe|rewrite We; apply (wrap_own _ 6), Oe
        |right; split; [unfold sides; unfold own in Oe; lia|apply (wrap_own _ 6), Oe]| |].
      { intros n' j' i. assert (Q : 1 <= j' < j + 1 <-> 1 <= j' < j \/ j' = j) by lia. rewrite Q. tauto. }
      exists d4. auto.
    - rewrite E2. cbn [bind].
      destruct (ofor_inv (fun ii d => Inv 6 nx nx op F (fun n' j i => (sides n n' j i \/ west_east n n' j i) \/ (n' = n /\ 1 <= i < ii /\ (j = 0 \/ j = nx + 1))) d)
        (fun d i => do d <- copy d n i ts (ks i) ; copy d n ((nx + 1) * (nx + 2) + i) tn (kn i)) 1 nx d2) as (d3 & E3 & I3); [lia| | |].
      + revert I2. apply Inv_ext. intros n' j i _. unfold west_east. assert (Q : 1 <= j < 1 + nx <-> 1 <= j <= nx) by lia. rewrite Q. split; [auto|]. intros [?|?]; [auto|lia].
      + intros i d3 Hi I3. destruct (HS i ltac:(lia)) as (Os & Ks & Ws). destruct (HN i ltac:(lia)) as (On & Kn & Wn).
        destruct (copy_step 6 nx nx op F n 0 i ts (js i) (is_ i) i (ks i) _ (fun n' j i' => ((sides n n' j i' \/ west_east n n' j i') \/ (n' = n /\ 1 <= i' < i /\ (j = 0 \/ j = nx + 1))) \/ (n' = n /\ j = 0 /\ i' = i)) d3 I3) as (d4 & E4 & I4);
          [lia|exact Ks|unfold in_frame; lia|apply own_frame, Os|rewrite Ws; apply (wrap_own _ 6), Os
          |right; split; [unfold sides, west_east; unfold own in Os; lia|apply (wrap_own _ 6), Os]|intros; tauto|].
        rewrite E4. cbn [bind].
        destruct (copy_step 6 nx nx op F n (nx + 1) i tn (jn i) (in_ i) ((nx + 1) * (nx + 2) + i) (kn i) _ (fun n' j i' => (sides n n' j i' \/ west_east n n' j i') \/ (n' = n /\ 1 <= i' < i + 1 /\ (j = 0 \/ j = nx + 1))) d4 I4) as (d5 & E5 & I5);
          [lia|exact Kn|unfold in_frame; lia|apply own_frame, On|rewrite Wn; apply (wrap_own _ 6), On
          |right; split; [unfold sides, west_east; unfold own in On; lia|apply (wrap_own _ 6), On]| |].
        { intros n' j i'. assert (Q : 1 <= i' < i + 1 <-> 1 <= i' < i \/ i' = i) by lia. rewrite Q. tauto. }
        exists d5. auto.
      + exists d3. split; auto. revert I3. apply Inv_ext. intros n' j i _. unfold sides, west_east.
        assert (Q : n' < n + 1 <-> n' < n \/ n' = n) by lia. assert (Q2 : 1 <= i < 1 + nx <-> 1 <= i <= nx) by lia. rewrite Q, Q2. tauto.
  Qed.
End Cube.

Lemma update_halo_run {A} nt nx ny op (d : list (list A)) F : op_ok op nt nx ny -> haloed nt nx ny d F ->
  exists d', update_halo nt d nx ny op = Ok d' /\ haloed nt nx ny d' (fun c => F (wrap op nx ny c)).
Proof.
  intros (Hx & Hy & Ht & Hc & Hxc & Hyc) HF. unfold update_halo.
  assert (Hfin : forall (D : Z -> Z -> Z -> Prop) d', Inv nt nx ny op F D d' ->
     (forall n j i, in_frame nt nx ny (n, j, i) -> D n j i \/ (~ D n j i /\ wrap op nx ny (n, j, i) = (n, j, i))) ->
     haloed nt nx ny d' (fun c => F (wrap op nx ny c))).
  { intros D d' (G & HG & HD) Hcov. eapply haloed_ext; [|exact HG]. intros [[n j] i] Hf. destruct (HD n j i Hf) as [H1 H2].
    destruct (Hcov n j i Hf) as [Hd|[Hd He]]; [auto|]. rewrite He. auto. }
  assert (H0 : Inv nt nx ny op F (fun _ _ _ => False) d). { exists F. split; auto. intros n j i _. split; [easy|auto]. }
  destruct op as [xc yc cb]. cbn [x_cyclic y_cyclic cubic] in *. destruct cb.
  - destruct (Hc eq_refl) as (-> & <- & -> & ->). clear Hc Hxc Hyc Ht. cbn [bind andb].
    set (op := {| x_cyclic := false; y_cyclic := false; cubic := true |}) in *.
    assert (Hw : forall m, 0 <= m mod 6 < 6) by (intros; apply Z.mod_pos_bound; lia).
    match goal with |- context [ofor 0 6 ?f ?s0] => destruct (ofor_inv (fun m d => Inv 6 nx nx op F (sides nx m) d) f 0 6 s0) as (d' & E & HI) end; [lia| | |].
    + revert H0. apply Inv_ext. intros n j i Hf. unfold sides, in_frame in *. lia.
    + intros n d1 Hn H1. cbv beta zeta.
      destruct (Z.eqb_spec (n mod 2) 0) as [Ev|Od]; cbn [negb].
      * destruct (tile_pass nx op eq_refl F n d1 ((n + 4) mod 6) ((n + 1) mod 6) ((n + 5) mod 6) ((n + 2) mod 6)
          (fun j => nx * (nx + 2) + (nx + 1) - j) (fun j => j * (nx + 2) + 1) (fun i => nx * (nx + 2) + i) (fun i => (nx + 1 - i) * (nx + 2) + 1)
          (fun _ => nx) (fun j => nx + 1 - j) (fun j => j) (fun _ => 1) (fun _ => nx) (fun i => i) (fun i => nx + 1 - i) (fun _ => 1)) as (d' & E & HI); auto; try lia.
        -- intros j Hj. rewrite wrap_w, Ev by auto. unfold own. specialize (Hw (n + 4)). repeat split; lia.
        -- intros j Hj. rewrite wrap_e, Ev by auto. unfold own. specialize (Hw (n + 1)). repeat split; lia.
        -- intros j Hj. rewrite wrap_s, Ev by auto. unfold own. specialize (Hw (n + 5)). repeat split; lia.
        -- intros j Hj. rewrite wrap_n, Ev by auto. unfold own. specialize (Hw (n + 2)). repeat split; lia.
        -- exists d'. auto.
      * destruct (tile_pass nx op eq_refl F n d1 ((n + 5) mod 6) ((n + 2) mod 6) ((n + 4) mod 6) ((n + 1) mod 6)
          (fun j => j * (nx + 2) + nx) (fun j => nx + 2 + (nx + 1 - j)) (fun i => (nx + 1 - i) * (nx + 2) + nx) (fun i => nx + 2 + i)
          (fun j => j) (fun _ => nx) (fun _ => 1) (fun j => nx + 1 - j) (fun i => nx + 1 - i) (fun _ => nx) (fun _ => 1) (fun i => i)) as (d' & E & HI); auto; try lia.
        -- intros j Hj. rewrite wrap_w, (proj2 (Z.eqb_neq _ _) Od) by auto. unfold own. specialize (Hw (n + 5)). repeat split; lia.
        -- intros j Hj. rewrite wrap_e, (proj2 (Z.eqb_neq _ _) Od) by auto. unfold own. specialize (Hw (n + 2)). repeat split; lia.
        -- intros j Hj. rewrite wrap_s, (proj2 (Z.eqb_neq _ _) Od) by auto. unfold own. specialize (Hw (n + 4)). repeat split; lia.
        -- intros j Hj. rewrite wrap_n, (proj2 (Z.eqb_neq _ _) Od) by auto. unfold own. specialize (Hw (n + 1)). repeat split; lia.
        -- exists d'. auto.
    + exists d'. split; auto. apply (Hfin _ _ HI). intros n j i Hf. unfold in_frame in Hf. unfold sides. clear - Hf Hx.
      assert (C : (1 <= j <= nx /\ 1 <= i <= nx) \/ ((j < 1 \/ nx < j) /\ (i < 1 \/ nx < i)) \/ (1 <= j <= nx /\ (i = 0 \/ i = nx + 1)) \/ (1 <= i <= nx /\ (j = 0 \/ j = nx + 1))) by lia.
      destruct C as [[A1 A2]|[[A1 A2]|[A1|A1]]].
      * right. split; [lia|]. apply (wrap_own _ 6). unfold own. lia.
      * right. split; [lia|]. apply wrap_corner; auto.
      * left. lia.
      * left. lia.
  - clear Hc.
    assert (EX : exists d1, (if xc then ofor 1 ny (fun d j => do d <- copy d 0 (j * (nx + 2)) 0 (j * (nx + 2) + nx) ;
        copy d 0 (j * (nx + 2) + (nx + 1)) 0 (j * (nx + 2) + 1)) d else Ok d) = Ok d1 /\
        Inv nt nx ny {| x_cyclic := xc; y_cyclic := yc; cubic := false |} F (fun n j i => xc = true /\ n = 0 /\ 1 <= j <= ny /\ (i = 0 \/ i = nx + 1)) d1).
    { destruct xc. 2:{ exists d. split; auto. revert H0. apply Inv_ext. intros n j i Hf. intuition discriminate. }
      rewrite (Hxc eq_refl) in *. set (op := {| x_cyclic := true; y_cyclic := yc; cubic := false |}) in *.
      assert (Wj : forall j i, 1 <= j <= ny -> wrap op nx ny (0, j, i) = (0, j, around nx i)).
      { intros j i Hj. unfold wrap. subst op. cbn [cubic x_cyclic y_cyclic]. destruct yc; [rewrite (around_id ny j) by lia; auto|]. bool_cases. auto. }
      match goal with |- context [ofor 1 ny ?f ?s0] => destruct (ofor_inv (fun jj d => Inv 1 nx ny op F (fun n j i => n = 0 /\ 1 <= j < jj /\ (i = 0 \/ i = nx + 1)) d) f 1 ny s0) as (d2 & E2 & I2) end; try lia.
      - revert H0. apply Inv_ext. intros n j i Hf. lia.
      - intros j d2 Hj I2.
        destruct (copy_step 1 nx ny op F 0 j 0 0 j nx (j * (nx + 2)) (j * (nx + 2) + nx) _ (fun n j' i => (n = 0 /\ 1 <= j' < j /\ (i = 0 \/ i = nx + 1)) \/ (n = 0 /\ j' = j /\ i = 0)) d2 I2) as (d3 & E3 & I3); try (unfold in_frame; lia).
        { rewrite !Wj by lia. rewrite around_0, around_id by lia. auto. }
        { right. split; [lia|]. rewrite Wj, around_id by lia. auto. }
        rewrite E3. cbn [bind].
        destruct (copy_step 1 nx ny op F 0 j (nx + 1) 0 j 1 (j * (nx + 2) + (nx + 1)) (j * (nx + 2) + 1) _ (fun n j' i => n = 0 /\ 1 <= j' < j + 1 /\ (i = 0 \/ i = nx + 1)) d3 I3) as (d4 & E4 & I4); try (unfold in_frame; lia).
        { rewrite !Wj by lia. rewrite around_S, around_id by lia. auto. }
        { right. split; [lia|]. rewrite Wj, around_id by lia. auto. }
        exists d4. auto.
      - exists d2. split; auto. revert I2. apply Inv_ext. intros n j i Hf. intuition lia. }
    destruct EX as (d1 & E1 & I1). rewrite E1. cbn [bind]. clear E1 H0 HF d.
    assert (EX : exists d2, (if yc then ofor 1 ny (fun d i => do d <- copy d 0 i 0 (ny * (nx + 2) + i) ;
        copy d 0 ((ny + 1) * (nx + 2) + i) 0 (nx + 2 + i)) d1 else Ok d1) = Ok d2 /\
        Inv nt nx ny {| x_cyclic := xc; y_cyclic := yc; cubic := false |} F (fun n j i => (xc = true /\ n = 0 /\ 1 <= j <= ny /\ (i = 0 \/ i = nx + 1)) \/
           (yc = true /\ n = 0 /\ 1 <= i <= nx /\ (j = 0 \/ j = ny + 1))) d2).
    { destruct yc. 2:{ exists d1. split; auto. revert I1. apply Inv_ext. intros n j i Hf. intuition discriminate. }
      destruct (Hyc eq_refl) as [-> <-]. set (op := {| x_cyclic := xc; y_cyclic := true; cubic := false |}) in *.
      assert (Wi : forall j i, 1 <= i <= nx -> wrap op nx nx (0, j, i) = (0, around nx j, i)).
      { intros j i Hi. unfold wrap. subst op. cbn [cubic x_cyclic y_cyclic]. destruct xc; [rewrite (around_id nx i) by lia; auto|]. bool_cases. auto. }
      match goal with |- context [ofor 1 nx ?f ?s0] => destruct (ofor_inv (fun ii d => Inv 1 nx nx op F (fun n j i => (xc = true /\ n = 0 /\ 1 <= j <= nx /\ (i = 0 \/ i = nx + 1)) \/ (n = 0 /\ 1 <= i < ii /\ (j = 0 \/ j = nx + 1))) d) f 1 nx s0) as (d2 & E2 & I2) end; try lia.
      - revert I1. apply Inv_ext. intros n j i Hf. intuition lia.
      - intros i d2 Hi I2.
        destruct (copy_step 1 nx nx op F 0 0 i 0 nx i i (nx * (nx + 2) + i) _ (fun n j i' => ((xc = true /\ n = 0 /\ 1 <= j <= nx /\ (i' = 0 \/ i' = nx + 1)) \/ (n = 0 /\ 1 <= i' < i /\ (j = 0 \/ j = nx + 1))) \/ (n = 0 /\ j = 0 /\ i' = i)) d2 I2) as (d3 & E3 & I3); try (unfold in_frame; lia).
        { rewrite !Wi by lia. rewrite around_0, around_id by lia. auto. }
        { right. split; [lia|]. rewrite Wi, around_id by lia. auto. }
        rewrite E3. cbn [bind].
        destruct (copy_step 1 nx nx op F 0 (nx + 1) i 0 1 i ((nx + 1) * (nx + 2) + i) (nx + 2 + i) _ (fun n j i' => (xc = true /\ n = 0 /\ 1 <= j <= nx /\ (i' = 0 \/ i' = nx + 1)) \/ (n = 0 /\ 1 <= i' < i + 1 /\ (j = 0 \/ j = nx + 1))) d3 I3) as (d4 & E4 & I4); try (unfold in_frame; lia).
        { rewrite !Wi by lia. rewrite around_S, around_id by lia. auto. }
        { right. split; [lia|]. rewrite Wi, around_id by lia. auto. }
        exists d4. auto.
      - exists d2. split; auto. revert I2. apply Inv_ext. intros n j i Hf. intuition lia. }
    destruct EX as (d2 & E2 & I2). rewrite E2. cbn [bind]. clear E2 I1 d1. cbn [andb] in *.
    destruct (xc && yc) eqn:Exy.
    + apply andb_prop in Exy. destruct Exy as [-> ->]. destruct (Hyc eq_refl) as [-> <-].
      set (op := {| x_cyclic := true; y_cyclic := true; cubic := false |}) in *.
      assert (W : forall j i, wrap op nx nx (0, j, i) = (0, around nx j, around nx i)) by reflexivity.
      destruct (copy_step 1 nx nx op F 0 0 0 0 nx 0 0 (nx * (nx + 2)) _ (fun n j i => (n = 0 /\ 1 <= j <= nx /\ (i = 0 \/ i = nx + 1)) \/ (n = 0 /\ 1 <= i <= nx /\ (j = 0 \/ j = nx + 1)) \/ (n = 0 /\ j = 0 /\ i = 0)) d2 I2) as (d3 & E3 & I3); try (unfold in_frame; lia).
      { rewrite !W, around_0, around_id by lia. auto. }
      rewrite E3. cbn [bind].
      destruct (copy_step 1 nx nx op F 0 0 (nx + 1) 0 nx 1 (nx + 1) (nx * (nx + 2) + 1) _ (fun n j i => ((n = 0 /\ 1 <= j <= nx /\ (i = 0 \/ i = nx + 1)) \/ (n = 0 /\ 1 <= i <= nx /\ (j = 0 \/ j = nx + 1)) \/ (n = 0 /\ j = 0 /\ i = 0)) \/ (n = 0 /\ j = 0 /\ i = nx + 1)) d3 I3) as (d4 & E4 & I4); [lia|lia|unfold in_frame; lia|unfold in_frame; lia| | |intros; reflexivity|].
      { rewrite !W, around_0, around_S, !around_id by lia. auto. }
      { right. split; [lia|]. rewrite W, !around_id by lia. auto. }
      rewrite E4. cbn [bind].
      destruct (copy_step 1 nx nx op F 0 (nx + 1) (nx + 1) 0 1 1 ((nx + 1) * (nx + 2) + (nx + 1)) (nx + 2 + 1) _ (fun n j i => (((n = 0 /\ 1 <= j <= nx /\ (i = 0 \/ i = nx + 1)) \/ (n = 0 /\ 1 <= i <= nx /\ (j = 0 \/ j = nx + 1)) \/ (n = 0 /\ j = 0 /\ i = 0)) \/ (n = 0 /\ j = 0 /\ i = nx + 1)) \/ (n = 0 /\ j = nx + 1 /\ i = nx + 1)) d4 I4) as (d5 & E5 & I5); [lia|lia|unfold in_frame; lia|unfold in_frame; lia| | |intros; reflexivity|].
      { rewrite !W, !around_S, !around_id by lia. auto. }
      { right. split; [lia|]. rewrite W, !around_id by lia. auto. }
      rewrite E5. cbn [bind].
      destruct (copy_step 1 nx nx op F 0 (nx + 1) 0 0 1 nx ((nx + 1) * (nx + 2)) (nx + 2 + nx) _ (fun n j i => ((((n = 0 /\ 1 <= j <= nx /\ (i = 0 \/ i = nx + 1)) \/ (n = 0 /\ 1 <= i <= nx /\ (j = 0 \/ j = nx + 1)) \/ (n = 0 /\ j = 0 /\ i = 0)) \/ (n = 0 /\ j = 0 /\ i = nx + 1)) \/ (n = 0 /\ j = nx + 1 /\ i = nx + 1)) \/ (n = 0 /\ j = nx + 1 /\ i = 0)) d5 I5) as (d6 & E6 & I6); [lia|lia|unfold in_frame; lia|unfold in_frame; lia| | |intros; reflexivity|].
      { rewrite !W, around_S, around_0, !around_id by lia. auto. }
      { right. split; [lia|]. rewrite W, !around_id by lia. auto. }
      rewrite E6. cbn [bind]. exists d6. split; auto. apply (Hfin _ _ I6). intros n j i Hf. unfold in_frame in Hf.
      assert (Dc : (1 <= j <= nx /\ 1 <= i <= nx) \/ (j = 0 \/ j = nx + 1 \/ i = 0 \/ i = nx + 1)) by lia. destruct Dc as [Dc|Dc]; [|left; clear - Dc Hf; lia].
      right. split; [lia|]. replace n with 0 by lia. rewrite W, !around_id by lia. auto.
    + cbn [bind]. exists d2. split; auto. apply (Hfin _ _ I2). intros n j i Hf. unfold in_frame in Hf.
      destruct xc, yc; try discriminate; cbn [x_cyclic y_cyclic cubic] in *.
      * rewrite (Hxc eq_refl) in Hf. destruct (Z_le_dec 1 j), (Z_le_dec j ny).
        2,3,4: right; split; [lia|]; unfold wrap; cbn [cubic x_cyclic y_cyclic]; bool_cases; auto.
        destruct (Z.eq_dec i 0); [left; left; repeat split; auto; lia|]. destruct (Z.eq_dec i (nx + 1)); [left; left; repeat split; auto; lia|].
        right. split; [intros [H|H]; lia|]. unfold wrap; cbn [cubic x_cyclic y_cyclic]. bool_cases. rewrite around_id by lia. auto.
      * destruct (Hyc eq_refl) as [-> <-]. destruct (Z_le_dec 1 i), (Z_le_dec i nx).
        2,3,4: right; split; [intros [H|H]; lia|]; unfold wrap; cbn [cubic x_cyclic y_cyclic]; bool_cases; auto.
        destruct (Z.eq_dec j 0); [left; right; repeat split; auto; lia|]. destruct (Z.eq_dec j (nx + 1)); [left; right; repeat split; auto; lia|].
        right. split; [intros [H|H]; lia|]. unfold wrap; cbn [cubic x_cyclic y_cyclic]. bool_cases. rewrite around_id by lia. auto.
      * right. split; [intros [[H _]|[H _]]; discriminate|]. reflexivity.
Qed.
