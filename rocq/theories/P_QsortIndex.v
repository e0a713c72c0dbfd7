(** * Proofs about qsort_index *)
From Coq Require Import Reals Lra.
From Verif Require Import Base Loops Vec M_Interp Spec_Interp P_Interp P_Interp2 M_QsortIndex Spec_Sort.
Open Scope Z_scope.

Lemma rearr_id s e : rearranges s e (fun i => i).
Proof. split; auto. exists (fun i => i). auto. Qed.
Lemma rearr_comp s e f f' : rearranges s e f -> rearranges s e f' -> rearranges s e (fun i => f (f' i)).
Proof.
  intros [H (g & G)] [H' (g' & G')]. split.
  - intros i Hi. rewrite (H' i Hi). auto.
  - exists (fun i => g' (g i)). intros i. destruct (G (f' i)), (G i), (G' i), (G' (g i)). split; congruence.
Qed.
Lemma rearr_wide s e s' e' f : s' <= s -> e <= e' -> rearranges s e f -> rearranges s' e' f.
Proof. intros A B [H G]. split; auto. intros i Hi. apply H. lia. Qed.
Lemma rearr_in s e f i : rearranges s e f -> s <= i <= e -> s <= f i <= e.
Proof.
  intros [H (g & G)] Hi. destruct (Z_le_dec s (f i)), (Z_le_dec (f i) e); try lia; exfalso;
  (assert (E : f (f i) = f i) by (apply H; lia); apply (f_equal g) in E; rewrite !(proj1 (G _)) in E; lia).
Qed.
Definition tr (p q i : Z) := if i =? p then q else if i =? q then p else i.
Lemma tr_tr p q i : tr p q (tr p q i) = i.
Proof. unfold tr. destruct (Z.eqb_spec i p); [|destruct (Z.eqb_spec i q)]; repeat match goal with |- context [?a =? ?b] => destruct (Z.eqb_spec a b) end; lia. Qed.
Lemma rearr_tr s e p q : s <= p <= e -> s <= q <= e -> rearranges s e (tr p q).
Proof.
  intros Hp Hq. split.
  - intros i Hi. unfold tr. destruct (Z.eqb_spec i p), (Z.eqb_spec i q); lia.
  - exists (tr p q). intros i. split; apply tr_tr.
Qed.

Lemma swap_run {A} (x : list A) p q : 0 <= p < zlen x -> 0 <= q < zlen x ->
  exists x', swap x p q = Ok x' /\ zlen x' = zlen x /\ forall i, zget x' i = zget x (tr p q i).
Proof.
  intros Hp Hq. unfold swap. destruct (zget_in_range x p Hp) as [a Ea]. destruct (zget_in_range x q Hq) as [b Eb].
  rewrite (proj2 (oget_Ok _ _ _) Ea), (proj2 (oget_Ok _ _ _) Eb). cbn [bind].
  destruct (zset_Some x p b Hp) as [x1 S1]. rewrite (proj2 (oset_Ok _ _ _ _) S1). cbn [bind].
  assert (L1 := zset_len _ _ _ _ S1). destruct (zset_Some x1 q a ltac:(lia)) as [x2 S2]. rewrite (proj2 (oset_Ok _ _ _ _) S2).
  exists x2. split; auto. split. { rewrite (zset_len _ _ _ _ S2). auto. }
  intros i. unfold tr. destruct (Z.eq_dec i q) as [->|Nq].
  - rewrite (zget_zset_eq _ _ _ _ S2). destruct (Z.eqb_spec q p) as [->|]; [congruence|]. rewrite Z.eqb_refl. auto.
  - rewrite (zget_zset_ne _ _ _ _ _ S2) by auto. destruct (Z.eqb_spec i p) as [->|Np].
    + rewrite (zget_zset_eq _ _ _ _ S1). auto.
    + rewrite (zget_zset_ne _ _ _ _ _ S1) by auto. destruct (Z.eqb_spec i q); [lia|auto].
Qed.

(** Same contents up to a rearrangement of positions s..e, done to both arrays *)
Definition shuf (s e : Z) (a : list R) (k : list Z) (a' : list R) (k' : list Z) : Prop :=
  zlen a' = zlen a /\ zlen k' = zlen k /\ exists f, rearranges s e f /\ forall i, zget a' i = zget a (f i) /\ zget k' i = zget k (f i).
Lemma shuf_id s e a k : shuf s e a k a k.
Proof. repeat split. exists (fun i => i). split; auto. apply rearr_id. Qed.
Lemma shuf_trans s e a k a' k' a'' k'' : shuf s e a k a' k' -> shuf s e a' k' a'' k'' -> shuf s e a k a'' k''.
Proof.
  intros (L1 & L2 & f & Hf & E) (L1' & L2' & f' & Hf' & E'). split; [congruence|]. split; [congruence|].
  exists (fun i => f (f' i)). split; [apply rearr_comp; auto|]. intros i. destruct (E' i) as [-> ->]. apply E.
Qed.
Lemma shuf_wide s e s' e' a k a' k' : s' <= s -> e <= e' -> shuf s e a k a' k' -> shuf s' e' a k a' k'.
Proof. intros A B (L1 & L2 & f & Hf & E). split; auto. split; auto. exists f. split; auto. eapply rearr_wide; eauto. Qed.
Lemma zget_at a b i j : zget a i = zget b j -> 0 <= i < zlen a -> at_ a i = at_ b j.
Proof. intros E Hi. destruct (zget_in_range a i Hi) as [x Ex]. rewrite (at_zget _ _ _ Ex). symmetry. apply at_zget. congruence. Qed.
Lemma shuf_in s e a k a' k' i : shuf s e a k a' k' -> 0 <= s -> e < zlen a -> s <= i <= e -> exists j, s <= j <= e /\ at_ a' i = at_ a j.
Proof.
  intros (L1 & L2 & f & Hf & E) Hs He Hi. exists (f i). assert (s <= f i <= e) by (eapply rearr_in; eauto). split; auto.
  apply zget_at; [apply E|]. lia.
Qed.
Lemma shuf_out s e a k a' k' i : shuf s e a k a' k' -> 0 <= i < zlen a -> ~ (s <= i <= e) -> at_ a' i = at_ a i.
Proof. intros (L1 & L2 & f & Hf & E) Hi Ho. rewrite <- (proj1 Hf i Ho) at 2. apply zget_at; [apply E|]. lia. Qed.

Lemma swap_both s e a k p q : 0 <= s -> e < zlen a -> e < zlen k -> s <= p <= e -> s <= q <= e ->
  exists a' k', swap a p q = Ok a' /\ swap k p q = Ok k' /\ shuf s e a k a' k' /\
    (forall i, 0 <= i < zlen a -> at_ a' i = at_ a (tr p q i)).
Proof.
  intros Hs Ha Hk Hp Hq. destruct (swap_run a p q) as (a' & E1 & L1 & G1); [lia|lia|].
  destruct (swap_run k p q) as (k' & E2 & L2 & G2); [lia|lia|]. exists a', k'. split; auto. split; auto. split.
  - split; auto. split; auto. exists (tr p q). split; auto. apply rearr_tr; auto.
  - intros i Hi. apply zget_at; auto. lia.
Qed.

Lemma qi_down_run fuel a pivot l r : 0 <= l <= r -> r < zlen a -> r - l <= Z.of_nat fuel ->
  exists r', qi_down fuel a pivot l r = Ok r' /\ l <= r' <= r /\ (forall i, r' < i <= r -> (pivot <= at_ a i)%R) /\ (r' = l \/ (at_ a r' < pivot)%R).
Proof.
  revert r. induction fuel as [|fuel IH]; intros r Hl Hr Hf; cbn [qi_down].
  - destruct (Z.ltb_spec l r); [lia|]. exists r. repeat split; auto; try lia.
  - destruct (Z.ltb_spec l r) as [Hlt|]; [|exists r; repeat split; auto; try lia].
    rewrite (vec_get _ _ _ _ (vec_self a _ eq_refl)) by lia. cbn [bind]. destruct (rle_spec pivot (at_ a r)) as [Hge|Hlt'].
    + destruct (IH (r - 1)) as (r' & E & Hr' & Hi & Hx); [lia|lia|lia|]. exists r'. repeat split; auto; try lia.
      intros i Hi'. destruct (Z.eq_dec i r) as [->|]; auto. apply Hi. lia.
    + exists r. split; auto. split; [lia|]. split; [intros; lia|]. right. lra.
Qed.

Lemma qi_part_run fuel : forall a k pivot s e l r, 0 <= s -> e < zlen a -> e < zlen k -> s < l -> l <= r -> r <= e ->
  2 * (r - l) + (if rle (at_ a l) pivot then 0 else 1) <= Z.of_nat fuel ->
  (forall i, s < i < l -> (at_ a i <= pivot)%R) -> (forall i, r < i <= e -> (pivot <= at_ a i)%R) -> (r = e \/ (pivot < at_ a r)%R) ->
  exists a' k' m, qi_part fuel a k pivot l r = Ok (a', k', m, m) /\ shuf (s + 1) e a k a' k' /\ s < m <= e /\
    (forall i, s < i < m -> (at_ a' i <= pivot)%R) /\ (forall i, m < i <= e -> (pivot <= at_ a' i)%R) /\ (m = e \/ (pivot < at_ a' m)%R).
Proof.
  induction fuel as [|fuel IH]; intros a k pivot s e l r Hs Ha Hk Hsl Hlr Hre Hf Hlo Hhi Hr; cbn [qi_part].
  - destruct (Z.ltb_spec l r) as [Hlt|]; [destruct (rle (at_ a l) pivot); lia|]. assert (l = r) by lia. subst r.
    exists a, k, l. repeat split; auto; try lia. exists (fun i => i). split; auto. apply rearr_id.
  - destruct (Z.ltb_spec l r) as [Hlt|].
    2:{ assert (l = r) by lia. subst r. exists a, k, l. repeat split; auto; try lia. exists (fun i => i). split; auto. apply rearr_id. }
    rewrite (vec_get _ _ _ _ (vec_self a _ eq_refl)) by lia. cbn [bind]. destruct (rle_spec (at_ a l) pivot) as [Hle|Hgt].
    + apply IH; auto; try lia.
      * destruct (rle (at_ a (l + 1)) pivot); lia.
      * intros i Hi. destruct (Z.eq_dec i l) as [->|]; auto. apply Hlo. lia.
    + destruct (qi_down_run (Z.to_nat (r - l)) a pivot l r) as (r' & E & Hr' & Hup & Hx); [lia|lia|lia|]. rewrite E. cbn [bind].
      destruct (swap_both (s + 1) e a k l r') as (a1 & k1 & E1 & E2 & Sh & At); try lia. rewrite E1, E2. cbn [bind].
      assert (La : zlen a1 = zlen a) by apply Sh. assert (Lk : zlen k1 = zlen k) by apply Sh.
      destruct (IH a1 k1 pivot s e l r') as (a' & k' & m & EQ & Sh' & Hm & A & B & C); auto; try lia.
      * rewrite At by lia. unfold tr. rewrite Z.eqb_refl. destruct Hx as [->|Hx].
        -- destruct (rle (at_ a l) pivot); lia.
        -- destruct (rle_spec (at_ a r') pivot); [lia|lra].
      * intros i Hi. rewrite At by lia. unfold tr. destruct (Z.eqb_spec i l), (Z.eqb_spec i r'); try lia. apply Hlo. lia.
      * intros i Hi. rewrite At by lia. unfold tr. destruct (Z.eqb_spec i l), (Z.eqb_spec i r'); try lia.
        destruct (Z_le_dec i r); [apply Hup; lia|apply Hhi; lia].
      * right. rewrite At by lia. unfold tr. destruct (Z.eqb_spec r' l) as [->|]; [lra|]. rewrite Z.eqb_refl. lra.
      * exists a', k', m. repeat split; auto; try lia; try apply (shuf_trans _ _ _ _ _ _ _ _ Sh Sh').
Qed.

Lemma qsort_run fuel : forall a k s e, 0 <= s -> e < zlen a -> e < zlen k -> e - s <= Z.of_nat fuel ->
  exists a' k', qsort_index fuel a s e k = Ok (a', k') /\ shuf s e a k a' k' /\ sorted_on s e a'.
Proof.
  induction fuel as [|fuel IH]; intros a k s e Hs Ha Hk Hf; cbn [qsort_index].
  - destruct (Z.gtb_spec e s); [lia|]. exists a, k. split; auto. split; [apply shuf_id|]. intros i j ? ? ?. replace i with j by lia. lra.
  - destruct (Z.gtb_spec e s) as [Hlt|].
    2:{ exists a, k. split; auto. split; [apply shuf_id|]. intros i j ? ? ?. replace i with j by lia. lra. }
    set (pi := s + (e - s) / 2). assert (Hpi : s <= pi <= e). { unfold pi. pose proof (Z.div_pos (e - s) 2). assert ((e - s) / 2 <= e - s) by (apply Z.div_le_upper_bound; lia). lia. }
    destruct (swap_both s e a k s pi) as (a1 & k1 & E1 & E2 & Sh1 & At1); try lia. rewrite E1, E2. cbn [bind].
    assert (La1 : zlen a1 = zlen a) by apply Sh1. assert (Lk1 : zlen k1 = zlen k) by apply Sh1.
    rewrite (vec_get _ _ _ _ (vec_self a1 _ eq_refl)) by lia. cbn [bind]. set (pivot := at_ a1 s).
    destruct (qi_part_run (Z.to_nat (2 * (e - s) + 1)) a1 k1 pivot s e (s + 1) e) as (a2 & k2 & m & EP & Sh2 & Hm & A & B & C); try lia; auto.
    { destruct (rle (at_ a1 (s + 1)) pivot); lia. }
    rewrite EP. cbn [bind].
    assert (La2 : zlen a2 = zlen a) by (rewrite <- La1; apply Sh2). assert (Lk2 : zlen k2 = zlen k) by (rewrite <- Lk1; apply Sh2).
    assert (Hps : at_ a2 s = pivot). { apply (shuf_out _ _ _ _ _ _ s Sh2); lia. }
    rewrite (vec_get _ _ _ _ (vec_self a2 _ eq_refl)) by lia. cbn [bind].
    destruct (negb (m =? e) || rlt pivot (at_ a2 e)) eqn:Hc.
    + assert (Hmp : (pivot < at_ a2 m)%R). { destruct C as [->|C]; auto. rewrite Z.eqb_refl in Hc. cbn in Hc. destruct (rlt_spec pivot (at_ a2 e)); [auto|easy]. }
      destruct (swap_both s e a2 k2 s (m - 1)) as (a3 & k3 & E3 & E4 & Sh3 & At3); try lia. rewrite E3, E4. cbn [bind].
      assert (La3 : zlen a3 = zlen a) by (rewrite <- La2; apply Sh3). assert (Lk3 : zlen k3 = zlen k) by (rewrite <- Lk2; apply Sh3).
      assert (Hlo : forall i, s <= i <= m - 1 -> (at_ a3 i <= pivot)%R).
      { intros i Hi. rewrite At3 by lia. unfold tr. destruct (Z.eqb_spec i s), (Z.eqb_spec i (m - 1)).
        - destruct (Z.eq_dec (m - 1) s) as [->|]; [rewrite Hps; lra|apply A; lia].
        - destruct (Z.eq_dec (m - 1) s) as [->|]; [rewrite Hps; lra|apply A; lia].
        - rewrite Hps. lra.
        - apply A. lia. }
      assert (Hhi : forall i, m <= i <= e -> (pivot <= at_ a3 i)%R).
      { intros i Hi. rewrite At3 by lia. unfold tr. destruct (Z.eqb_spec i s), (Z.eqb_spec i (m - 1)); try lia.
        destruct (Z.eq_dec i m) as [->|]; [lra|]. apply B. lia. }
      destruct (IH a3 k3 s (m - 1)) as (a4 & k4 & E5 & Sh4 & So4); try lia. rewrite E5. cbn [bind].
      assert (La4 : zlen a4 = zlen a) by (rewrite <- La3; apply Sh4). assert (Lk4 : zlen k4 = zlen k) by (rewrite <- Lk3; apply Sh4).
      destruct (IH a4 k4 m e) as (a5 & k5 & E6 & Sh5 & So5); try lia.
      exists a5, k5. split; auto. split.
      * eapply shuf_trans; [exact Sh1|]. eapply shuf_trans; [eapply shuf_wide; [| |exact Sh2]; lia|].
        eapply shuf_trans; [exact Sh3|]. eapply shuf_trans; [eapply shuf_wide; [| |exact Sh4]; lia|]. eapply shuf_wide; [| |exact Sh5]; lia.
      * intros i j H1 H2 H3. destruct (Z_lt_le_dec j m) as [Hj|Hj].
        -- rewrite !(shuf_out _ _ _ _ _ _ _ Sh5) by lia. apply So4; lia.
        -- destruct (Z_lt_le_dec i m) as [Hi|Hi]; [|apply So5; lia].
           rewrite (shuf_out _ _ _ _ _ _ i Sh5) by lia.
           destruct (shuf_in _ _ _ _ _ _ i Sh4) as (i' & Hi' & ->); try lia.
           destruct (shuf_in _ _ _ _ _ _ j Sh5) as (j' & Hj' & ->); try lia.
           rewrite (shuf_out _ _ _ _ _ _ j' Sh4) by lia. apply Rle_trans with pivot; [apply Hlo; lia|apply Hhi; lia].
    + apply orb_false_elim in Hc. destruct Hc as [Hc1 Hc2]. destruct (Z.eqb_spec m e) as [->|]; [|easy].
      assert (Hmp : (at_ a2 e <= pivot)%R). { destruct (rlt_spec pivot (at_ a2 e)); [easy|lra]. }
      destruct (swap_both s e a2 k2 s e) as (a3 & k3 & E3 & E4 & Sh3 & At3); try lia. rewrite E3, E4. cbn [bind].
      assert (La3 : zlen a3 = zlen a) by (rewrite <- La2; apply Sh3). assert (Lk3 : zlen k3 = zlen k) by (rewrite <- Lk2; apply Sh3).
      destruct (IH a3 k3 s (e - 1)) as (a4 & k4 & E5 & Sh4 & So4); try lia.
      exists a4, k4. split; auto. split.
      * eapply shuf_trans; [exact Sh1|]. eapply shuf_trans; [eapply shuf_wide; [| |exact Sh2]; lia|].
        eapply shuf_trans; [exact Sh3|]. eapply shuf_wide; [| |exact Sh4]; lia.
      * intros i j H1 H2 H3. destruct (Z.eq_dec j e) as [->|]; [|apply So4; lia].
        destruct (Z.eq_dec i e) as [->|]; [lra|].
        rewrite (shuf_out _ _ _ _ _ _ e Sh4) by lia. destruct (shuf_in _ _ _ _ _ _ i Sh4) as (i' & Hi' & ->); try lia.
        rewrite !At3 by lia. unfold tr. rewrite Z.eqb_refl. destruct (Z.eqb_spec e s); [lia|]. destruct (Z.eqb_spec i' s), (Z.eqb_spec i' e); try lia.
        -- rewrite Hps. auto.
        -- rewrite Hps. apply A. lia.
Qed.
