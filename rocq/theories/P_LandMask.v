From Coq Require Import ZArith List Bool Lia.
From Verif Require Import Base Loops Grid2 M_Extent M_CheckMask P_CheckMask2 P_GridHalo M_LandMask Spec_LandMask.
Import ListNotations.
Open Scope Z_scope.

(** ** Storing into an array of arrays *)
Section Good2.
Context {A : Type} (G : Z -> Z -> A) (N L : Z).
Definition good2 (P : Z -> Z -> Prop) (d : list (list A)) : Prop :=
  zlen d = N /\ forall t, 0 <= t < N -> exists a, zget d t = Some a /\ good (G t) L (P t) a.

Lemma get2_good P d t x : good2 P d -> 0 <= t < N -> P t x -> get2 d t x = Ok (G t x).
Proof. intros [_ H] Ht Hx. destruct (H t Ht) as (a & E & _ & K). unfold get2. rewrite (proj2 (oget_Ok _ _ _) E). cbn [bind]. apply oget_Ok. auto. Qed.

Lemma good2_store P d t y v : good2 P d -> 0 <= t < N -> 0 <= y < L -> v = G t y ->
  exists d', set2 d t y v = Ok d' /\ good2 (fun t' x => P t' x \/ t' = t /\ x = y) d'.
Proof.
  intros [HL H] Ht Hy Hv. destruct (H t Ht) as (a & E & Ka). unfold set2. rewrite (proj2 (oget_Ok _ _ _) E). cbn [bind].
  destruct (good_store _ _ _ _ _ _ Ka Hy Hv) as (a' & -> & Ka'). cbn [bind].
  destruct (zset_Some d t a' ltac:(lia)) as [d' Ed]. exists d'. split; [now apply oset_Ok|]. split; [now rewrite (zset_len _ _ _ _ Ed)|].
  intros t' Ht'. destruct (Z.eq_dec t t') as [<-|Nt].
  - exists a'. split; [exact (zget_zset_eq _ _ _ _ Ed)|]. eapply good_weaken; [exact Ka'|]. cbv beta. tauto.
  - rewrite (zget_zset_ne _ _ _ _ _ Ed Nt). destruct (H t' Ht') as (b & Eb & Kb). exists b. split; auto. eapply good_weaken; [exact Kb|]. cbv beta. intros x [K|[-> _]]; [auto|congruence].
Qed.

Lemma good2_weaken (P P' : Z -> Z -> Prop) d : good2 P d -> (forall t x, P' t x -> P t x) -> good2 P' d.
Proof. intros [HL H] I. split; auto. intros t Ht. destruct (H t Ht) as (a & E & K). exists a. split; auto. eapply good_weaken; [exact K|auto]. Qed.

Lemma good2_loop P Q lo n body d : 0 <= n -> good2 P d ->
  (forall k d' (P' : Z -> Z -> Prop), lo <= k < lo + n -> (forall t x, P t x -> P' t x) -> good2 P' d' -> exists d'', body d' k = Ok d'' /\ good2 (fun t x => P' t x \/ Q k t x) d'') ->
  exists d', ofor lo n body d = Ok d' /\ good2 (fun t x => P t x \/ exists k, lo <= k < lo + n /\ Q k t x) d'.
Proof.
  intros Hn H S.
  destruct (ofor_inv (fun m d' => good2 (fun t x => P t x \/ exists k, lo <= k < m /\ Q k t x) d') body lo n d Hn) as (d' & E & K).
  - eapply good2_weaken; [exact H|]. intros t x [Hx|(k & Hk & _)]; [auto|lia].
  - intros k d' Hk K. destruct (S k d' (fun t x => P t x \/ exists m, lo <= m < k /\ Q m t x) Hk (fun t x K0 => or_introl K0) K) as (d'' & E & K'). exists d''. split; auto. eapply good2_weaken; [exact K'|].
    cbv beta. intros t x [Hx|(m & Hm & Hq)]; auto. destruct (Z.eq_dec m k) as [->|Nm]; auto. left. right. exists m. split; auto. lia.
  - exists d'. auto.
Qed.
End Good2.

(** ** The halo *)
Section Halo.
Context {A : Type} (none : A) (n : Z) (f : Z -> Z -> Z -> A).
Hypothesis Hn : 1 <= n.
Let W := n + 2.

(** The field with its halo at the end, by tile, row and column. *)
Definition haloed (t j i : Z) : A :=
  let odd := Z.rem t 2 =? 1 in
  let inj := (1 <=? j) && (j <=? n) in let ini := (1 <=? i) && (i <=? n) in
  if inj && ini then f t (j - 1) (i - 1)
  else if inj && (i =? 0) then if odd then f (Z.rem (t + 5) 6) (j - 1) (n - 1) else f (Z.rem (t + 4) 6) (n - 1) (n - j)
  else if inj && (i =? n + 1) then if odd then f (Z.rem (t + 2) 6) 0 (n - j) else f (Z.rem (t + 1) 6) (j - 1) 0
  else if ini && (j =? 0) then if odd then f (Z.rem (t + 4) 6) (n - i) (n - 1) else f (Z.rem (t + 5) 6) (n - 1) (i - 1)
  else if ini && (j =? n + 1) then if odd then f (Z.rem (t + 1) 6) 0 (i - 1) else f (Z.rem (t + 2) 6) (n - i) 0
  else none.
Definition place_val (t x : Z) : A := haloed t (x / W) (x mod W).

Lemma H_in t j i : 1 <= j <= n -> 1 <= i <= n -> haloed t j i = f t (j - 1) (i - 1).
Proof. intros Kj Ki. unfold haloed. rewrite (proj2 (Z.leb_le 1 j)), (proj2 (Z.leb_le j n)), (proj2 (Z.leb_le 1 i)), (proj2 (Z.leb_le i n)) by lia. reflexivity. Qed.
Lemma H_w t j : 1 <= j <= n -> haloed t j 0 = if Z.rem t 2 =? 1 then f (Z.rem (t + 5) 6) (j - 1) (n - 1) else f (Z.rem (t + 4) 6) (n - 1) (n - j).
Proof. intros Kj. unfold haloed. rewrite (proj2 (Z.leb_le 1 j)), (proj2 (Z.leb_le j n)) by lia. reflexivity. Qed.
Lemma H_e t j : 1 <= j <= n -> haloed t j (n + 1) = if Z.rem t 2 =? 1 then f (Z.rem (t + 2) 6) 0 (n - j) else f (Z.rem (t + 1) 6) (j - 1) 0.
Proof.
  intros Kj. unfold haloed. rewrite (proj2 (Z.leb_le 1 j)), (proj2 (Z.leb_le j n)), (proj2 (Z.leb_gt (n + 1) n)), Z.eqb_refl by lia.
  rewrite (proj2 (Z.eqb_neq (n + 1) 0)) by lia. cbn [andb]. rewrite andb_false_r. reflexivity.
Qed.
Lemma H_s t i : 1 <= i <= n -> haloed t 0 i = if Z.rem t 2 =? 1 then f (Z.rem (t + 4) 6) (n - i) (n - 1) else f (Z.rem (t + 5) 6) (n - 1) (i - 1).
Proof. intros Ki. unfold haloed. rewrite (proj2 (Z.leb_le 1 i)), (proj2 (Z.leb_le i n)) by lia. reflexivity. Qed.
Lemma H_n t i : 1 <= i <= n -> haloed t (n + 1) i = if Z.rem t 2 =? 1 then f (Z.rem (t + 1) 6) 0 (i - 1) else f (Z.rem (t + 2) 6) (n - i) 0.
Proof.
  intros Ki. unfold haloed. rewrite (proj2 (Z.leb_le 1 i)), (proj2 (Z.leb_le i n)), (proj2 (Z.leb_gt (n + 1) n)), Z.eqb_refl by lia.
  rewrite (proj2 (Z.eqb_neq (n + 1) 0)) by lia. rewrite andb_false_r. reflexivity.
Qed.
Lemma H_corner t j i : j = 0 \/ j = n + 1 -> i = 0 \/ i = n + 1 -> haloed t j i = none.
Proof.
  intros Kj Ki. unfold haloed.
  replace ((1 <=? j) && (j <=? n)) with false. 2:{ symmetry. apply andb_false_iff. rewrite !Z.leb_gt. lia. }
  replace ((1 <=? i) && (i <=? n)) with false. 2:{ symmetry. apply andb_false_iff. rewrite !Z.leb_gt. lia. }
  reflexivity.
Qed.
Lemma place_at t j i : 0 <= i < W -> place_val t (j * W + i) = haloed t j i.
Proof. intros H. unfold place_val. now rewrite rowmajor_div, rowmajor_mod by auto. Qed.

Definition gd := good2 place_val 6 (W * W).
(** The places known from the start. *)
Definition known0 (t x : Z) : Prop := exists j i, x = j * W + i /\ ((1 <= j <= n /\ 1 <= i <= n) \/ ((j = 0 \/ j = n + 1) /\ (i = 0 \/ i = n + 1))).

Lemma copy_cell P d t t' y x j i j' i' : gd P d -> (forall t x, known0 t x -> P t x) -> 0 <= t < 6 -> 0 <= t' < 6 ->
  y = j * W + i -> x = j' * W + i' -> 0 <= j < W -> 0 <= i < W -> 1 <= j' <= n -> 1 <= i' <= n -> haloed t j i = f t' (j' - 1) (i' - 1) ->
  exists v, get2 d t' x = Ok v /\ exists d', set2 d t y v = Ok d' /\ gd (fun u z => P u z \/ u = t /\ z = y) d'.
Proof.
  intros Hd HP Ht Ht' -> -> Kj Ki Kj' Ki' E.
  assert (K : known0 t' (j' * W + i')) by (exists j', i'; split; auto).
  exists (place_val t' (j' * W + i')). split; [exact (get2_good _ _ _ _ _ _ _ Hd Ht' (HP _ _ K))|].
  apply good2_store; auto; [exact (rowmajor_range W W j i Kj Ki)|].
  unfold W in *. rewrite !place_at by lia. rewrite H_in by lia. auto.
Qed.

Lemma rem_range c : 0 <= c -> 0 <= Z.rem c 6 < 6.
Proof. intros H. rewrite Z.rem_mod_nonneg by lia. apply Z.mod_pos_bound. lia. Qed.
Lemma rem_over c : 0 <= c -> Z.rem (c + 6) 6 = Z.rem c 6.
Proof. intros H. rewrite !Z.rem_mod_nonneg by lia. replace (c + 6) with (c + 1 * 6) by lia. apply Z_mod_plus_full. Qed.
Lemma rem2 t : 0 <= t -> (Z.rem t 2 =? 1) = negb (Z.rem t 2 =? 0).
Proof. intros H. rewrite Z.rem_mod_nonneg by lia. pose proof (Z.mod_pos_bound t 2 ltac:(lia)). destruct (Z.eqb_spec (t mod 2) 1); destruct (Z.eqb_spec (t mod 2) 0); auto; lia. Qed.

Definition edge_place (t : Z) (u x : Z) : Prop := u = t /\ exists k, 1 <= k < 1 + n /\ (x = k * W \/ x = k * W + n + 1 \/ x = k \/ x = (n + 1) * W + k).

(** Two stores from the interior of two tiles, repeated along two opposite sides. *)
Lemma side_loop P d t ta tb (ya yb xa xb : Z -> Z) :
  gd P d -> (forall u x, known0 u x -> P u x) -> 0 <= t < 6 -> 0 <= ta < 6 -> 0 <= tb < 6 ->
  (forall k, 1 <= k <= n -> exists j i j' i', ya k = j * W + i /\ xa k = j' * W + i' /\ 0 <= j < W /\ 0 <= i < W /\ 1 <= j' <= n /\ 1 <= i' <= n /\ haloed t j i = f ta (j' - 1) (i' - 1)) ->
  (forall k, 1 <= k <= n -> exists j i j' i', yb k = j * W + i /\ xb k = j' * W + i' /\ 0 <= j < W /\ 0 <= i < W /\ 1 <= j' <= n /\ 1 <= i' <= n /\ haloed t j i = f tb (j' - 1) (i' - 1)) ->
  exists d', ofor 1 n (fun d k => do v <- get2 d ta (xa k) ; do d <- set2 d t (ya k) v ; do v <- get2 d tb (xb k) ; set2 d t (yb k) v) d = Ok d'
  /\ gd (fun u x => P u x \/ exists k, 1 <= k < 1 + n /\ u = t /\ (x = ya k \/ x = yb k)) d'.
Proof.
  intros Hd HP Ht Hta Htb SA SB.
  apply (good2_loop place_val 6 (W * W) P (fun k u x => u = t /\ (x = ya k \/ x = yb k))); auto; [lia|].
  intros k d1 P' Hk HP' Hd1.
  destruct (SA k ltac:(lia)) as (j & i & j' & i' & E1 & E2 & B1 & B2 & B3 & B4 & B5).
  destruct (copy_cell P' d1 t ta (ya k) (xa k) j i j' i' Hd1 ltac:(auto) Ht Hta E1 E2 B1 B2 B3 B4 B5) as (v & -> & d2 & Es & Hd2). cbn [bind]. rewrite Es. cbn [bind].
  clear j i j' i' E1 E2 B1 B2 B3 B4 B5.
  destruct (SB k ltac:(lia)) as (j & i & j' & i' & E1 & E2 & B1 & B2 & B3 & B4 & B5).
  destruct (copy_cell _ d2 t tb (yb k) (xb k) j i j' i' Hd2 (fun u x K => or_introl (HP' _ _ (HP _ _ K))) Ht Htb E1 E2 B1 B2 B3 B4 B5) as (v' & -> & d3 & Es' & Hd3). cbn [bind].
  exists d3. split; auto. eapply good2_weaken; [exact Hd3|]. cbv beta. intros u x [K|[-> [->| ->]]]; auto.
Qed.

Lemma update_ok d : gd known0 d -> exists d', update_cubic_halo 6 n n d = Ok d' /\ gd (fun t x => 0 <= t < 6 /\ 0 <= x < W * W) d'.
Proof.
  intros Hd. unfold update_cubic_halo. fold W.
  match goal with |- context [ofor 0 6 ?b ?s] => destruct (good2_loop place_val 6 (W * W) known0 (fun t u x => edge_place t u x) 0 6 b s) as (d' & E & K) end; [lia|exact Hd| |].
  - intros t d1 P1 Ht HP1 Hd1. cbv beta.
    replace (t + 6 - 2) with (t + 4) by lia. replace (t + 6 - 1) with (t + 5) by lia.
    pose proof (rem_range (t + 4) ltac:(lia)) as R4. pose proof (rem_range (t + 5) ltac:(lia)) as R5.
    pose proof (rem_range (t + 1) ltac:(lia)) as R1. pose proof (rem_range (t + 2) ltac:(lia)) as R2.
    pose proof (rem2 t ltac:(lia)) as RO.
    destruct (Z.rem t 2 =? 0); cbn [negb] in RO.
    + destruct (side_loop P1 d1 t (Z.rem (t + 4) 6) (Z.rem (t + 1) 6) (fun k => k * W) (fun k => k * W + n + 1) (fun k => n * W + n + 1 - k) (fun k => k * W + 1) Hd1 HP1 ltac:(lia) R4 R1) as (d2 & -> & Hd2).
      { intros k Hk. exists k, 0, n, (n + 1 - k). repeat (split; [unfold W in *; lia|]). rewrite H_w, RO by lia. f_equal; lia. }
      { intros k Hk. exists k, (n + 1), k, 1. repeat (split; [unfold W in *; lia|]). rewrite H_e, RO by lia. f_equal; lia. }
      cbn [bind].
      match type of Hd2 with gd ?P2 _ => destruct (side_loop P2 d2 t (Z.rem (t + 5) 6) (Z.rem (t + 2) 6) (fun k => k) (fun k => (n + 1) * W + k) (fun k => n * W + k) (fun k => (n + 1 - k) * W + 1) Hd2 (fun u x K => or_introl (HP1 _ _ K)) ltac:(lia) R5 R2) as (d3 & E3 & Hd3) end.
      { intros k Hk. exists 0, k, n, k. repeat (split; [unfold W in *; lia|]). rewrite H_s, RO by lia. f_equal; lia. }
      { intros k Hk. exists (n + 1), k, (n + 1 - k), 1. repeat (split; [unfold W in *; lia|]). rewrite H_n, RO by lia. f_equal; lia. }
      exists d3. split; [exact E3|]. eapply good2_weaken; [exact Hd3|]. cbv beta. intros u x [K|(-> & k & Hk & [K|[K|[K|K]]])]; [auto| | | |].
      * left. right. exists k. auto. * left. right. exists k. auto. * right. exists k. auto. * right. exists k. auto.
    + destruct (side_loop P1 d1 t (Z.rem (t + 5) 6) (Z.rem (t + 2) 6) (fun k => k * W) (fun k => k * W + n + 1) (fun k => k * W + n) (fun k => W + n + 1 - k) Hd1 HP1 ltac:(lia) R5 R2) as (d2 & -> & Hd2).
      { intros k Hk. exists k, 0, k, n. repeat (split; [unfold W in *; lia|]). rewrite H_w, RO by lia. f_equal; lia. }
      { intros k Hk. exists k, (n + 1), 1, (n + 1 - k). repeat (split; [unfold W in *; lia|]). rewrite H_e, RO by lia. f_equal; lia. }
      cbn [bind].
      match type of Hd2 with gd ?P2 _ => destruct (side_loop P2 d2 t (Z.rem (t + 4) 6) (Z.rem (t + 1) 6) (fun k => k) (fun k => (n + 1) * W + k) (fun k => (n + 1 - k) * W + n) (fun k => W + k) Hd2 (fun u x K => or_introl (HP1 _ _ K)) ltac:(lia) R4 R1) as (d3 & E3 & Hd3) end.
      { intros k Hk. exists 0, k, (n + 1 - k), n. repeat (split; [unfold W in *; lia|]). rewrite H_s, RO by lia. f_equal; lia. }
      { intros k Hk. exists (n + 1), k, 1, k. repeat (split; [unfold W in *; lia|]). rewrite H_n, RO by lia. f_equal; lia. }
      exists d3. split; [exact E3|]. eapply good2_weaken; [exact Hd3|]. cbv beta. intros u x [K|(-> & k & Hk & [K|[K|[K|K]]])]; [auto| | | |].
      * left. right. exists k. auto. * left. right. exists k. auto. * right. exists k. auto. * right. exists k. auto.
  - exists d'. split; [exact E|]. eapply good2_weaken; [exact K|]. cbv beta. intros t x [Ht Hx].
    destruct (divmod_range W W x ltac:(unfold W; lia) Hx) as (_ & Bj & Bi & Ex). set (j := x / W) in *. set (i := x mod W) in *. unfold W in Bj, Bi.
    destruct (Z.eq_dec i 0) as [Ei|Ei]; [|destruct (Z.eq_dec i (n + 1)) as [Ei'|Ei']].
    + destruct (Z.eq_dec j 0); [left; exists j, i; split; [auto|lia]|]. destruct (Z.eq_dec j (n + 1)); [left; exists j, i; split; [auto|lia]|].
      right. exists t. split; [lia|]. split; auto. exists j. split; [lia|]. left. lia.
    + destruct (Z.eq_dec j 0); [left; exists j, i; split; [auto|lia]|]. destruct (Z.eq_dec j (n + 1)); [left; exists j, i; split; [auto|lia]|].
      right. exists t. split; [lia|]. split; auto. exists j. split; [lia|]. right. left. lia.
    + destruct (Z.eq_dec j 0) as [Ej|Ej]; [|destruct (Z.eq_dec j (n + 1)) as [Ej'|Ej']].
      * right. exists t. split; [lia|]. split; auto. exists i. split; [lia|]. right. right. left. rewrite Ex, Ej. lia.
      * right. exists t. split; [lia|]. split; auto. exists i. split; [lia|]. right. right. right. rewrite Ex, Ej'. lia.
      * left. exists j, i. split; auto. lia.
Qed.
End Halo.
