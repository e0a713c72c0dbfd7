From Coq Require Import Permutation.
From Verif Require Import Base Loops Lst M_Xgrid.

Section Blocks.
(** The blocks tile the target cells. *)
Lemma blocks_len k : forall n p, length (blocks k n p) = k.
Proof. induction k; intros; cbn [blocks length]; auto. Qed.
Lemma blocks_tile k : forall n p, 0 <= n -> (k <> 0)%nat -> flat_map (fun b => zseq (fst b) (snd b - fst b + 1)) (blocks k n p) = zseq p n.
Proof.
  induction k as [|k IH]; intros n p Hn Hk; [lia|]. cbn [blocks flat_map fst snd]. set (q := n / Z.of_nat (S k)).
  assert (Hq : 0 <= q <= n). { unfold q. split; [apply Z.div_pos; lia|]. apply Z.div_le_upper_bound; nia. }
  replace (p + q - 1 - p + 1) with q by lia. destruct k as [|k].
  - cbn [blocks flat_map]. rewrite app_nil_r. f_equal. unfold q. now rewrite Z.div_1_r.
  - rewrite IH by lia. rewrite <- zseq_app by lia. f_equal. lia.
Qed.
End Blocks.

Section Threads.
Variable V : Type.
Notation cell := (cell V).
Notation op := (op V).
Notation mem := (mem V).
Variables (N B maxx : Z) (H : list (list cell)).
Hypothesis HN : zlen H = N.
Hypothesis HB : 0 <= B.
Hypothesis HM : N * B <= maxx.

Notation prog l := (flat_map (ops_of V) l).
Definition thread (m : Z) (t : list op) (n : Z) (px : list (option cell)) : Prop :=
  exists l done rest, zget H m = Some l /\ l = done ++ rest /\ (zlen done = 0 \/ zlen done < B)
  /\ ((t = prog rest /\ n = zlen done) \/ (exists h r, rest = h :: r /\ n = zlen done + 1 /\ (t = Test V :: Store V h :: prog r \/ (t = Store V h :: prog r /\ n < B))))
  /\ forall i, 0 <= i < zlen done -> zget px (m * B + i) = option_map Some (zget done i).
Definition good (s : list (list op) * mem) : Prop :=
  zlen (fst s) = N /\ zlen (pnxgrid V (snd s)) = N /\ zlen (pxgrid V (snd s)) = maxx
  /\ forall m, 0 <= m < N -> exists t n, zget (fst s) m = Some t /\ zget (pnxgrid V (snd s)) m = Some n /\ thread m t n (pxgrid V (snd s)).

Lemma frame s m t n px : good s -> 0 <= m < N -> forall ts' pn' px' t' n',
  zget (fst s) m = Some t -> zget (pnxgrid V (snd s)) m = Some n -> px = pxgrid V (snd s) ->
  zset (fst s) m t' = Some ts' -> (zset (pnxgrid V (snd s)) m n' = Some pn' \/ pn' = pnxgrid V (snd s) /\ n' = n) -> zlen px' = maxx ->
  (forall m2 i, 0 <= m2 < N -> m2 <> m -> 0 <= i < B -> zget px' (m2 * B + i) = zget px (m2 * B + i)) -> thread m t' n' px' -> good (ts', MkMem V pn' px').
Proof.
  intros (G1 & G2 & G3 & G4) Hm ts' pn' px' t' n' Et En -> Es Ep Hl Hf Ht. unfold good. cbn [fst snd pnxgrid pxgrid]. split; [now rewrite (zset_len _ _ _ _ Es)|]. split. { destruct Ep as [Ep|[-> _]]; auto. now rewrite (zset_len _ _ _ _ Ep). } split; auto.
  intros k Hk. destruct (Z.eq_dec k m) as [->|Nk].
  - exists t', n'. split; [eapply zget_zset_eq; eauto|]. split; auto. destruct Ep as [Ep|[-> ->]]; auto. eapply zget_zset_eq; eauto.
  - destruct (G4 k Hk) as (tk & nk & E1 & E2 & T). exists tk, nk. split; [rewrite (zget_zset_ne _ _ _ _ _ Es) by auto; auto|]. split. { destruct Ep as [Ep|[-> _]]; auto. rewrite (zget_zset_ne _ _ _ _ _ Ep) by auto; auto. }
    destruct T as (l & done & rest & T1 & T2 & T3 & T4 & T5). exists l, done, rest. repeat (split; auto). intros i Hi. rewrite Hf by lia. auto.
Qed.

Lemma step_ok s m : good s -> 0 <= m < N -> (exists s', sched_step V B B s m = Ok s' /\ good s') \/ (sched_step V B B s m = Err 1 /\ exists k l, zget H k = Some l /\ B <= zlen l /\ 0 < zlen l).
Proof.
  intros G Hm. pose proof G as (G1 & G2 & G3 & G4). destruct (G4 m Hm) as (t & n & Et & En & (l & done & rest & T1 & T2 & T3 & T4 & T5)).
  unfold sched_step. rewrite (proj2 (oget_Ok _ _ _) Et). cbn [bind].
  destruct T4 as [(-> & Hn)|(h & r & -> & Hn & Hc)].
  - destruct rest as [|h r]. { left. exists s. auto. }
    cbn [flat_map ops_of app exec_op]. rewrite (proj2 (oget_Ok _ _ _) En). cbn [bind].
    destruct (zset_Some (pnxgrid V (snd s)) m (n + 1) ltac:(lia)) as (pn' & Ep). rewrite (proj2 (oset_Ok _ _ _ _) Ep). cbn [bind].
    destruct (zset_Some (fst s) m (Test V :: Store V h :: prog r) ltac:(lia)) as (ts' & Es). rewrite (proj2 (oset_Ok _ _ _ _) Es). cbn [bind]. left. eexists. split; [reflexivity|].
    eapply frame; eauto. exists l, done, (h :: r). split; auto. split; auto. split; auto. split; auto. right. exists h, r. split; auto. split; [lia|]. now left.
  - destruct Hc as [->|[-> Hlt]].
    + cbn [exec_op]. rewrite (proj2 (oget_Ok _ _ _) En). cbn [bind]. destruct (Z.geb_spec n B).
      * right. split; auto. exists m, l. split; auto. subst l. rewrite zlen_app, zlen_cons. pose proof (zlen_nonneg r). pose proof (zlen_nonneg done). lia.
      * cbn [bind]. destruct (zset_Some (fst s) m (Store V h :: prog r) ltac:(lia)) as (ts' & Es). rewrite (proj2 (oset_Ok _ _ _ _) Es). cbn [bind]. left. eexists. split; [reflexivity|].
        replace (snd s) with (MkMem V (pnxgrid V (snd s)) (pxgrid V (snd s))) by now destruct (snd s). eapply frame; eauto. exists l, done, (h :: r). split; auto. split; auto. split; auto. split; auto. right. exists h, r. split; [auto|]. split; [lia|]. right. auto.
    + cbn [exec_op]. rewrite (proj2 (oget_Ok _ _ _) En). cbn [bind]. pose proof (zlen_nonneg done).
      assert (R : 0 <= m * B + n - 1 < zlen (pxgrid V (snd s))). { rewrite G3. nia. }
      destruct (zset_Some (pxgrid V (snd s)) (m * B + n - 1) (Some h) R) as (px' & Ex). rewrite (proj2 (oset_Ok _ _ _ _) Ex). cbn [bind].
      destruct (zset_Some (fst s) m (prog r) ltac:(lia)) as (ts' & Es). rewrite (proj2 (oset_Ok _ _ _ _) Es). cbn [bind]. left. eexists. split; [reflexivity|].
      eapply frame; eauto.
      * rewrite (zset_len _ _ _ _ Ex). auto.
      * intros m2 i Hm2 Nm Hi. eapply zget_zset_ne; [exact Ex|]. nia.
      * exists l, (done ++ [h]), r. split; auto. split; [rewrite <- app_assoc; auto|]. rewrite zlen_app. change (zlen [h]) with 1. split; [lia|]. split; [left; split; auto|].
        intros i Hi. destruct (Z.eq_dec i (zlen done)) as [->|Ni].
        -- rewrite zget_app_r by lia. replace (zlen done - zlen done) with 0 by lia. replace (m * B + zlen done) with (m * B + n - 1) by lia. rewrite (zget_zset_eq _ _ _ _ Ex). reflexivity.
        -- rewrite zget_app_l by lia. rewrite (zget_zset_ne _ _ _ _ _ Ex) by lia. apply T5. lia.
Qed.

Lemma run_ok sched : Forall (fun m => 0 <= m < N) sched -> forall s, good s ->
  (exists s', ofold (sched_step V B B) sched s = Ok s' /\ good s') \/ (ofold (sched_step V B B) sched s = Err 1 /\ exists k l, zget H k = Some l /\ B <= zlen l /\ 0 < zlen l).
Proof.
  induction 1 as [|m sched Hm _ IH]; intros s G; cbn [ofold]. { left. eauto. }
  destruct (step_ok s m G Hm) as [(s' & E & G')|(E & K)]; rewrite E; cbn [bind]; auto.
Qed.

Lemma start_good : good (map (fun l => prog l) H, MkMem V (repeat 0 (Z.to_nat N)) (repeat None (Z.to_nat maxx))).
Proof.
  pose proof (zlen_nonneg H). assert (0 <= maxx) by nia. unfold good. cbn [fst snd pnxgrid pxgrid]. rewrite zlen_map, !zlen_repeat by lia. rewrite !Z2Nat.id by lia. split; auto. split; auto. split; auto.
  intros m Hm. destruct (zget_in_range H m ltac:(lia)) as (l & E). exists (prog l), 0. rewrite zget_map, E. split; auto. split. { apply zget_repeat. rewrite Z2Nat.id; lia. }
  exists l, [], l. split; auto. split; auto. split; [now left|]. split; [left; auto|]. change (zlen (@nil cell)) with 0. intros; lia.
Qed.

Lemma finished_good s : good s -> finished V (fst s) = true -> forall m, 0 <= m < N -> exists l, zget H m = Some l /\ zget (pnxgrid V (snd s)) m = Some (zlen l) /\ (zlen l = 0 \/ zlen l < B) /\ forall i, 0 <= i < zlen l -> zget (pxgrid V (snd s)) (m * B + i) = option_map Some (zget l i).
Proof.
  intros (G1 & G2 & G3 & G4) F m Hm. destruct (G4 m Hm) as (t & n & Et & En & (l & done & rest & T1 & T2 & T3 & T4 & T5)).
  unfold finished in F. rewrite forallb_forall in F. pose proof (F t (zget_In _ _ _ Et)) as Ft. destruct t; [|discriminate].
  destruct T4 as [(E & Hn)|(h & r & _ & _ & [E|[E _]])]; try discriminate. destruct rest as [|h r]; [|discriminate]. rewrite app_nil_r in T2. subst. exists done. auto.
Qed.

Lemma sum_bound : (forall m l, zget H m = Some l -> zlen l <= B) -> zlen (concat H) <= maxx.
Proof.
  intros K. assert (zlen (concat H) <= zlen H * B). { clear HN HM. induction H as [|l L IH]; [reflexivity|]. cbn [concat]. rewrite zlen_app, zlen_cons. assert (zlen l <= B) by (apply (K 0); reflexivity). assert (zlen (concat L) <= zlen L * B). { apply IH. intros m l' E. apply (K (m + 1)). pose proof (zget_Some_range _ _ _ E). rewrite zget_cons_pos by lia. now replace (m + 1 - 1) with m by lia. } lia. }
  lia.
Qed.

Lemma copy_ok s : good s -> finished V (fst s) = true -> copy_out V N B maxx (snd s) = Ok (map Some (concat H)).
Proof.
  intros G F. pose proof (finished_good s G F) as FG. unfold copy_out. pose proof (zlen_nonneg H).
  assert (TB : zlen (concat H) <= maxx). { apply sum_bound. intros m l E. destruct (FG m) as (l' & E' & _ & K & _). { rewrite <- HN. eapply zget_Some_range; eauto. } rewrite E' in E. inversion E; subst. lia. }
  assert (PB : forall m, 0 <= m < N -> forall l, zget H m = Some l -> concat (firstn (Z.to_nat (m + 1)) H) = concat (firstn (Z.to_nat m) H) ++ l).
  { intros m Hm l E. replace (Z.to_nat (m + 1)) with (S (Z.to_nat m)) by lia. unfold zget in E. destruct (Z.ltb_spec m 0); [lia|]. clear -E. revert E. generalize (Z.to_nat m) as k. intros k. revert k. induction H as [|x L IH]; intros [|k] E; try discriminate.
    - cbn in E. inversion E. subst. cbn [firstn concat]. rewrite app_nil_l. apply app_nil_r.
    - cbn in E. change (firstn (S (S k)) (x :: L)) with (x :: firstn (S k) L). change (firstn (S k) (x :: L)) with (x :: firstn k L). cbn [concat]. rewrite (IH k E). now rewrite app_assoc. }
  assert (PL : forall m, 0 <= m <= N -> zlen (concat (firstn (Z.to_nat m) H)) <= maxx).
  { intros m Hm. rewrite <- (firstn_skipn (Z.to_nat m) H) in TB. rewrite concat_app, zlen_app in TB. pose proof (zlen_nonneg (concat (skipn (Z.to_nat m) H))). lia. }
  match goal with |- context [ofor 0 N ?f ?s0] => destruct (ofor_inv (fun m '(out, k) => k = zlen (concat (firstn (Z.to_nat m) H)) /\ zlen out = maxx /\ forall i, 0 <= i < k -> zget out i = option_map Some (zget (concat (firstn (Z.to_nat m) H)) i)) f 0 N s0) as ((out & k) & E & E1 & E2 & E3) end.
  - lia.
  - cbn [Z.to_nat firstn concat]. change (zlen (@nil cell)) with 0. rewrite zlen_repeat, Z2Nat.id by nia. repeat split; auto. intros; lia.
  - intros m (out, k) Hm (K1 & K2 & K3). destruct (FG m ltac:(lia)) as (l & E & En & Hl & Hx). rewrite (proj2 (oget_Ok _ _ _) En). cbn [bind].
    match goal with |- context [ofor 0 (zlen l) ?f ?s0] => destruct (ofor_inv (fun i '(o, k') => k' = k + i /\ zlen o = maxx /\ (forall j, 0 <= j < k -> zget o j = zget out j) /\ forall j, 0 <= j < i -> zget o (k + j) = option_map Some (zget l j)) f 0 (zlen l) s0) as ((o & k') & Eo & Eo1 & Eo2 & Eo3 & Eo4) end.
    + pose proof (zlen_nonneg l). lia.
    + repeat split; auto; intros; lia.
    + intros i (o, k') Hi (P1 & P2 & P3 & P4). cbv beta iota. destruct (zget_in_range l i ltac:(lia)) as (c & Ec). specialize (Hx i ltac:(lia)). rewrite Ec in Hx. cbn [option_map] in Hx.
      rewrite (proj2 (oget_Ok _ _ _) Hx). cbn [bind]. pose proof (PL (m + 1) ltac:(lia)) as PL1. rewrite (PB m ltac:(lia) l E), zlen_app in PL1.
      destruct (zset_Some o k' (Some c)) as (o' & Eo). { rewrite P1, P2, K1. pose proof (zlen_nonneg (concat (firstn (Z.to_nat m) H))). lia. }
      rewrite (proj2 (oset_Ok _ _ _ _) Eo). cbn [bind]. eexists. split; [reflexivity|]. cbv beta iota. split; [lia|]. split; [now rewrite (zset_len _ _ _ _ Eo)|]. split.
      * intros j Hj. rewrite (zget_zset_ne _ _ _ _ _ Eo) by lia. auto.
      * intros j Hj. destruct (Z.eq_dec j i) as [->|]. -- rewrite Ec. rewrite <- P1. rewrite (zget_zset_eq _ _ _ _ Eo). reflexivity. -- rewrite (zget_zset_ne _ _ _ _ _ Eo) by lia. apply P4. lia.
    + exists (o, k'). split; [exact Eo|]. rewrite (PB m ltac:(lia) l E). rewrite zlen_app. split; [lia|]. split; auto. intros i Hi. destruct (Z.ltb_spec i k) as [L|L].
      * rewrite Eo3 by lia. rewrite K3 by lia. f_equal. symmetry. apply zget_app_l. lia.
      * replace i with (k + (i - k)) at 1 by lia. rewrite Eo4 by lia. f_equal. symmetry. rewrite zget_app_r by lia. f_equal. lia.
  - rewrite E. cbn [bind fst snd]. rewrite Z.add_0_l in *. assert (EF : firstn (Z.to_nat N) H = H). { rewrite <- HN. unfold zlen. rewrite Nat2Z.id. apply firstn_all. } rewrite EF in *. f_equal.
    apply zget_ext. { rewrite zlen_map. unfold zlen in *. rewrite firstn_length. lia. }
    intros i Hi. assert (Hi2 : 0 <= i < k). { unfold zlen in Hi. rewrite firstn_length in Hi. pose proof (zlen_nonneg (concat H)). lia. }
    rewrite zget_map. rewrite <- E3 by auto. unfold zget. destruct (Z.ltb_spec i 0); [lia|]. apply nth_error_firstn_lt. lia.
Qed.
End Threads.
