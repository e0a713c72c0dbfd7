(** * Proofs about nearest_index and the interval search *)
From Coq Require Import Lra.
From Verif Require Import Base Loops Vec M_Interp Spec_Interp.
Local Open Scope R_scope.

Lemma rlt_spec a b : reflect (a < b) (rlt a b).
Proof. unfold rlt. destruct (Rlt_dec a b); constructor; auto. Qed.
Lemma rle_spec a b : reflect (a <= b) (rle a b).
Proof. unfold rle. destruct (Rle_dec a b); constructor; auto. Qed.

Lemma vec_at g : vec g (zlen g) (at_ g).
Proof.
  split; auto. intros i Hi. unfold zget, at_. destruct (Z.ltb_spec i 0); [lia|]. apply nth_error_nth'. unfold zlen in Hi. lia.
Qed.
Lemma get_at g i : (0 <= i < zlen g)%Z -> oget g i = Ok (at_ g i).
Proof. intros H. eapply vec_get; eauto. apply vec_at. Qed.
Lemma at_zget g i v : zget g i = Some v -> at_ g i = v.
Proof. intros E. pose proof (zget_Some_range _ _ _ E) as R. destruct (vec_at g) as [_ V]. specialize (V i R). congruence. Qed.
Lemma vec_at_ g n F i : vec g n F -> (0 <= i < n)%Z -> at_ g i = F i.
Proof. intros [L H] Hi. apply at_zget. auto. Qed.

(** A loop of checks. *)
Lemma check_loop (P : Z -> Prop) (c : Z -> bool) e lo n (f : unit -> Z -> outcome unit) :
  (0 <= n)%Z -> (forall i, (lo <= i < lo + n)%Z -> f tt i = if c i then Err e else Ok tt) -> (forall i, (lo <= i < lo + n)%Z -> reflect (P i) (c i)) ->
  (ofor lo n f tt = Ok tt /\ forall i, (lo <= i < lo + n)%Z -> ~ P i) \/ (ofor lo n f tt = Err e /\ exists i, (lo <= i < lo + n)%Z /\ P i).
Proof.
  intros Hn Hf Hc. unfold ofor, zseq. replace n with (Z.of_nat (Z.to_nat n)) in Hf, Hc |- * by lia. rewrite Nat2Z.id. revert lo Hf Hc. clear Hn.
  induction (Z.to_nat n) as [|k IH]; intros lo Hf Hc; cbn [zseq_nat ofold]. { left. split; auto. intros; lia. }
  rewrite Hf by lia. specialize (Hc lo ltac:(lia)) as Hr. inversion Hr as [Hp E|Hp E]; cbn [bind].
  - right. split; auto. exists lo. split; auto. lia.
  - destruct (IH (lo + 1)%Z) as [(E1 & H1)|(E1 & i & Hi & H1)].
    + intros i Hi. apply Hf. lia.
    + intros i Hi. apply Hc. lia.
    + left. split; auto. intros i Hi. destruct (Z.eq_dec i lo) as [->|]; auto. apply H1. lia.
    + right. split; auto. exists i. split; auto. lia.
Qed.

Lemma steps_nondec g : (forall i, (1 <= i < zlen g)%Z -> ~ at_ g i < at_ g (i - 1)) -> nondecreasing g.
Proof.
  intros H i j Hi Hj. replace j with (i + Z.of_nat (Z.to_nat (j - i)))%Z in * by lia. induction (Z.to_nat (j - i)) as [|k IH].
  - rewrite Z.add_0_r. lra.
  - specialize (IH ltac:(lia) ltac:(lia)). specialize (H (i + Z.of_nat (S k))%Z ltac:(lia)). replace (i + Z.of_nat (S k) - 1)%Z with (i + Z.of_nat k)%Z in H by lia. lra.
Qed.
Lemma steps_inc g : (forall i, (1 <= i < zlen g)%Z -> ~ at_ g i <= at_ g (i - 1)) -> increasing g.
Proof.
  intros H i j Hi Hj. replace j with (i + 1 + Z.of_nat (Z.to_nat (j - i - 1)))%Z in * by lia. induction (Z.to_nat (j - i - 1)) as [|k IH].
  - specialize (H (i + 1)%Z ltac:(lia)). replace (i + 1 - 1)%Z with i in H by lia. rewrite Z.add_0_r. lra.
  - specialize (IH ltac:(lia) ltac:(lia)). specialize (H (i + 1 + Z.of_nat (S k))%Z ltac:(lia)). replace (i + 1 + Z.of_nat (S k) - 1)%Z with (i + 1 + Z.of_nat k)%Z in H by lia. lra.
Qed.
Lemma inc_nondec g : increasing g -> nondecreasing g.
Proof. intros H i j Hi Hj. destruct (Z.eq_dec i j) as [->|]; [lra|]. left. apply H; lia. Qed.

Lemma check_increasing_spec g n : (1 <= n)%Z -> zlen g = n ->
  (check_increasing g n = Ok tt /\ increasing g) \/ (check_increasing g n = Err 1 /\ ~ increasing g).
Proof.
  intros Hn L. unfold check_increasing.
  destruct (check_loop (fun i => at_ g i <= at_ g (i - 1)) (fun i => rle (at_ g i) (at_ g (i - 1))) 1%Z 1 (n - 1) (fun _ i => do a <- oget g i ; do b <- oget g (i - 1) ; if rle a b then Err 1 else Ok tt)) as [(E & H)|(E & i & Hi & H)].
  - lia.
  - intros i Hi. rewrite !get_at by lia. reflexivity.
  - intros. apply rle_spec.
  - left. split; [exact E|]. apply steps_inc. intros i Hi. apply H. lia.
  - right. split; [exact E|]. intros Hinc. specialize (Hinc (i - 1)%Z i ltac:(lia) ltac:(lia)). lra.
Qed.

(** The scan of nearest_index. *)
Lemma ni_scan_spec v g ia fuel i : zlen g = ia -> (0 <= i)%Z -> (i < ia - 1)%Z -> (Z.to_nat (ia - 1 - i) <= fuel)%nat -> v <= at_ g (ia - 1) -> at_ g i <= v -> (i = 0%Z \/ at_ g i < v) ->
  exists k, (i + 1 <= k < ia)%Z /\ at_ g (k - 1) <= v <= at_ g k /\ (k = 1%Z \/ at_ g (k - 1) < v)
    /\ ni_scan fuel v g ia i = Ok (if rlt (v - at_ g (k - 1)) (at_ g k - v) then k - 1 else k)%Z.
Proof.
  intros L. revert i. induction fuel as [|f IH]; intros i Hi Hi' Hf Hl H0 H1; [lia|]. cbn [ni_scan].
  destruct (Z.ltb_spec i ia); [|lia]. cbn [negb]. cbn zeta. rewrite get_at by lia. cbn [bind]. destruct (rle_spec v (at_ g (i + 1))) as [C|C].
  - rewrite get_at by lia. cbn [bind]. exists (i + 1)%Z. replace (i + 1 - 1)%Z with i by lia. split; [lia|]. split; [lra|]. split; [|reflexivity]. destruct H1 as [->|]; [left; lia|right; auto].
  - destruct (Z.eq_dec (i + 1) (ia - 1)) as [E|N]. { rewrite E in C. lra. }
    destruct (IH (i + 1)%Z) as (k & Hk & Hb & Hs & E); try lia; try lra. exists k. split; [lia|]. auto.
Qed.

Lemma nearest_index_cases v g ia : zlen g = ia -> (2 <= ia)%Z -> nondecreasing g ->
  (v < at_ g 0 /\ nearest_index v g ia = Ok 0%Z)
  \/ (at_ g (ia - 1) < v /\ nearest_index v g ia = Ok (ia - 1)%Z)
  \/ exists k, (1 <= k < ia)%Z /\ at_ g (k - 1) <= v <= at_ g k /\ (k = 1%Z \/ at_ g (k - 1) < v)
    /\ nearest_index v g ia = Ok (if rlt (v - at_ g (k - 1)) (at_ g k - v) then k - 1 else k)%Z.
Proof.
  intros L Hia Hs. unfold nearest_index.
  destruct (check_loop (fun i => at_ g i < at_ g (i - 1)) (fun i => rlt (at_ g i) (at_ g (i - 1))) 1%Z 1 (ia - 1) (fun _ i => do a <- oget g i ; do b <- oget g (i - 1) ; if rlt a b then Err 1 else Ok tt)) as [(E & H)|(E & i & Hi & H)].
  - lia.
  - intros i Hi. rewrite !get_at by lia. reflexivity.
  - intros. apply rlt_spec.
  - rewrite E. cbn [bind]. rewrite get_at by lia. cbn [bind]. destruct (rlt_spec v (at_ g 0)) as [C|C]; [left; auto|]. right. rewrite get_at by lia. cbn [bind].
    destruct (rlt_spec (at_ g (ia - 1)) v) as [D|D]; [left; auto|]. right.
    destruct (ni_scan_spec v g ia (S (Z.to_nat ia)) 0 L) as (k & Hk & Hb & Hs' & E'); try lia; try lra.
    exists k. split; [lia|]. auto.
  - exfalso. specialize (Hs (i - 1)%Z i ltac:(lia) ltac:(lia)). lra.
Qed.

Lemma nearest_index_refuses v g ia : zlen g = ia -> (1 <= ia)%Z -> ~ nondecreasing g -> nearest_index v g ia = Err 1.
Proof.
  intros L Hia Hs. unfold nearest_index.
  destruct (check_loop (fun i => at_ g i < at_ g (i - 1)) (fun i => rlt (at_ g i) (at_ g (i - 1))) 1%Z 1 (ia - 1) (fun _ i => do a <- oget g i ; do b <- oget g (i - 1) ; if rlt a b then Err 1 else Ok tt)) as [(E & H)|(E & i & Hi & H)].
  - lia.
  - intros i Hi. rewrite !get_at by lia. reflexivity.
  - intros. apply rlt_spec.
  - exfalso. apply Hs. apply steps_nondec. intros i Hi. apply H. lia.
  - rewrite E. reflexivity.
Qed.

(** The interval chosen for a target inside the grid. *)
Lemma find_klo_spec z g n : zlen g = n -> (2 <= n)%Z -> increasing g -> at_ g 0 <= z <= at_ g (n - 1) ->
  exists k, find_klo z g n = Ok k /\ (0 <= k < n - 1)%Z /\ at_ g k <= z <= at_ g (k + 1).
Proof.
  intros L Hn Hi Hz. unfold find_klo. destruct (nearest_index_cases z g n L Hn (inc_nondec _ Hi)) as [(C & _)|[(C & _)|(k & Hk & Hb & Hs & E)]]; try lra.
  rewrite E. cbn [bind]. destruct (rlt_spec (z - at_ g (k - 1)) (at_ g k - z)) as [C|C].
  - rewrite get_at by lia. cbn [bind]. eexists; split; [reflexivity|]. destruct (rlt_spec (at_ g (k - 1)) z) as [D|D].
    + split; [lia|]. replace (k - 1 + 1)%Z with k by lia. lra.
    + destruct Hs as [->|]; [|lra]. cbn. split; [lia|]. cbn in Hb. lra.
  - rewrite get_at by lia. cbn [bind]. eexists; split; [reflexivity|]. destruct (rlt_spec (at_ g k) z) as [D|D]; [lra|].
    destruct (Z.eqb_spec k 0); [lia|]. split; [lia|]. replace (k - 1 + 1)%Z with k by lia. lra.
Qed.

(** Two intervals of an increasing grid that contain the same point. *)
Lemma same_interval g k m z : increasing g -> (0 <= k)%Z -> (k + 1 < zlen g)%Z -> (0 <= m)%Z -> (m + 1 < zlen g)%Z ->
  at_ g k <= z <= at_ g (k + 1) -> at_ g m <= z <= at_ g (m + 1) ->
  m = k \/ (m = k + 1 /\ z = at_ g m)%Z \/ (k = m + 1 /\ z = at_ g k)%Z.
Proof.
  intros Hi Hk Hk' Hm Hm' Bk Bm. destruct (Z.lt_trichotomy m k) as [L|[->|L]]; auto.
  - right. right. destruct (Z.eq_dec k (m + 1)) as [->|N]. + split; auto. lra. + pose proof (Hi (m + 1)%Z k ltac:(lia) ltac:(lia)). lra.
  - right. left. destruct (Z.eq_dec m (k + 1)) as [->|N]. + split; auto. lra. + pose proof (Hi (k + 1)%Z m ltac:(lia) ltac:(lia)). lra.
Qed.
