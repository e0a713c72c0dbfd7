From Coq Require Import Reals Lra.
From Verif Require Import Base Loops Vec M_Interp M_Clip M_Longitude Spec_Interp Spec_Clip Spec_Longitude P_Interp2.
Open Scope Z_scope.

(** Real arithmetic with half turn [p] *)
Definition RL (h p t tol sm : R) : arith := MkArith R Rplus Rminus Rmult Rdiv
  (fun a b => if Rle_dec a b then true else false) (fun a b => if Req_EM_T a b then true else false) Rabs h p t tol sm 0%R IZR.
Lemma nlt_spec h p t tol sm a b : nlt (RL h p t tol sm) a b = rlt a b.
Proof. unfold nlt, rlt. cbn. destruct (Rle_dec b a), (Rlt_dec a b); auto; exfalso; lra. Qed.
Lemma rlt_t a b : (a < b)%R -> rlt a b = true.
Proof. intros H. unfold rlt. destruct (Rlt_dec a b); auto; contradiction. Qed.
Lemma rlt_f a b : (b <= a)%R -> rlt a b = false.
Proof. intros H. unfold rlt. destruct (Rlt_dec a b); auto; exfalso; lra. Qed.
Lemma rlt_cases a b : (rlt a b = true /\ (a < b)%R) \/ (rlt a b = false /\ (b <= a)%R).
Proof. unfold rlt. destruct (Rlt_dec a b); [left|right]; split; auto; lra. Qed.

Lemma turn_step p x y k : (0 < p)%R -> -1 <= k <= 1 -> (Rabs (x + 2 * p * IZR k - y) < p)%R ->
  (let dx := x - y in y + (if rlt dx (- p) then dx + 2 * p else if rlt p dx then dx - 2 * p else dx))%R = (x + 2 * p * IZR k)%R.
Proof.
  intros Hp Hk Hs. apply Rabs_def2 in Hs. destruct Hs as [H1 H2]. cbv zeta.
  assert (k = -1 \/ k = 0 \/ k = 1) as [->|[->| ->]] by lia.
  - rewrite rlt_f by lra. rewrite rlt_t by lra. lra.
  - rewrite rlt_f by lra. rewrite rlt_f by lra. lra.
  - rewrite rlt_t by lra. lra.
Qed.
Lemma recentre p m tlon : (0 < p)%R -> let dx := (m - tlon)%R in
  recentres (2 * p) m tlon (if rlt dx (- p) then 1 else if rlt p dx then -1 else 0).
Proof.
  intros Hp dx. unfold recentres, dx. replace (2 * p / 2)%R with p by lra.
  assert (A : forall x c, (0 <= c)%R -> (Rabs x <= c <-> - c <= x <= c)%R). { intros x c Hc. split; [intros H; unfold Rabs in H; destruct (Rcase_abs x); lra|intros [H1 H2]; apply Rabs_le; lra]. }
  rewrite !A by lra. destruct (rlt_cases (m - tlon) (- p)) as [[-> H]|[-> H]]; [|destruct (rlt_cases p (m - tlon)) as [[-> H']|[-> H']]]; repeat split; try lia; intros; try (exfalso; lra); lra.
Qed.

Section Loop.
Context (h p tol sm : R) (Hp : (0 < p)%R).
Notation A := (RL h p (2 * p) tol sm).
Context (n : Z) (X Y S0 : Z -> R) (turns : Z -> Z).
Context (HY : forall i, Y i = (X i + 2 * p * IZR (turns i))%R) (HU : unrolls (2 * p) n X turns).
Lemma loop_run (l : list (R * R)) xs : 1 <= n -> vec l n (fun i => (X i, S0 i)) ->
  ofor (S := (list (R * R) * R)%type) 1 (n - 1) (fun '(l, x_sum) i =>
    do p0 <- oget l i ; do m <- oget l (i - 1) ;
    let dx := nsub A (fst p0) (fst m) in
    let dx := if nlt A dx (nsub A (nzero A) (npi A)) then nadd A dx (ntpi A) else if nlt A (npi A) dx then nsub A dx (ntpi A) else dx in
    let x := nadd A (fst m) dx in
    do l <- oset l i (x, snd p0) ;
    Ok (l, nadd A x_sum x)) (l, xs) = Ok (map (fun i => (Y i, S0 i)) (zseq 0 n), (xs + rsum Y (zseq 1 (n - 1)))%R).
Proof.
  intros Hn Vl. destruct HU as (U0 & U1 & U2).
  match goal with |- ofor 1 ?N ?f ?s = _ => destruct (ofor_inv (fun i '(l', xs') => vec l' n (fun j => (if j <? i then Y j else X j, S0 j)) /\ xs' = (xs + rsum Y (zseq 1 (i - 1)))%R) f 1 N s) as ((l' & xs') & E & V & Hx) end.
  - lia.
  - split. { eapply vec_ext; [|exact Vl]. intros j Hj. cbv beta. destruct (Z.ltb_spec j 1); auto. replace j with 0 by lia. rewrite HY, U0. f_equal. lra. }
    cbn. lra.
  - intros i (l1, xs1) Hi [V1 ->]. cbv beta iota.
    replace (oget l1 i) with (Ok (X i, S0 i)) by (symmetry; erewrite (vec_get _ _ _ _ V1) by lia; replace (i <? i) with false by lia; reflexivity).
    replace (oget l1 (i - 1)) with (Ok (Y (i - 1), S0 (i - 1))) by (symmetry; erewrite (vec_get _ _ _ _ V1) by lia; replace (i - 1 <? i) with true by lia; reflexivity).
    cbn [bind]. rewrite !nlt_spec. cbn [fst snd nsub nadd nzero npi ntpi RL]. rewrite Rminus_0_l.
    pose proof (turn_step p (X i) (Y (i - 1)) (turns i) Hp (U1 i ltac:(lia))) as T. rewrite HY in T at 1. specialize (U2 i ltac:(lia)). replace (2 * p / 2)%R with p in U2 by lra. specialize (T U2). cbv zeta in T. change (M_Clip.num A) with R. rewrite T, <- HY.
    destruct (vec_set l1 n _ (fun j => (if j <? i + 1 then Y j else X j, S0 j)) i (Y i, S0 i) V1) as (l2 & E2 & V2); [lia| |].
    { intros j Hj. destruct (Z.eqb_spec j i) as [->|]; [replace (i <? i + 1) with true by lia; reflexivity|]. destruct (Z.ltb_spec j (i + 1)), (Z.ltb_spec j i); auto; lia. }
    rewrite E2. cbn [bind]. eexists. split; [reflexivity|]. split; auto.
    replace (i + 1 - 1) with (i - 1 + 1) by lia. rewrite zseq_snoc by lia. rewrite rsum_app, rsum_cons, rsum_nil. replace (1 + (i - 1)) with i by lia. lra.
  - rewrite E. replace (1 + (n - 1)) with n in * by lia. f_equal. rewrite Hx. f_equal. eapply vec_eq; [exact V|]. eapply vec_ext; [|apply vec_map; lia].
    intros i Hi. cbv beta. replace (i <? n) with true by lia. reflexivity.
Qed.
End Loop.

Lemma lir_shift fuel : forall x strt v, lir_loop fuel x strt = Ok v -> (strt <= v <= strt + 360)%R /\ exists k, v = (x + 360 * IZR k)%R.
Proof.
  induction fuel as [|fuel IH]; intros x strt v; cbn [lir_loop]; [discriminate|].
  destruct (rlt_cases x strt) as [[-> H]|[-> H]].
  - intros E. apply IH in E. destruct E as [E (k & ->)]. split; auto. exists (k + 1). rewrite plus_IZR. lra.
  - destruct (rlt_cases (strt + 360) x) as [[-> H']|[-> H']].
    + intros E. apply IH in E. destruct E as [E (k & ->)]. split; auto. exists (k - 1). rewrite minus_IZR. lra.
    + intros E. injection E as <-. split; [lra|]. exists 0. lra.
Qed.
Lemma lir_up : forall n x strt, (strt - 360 * INR n <= x <= strt + 360)%R -> forall fuel, (n < fuel)%nat -> exists v, lir_loop fuel x strt = Ok v.
Proof.
  induction n as [|n IH]; intros x strt Hx [|fuel] Hf; try lia; cbn [lir_loop].
  - cbn in Hx. rewrite rlt_f by lra. rewrite rlt_f by lra. eauto.
  - destruct (rlt_cases x strt) as [[-> H]|[-> H]]; [|rewrite rlt_f by lra; eauto]. apply IH; [|lia]. rewrite S_INR in Hx. lra.
Qed.
Lemma lir_down : forall n x strt, (strt <= x <= strt + 360 + 360 * INR n)%R -> forall fuel, (n < fuel)%nat -> exists v, lir_loop fuel x strt = Ok v.
Proof.
  induction n as [|n IH]; intros x strt Hx [|fuel] Hf; try lia; cbn [lir_loop].
  - cbn in Hx. rewrite rlt_f by lra. rewrite rlt_f by lra. eauto.
  - rewrite rlt_f by lra. destruct (rlt_cases (strt + 360) x) as [[-> H]|[-> H]]; eauto. apply IH; [|lia]. rewrite S_INR in Hx. lra.
Qed.
Lemma lir_ends x strt : exists f0, forall fuel, (f0 <= fuel)%nat -> exists v, lir_loop fuel x strt = Ok v.
Proof.
  assert (Hex : exists n, (Rabs (x - strt) < INR n)%R).
  { destruct (archimed (Rabs (x - strt))) as [Hu _]. exists (Z.to_nat (up (Rabs (x - strt)))). rewrite INR_IZR_INZ.
    assert (0 <= up (Rabs (x - strt))). { apply le_IZR. pose proof (Rabs_pos (x - strt)). lra. } rewrite Z2Nat.id by lia. lra. }
  destruct Hex as (n & Hn). exists (S n). intros fuel Hf.
  assert (B : (- INR n < x - strt < INR n)%R) by (apply Rabs_def2 in Hn; lra).
  assert (I : (0 <= INR n)%R) by apply pos_INR.
  destruct (Rle_dec x (strt + 360)); [apply (lir_up n)|apply (lir_down n)]; try lia; lra.
Qed.
