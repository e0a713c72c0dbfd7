(** Proofs for M_Cubic: the supergrid. *)
From Coq Require Import ZArith List Bool Lia.
From Verif Require Import Base Loops M_Cubic Spec_Cubic P_Cubic.
Import ListNotations.
Open Scope Z_scope.

Lemma store2_run {A} nj ni p (f : Z -> Z -> outcome A) V x : 0 <= nj -> 0 <= ni ->
  (forall j i, 0 <= j < nj -> 0 <= i < ni -> f j i = Ok (V j i) /\ 0 <= p j i < zlen x) ->
  (forall j i j' i', 0 <= j < nj -> 0 <= i < ni -> 0 <= j' < nj -> 0 <= i' < ni -> p j i = p j' i' -> j = j' /\ i = i') ->
  exists x', store2 nj ni p f x = Ok x' /\ zlen x' = zlen x
    /\ (forall j i, 0 <= j < nj -> 0 <= i < ni -> zget x' (p j i) = Some (V j i))
    /\ (forall q, (forall j i, 0 <= j < nj -> 0 <= i < ni -> p j i <> q) -> zget x' q = zget x q).
Proof.
  intros Hnj Hni Hf Hp. unfold store2.
  destruct (ofor_inv (fun j x' => zlen x' = zlen x
      /\ (forall j' i, 0 <= j' < j -> 0 <= i < ni -> zget x' (p j' i) = Some (V j' i))
      /\ (forall q, (forall j' i, 0 <= j' < j -> 0 <= i < ni -> p j' i <> q) -> zget x' q = zget x q))
    (fun x j => ofor 0 ni (fun x i => do v <- f j i ; oset x (p j i) v) x) 0 nj x) as (x' & E & H); auto.
  - repeat split; auto; intros; lia.
  - intros j x1 Hj (L1 & G1 & K1).
    destruct (ofor_inv (fun i x' => zlen x' = zlen x
        /\ (forall i', 0 <= i' < i -> zget x' (p j i') = Some (V j i'))
        /\ (forall q, (forall i', 0 <= i' < i -> p j i' <> q) -> zget x' q = zget x1 q))
      (fun x i => do v <- f j i ; oset x (p j i) v) 0 ni x1) as (x2 & E2 & L2 & G2 & K2); auto.
    + repeat split; auto; intros; lia.
    + intros i x2 Hi (L2 & G2 & K2). destruct (Hf j i ltac:(lia) ltac:(lia)) as [-> Hr]. cbn [bind].
      destruct (zset_Some x2 (p j i) (V j i) ltac:(lia)) as [x3 E3]. exists x3. split; [now apply oset_Ok|].
      split; [rewrite (zset_len _ _ _ _ E3); auto|]. split.
      * intros i' Hi'. destruct (Z.eq_dec i' i) as [->|Hne]; [apply (zget_zset_eq _ _ _ _ E3)|].
        rewrite (zget_zset_ne _ _ _ _ _ E3). apply G2; lia. intros E'. apply Hp in E'; lia.
      * intros q Hq. rewrite (zget_zset_ne _ _ _ _ _ E3) by (apply Hq; lia). apply K2. intros; apply Hq; lia.
    + exists x2. split; auto. split; auto. replace (0 + ni) with ni in * by lia. split.
      * intros j' i Hj' Hi. destruct (Z.eq_dec j' j) as [->|Hne]; [apply G2; lia|].
        rewrite K2. apply G1; lia. intros i' Hi' E'. apply Hp in E'; lia.
      * intros q Hq. rewrite K2 by (intros; apply Hq; lia). apply K1. intros; apply Hq; lia.
  - exists x'. replace (0 + nj) with nj in H by lia. auto.
Qed.

Section spt.
  Context {P : Type} (mid : P -> P -> P) (mid4 : P -> P -> P -> P -> P) (C : Z -> Z -> Z -> P).
  (** The point (J, I) of the supergrid of tile t. *)
  Definition spt t J I : P :=
    let j := J / 2 in let i := I / 2 in
    if J mod 2 =? 0 then if I mod 2 =? 0 then C t j i else mid (C t j i) (C t j (i + 1))
    else if I mod 2 =? 0 then mid (C t j i) (C t (j + 1) i)
    else mid4 (C t j i) (C t j (i + 1)) (C t (j + 1) (i + 1)) (C t (j + 1) i).

  Lemma spt_ee t j i : spt t (j * 2) (i * 2) = C t j i.
  Proof. unfold spt. rewrite !Z.mod_mul, !Z.div_mul by lia. reflexivity. Qed.
  Lemma odd_div j : (j * 2 + 1) / 2 = j. Proof. symmetry. apply (Z.div_unique _ 2 j 1); lia. Qed.
  Lemma odd_mod j : (j * 2 + 1) mod 2 = 1. Proof. symmetry. apply (Z.mod_unique _ 2 j 1); lia. Qed.
  Lemma spt_oo t j i : spt t (j * 2 + 1) (i * 2 + 1) = mid4 (C t j i) (C t j (i + 1)) (C t (j + 1) (i + 1)) (C t (j + 1) i).
  Proof. unfold spt. rewrite !odd_div, !odd_mod. reflexivity. Qed.
  Lemma spt_oe t j i : spt t (j * 2 + 1) (i * 2) = mid (C t j i) (C t (j + 1) i).
  Proof. unfold spt. rewrite !odd_div, !odd_mod, !Z.mod_mul, !Z.div_mul by lia. reflexivity. Qed.
  Lemma spt_eo t j i : spt t (j * 2) (i * 2 + 1) = mid (C t j i) (C t j (i + 1)).
  Proof. unfold spt. rewrite !odd_div, !odd_mod, !Z.mod_mul, !Z.div_mul by lia. reflexivity. Qed.

End spt.

Section fill.
  Context {P : Type} (mid : P -> P -> P) (mid4 : P -> P -> P -> P -> P) (ni : Z) (Hni : 1 <= ni).
  Context (xc : list P) (C : Z -> Z -> Z -> P).
  Let nip := ni + 1.
  Let nxp := 2 * ni + 1.
  Hypothesis HC : forall t j i, 0 <= t < 6 -> 0 <= j <= ni -> 0 <= i <= ni -> zget xc (at3 nip nip t j i) = Some (C t j i).

  Local Notation spt := (spt mid mid4 C).
  Lemma getC t j i : 0 <= t < 6 -> 0 <= j <= ni -> 0 <= i <= ni -> oget xc (at3 (ni + 1) (ni + 1) t j i) = Ok (C t j i).
  Proof. intros. apply oget_Ok. apply HC; auto. Qed.

  Ltac inj := let E := fresh in intros ? ? ? ? ? ? ? ? E; apply at3_inj in E; lia.
  Ltac ne := let E := fresh in intros ? ? ? ? E; apply at3_inj in E; lia.

  Lemma fill_run n x : 0 <= n < 6 -> zlen x = 6 * (nxp * nxp) ->
    exists x', fill_tile mid mid4 ni xc n x = Ok x' /\ zlen x' = zlen x
      /\ (forall J I, 0 <= J <= 2 * ni -> 0 <= I <= 2 * ni -> zget x' (at3 nxp nxp n J I) = Some (spt n J I))
      /\ (forall t J I, t <> n -> 0 <= J <= 2 * ni -> 0 <= I <= 2 * ni -> zget x' (at3 nxp nxp t J I) = zget x (at3 nxp nxp t J I)).
  Proof.
    intros Hn L. unfold fill_tile. fold nxp. unfold nip, nxp in *.
    match goal with |- context [store2 _ _ ?p ?f x] => destruct (store2_run (ni + 1) (ni + 1) p f (fun j i => spt n (j * 2) (i * 2)) x) as (x1 & E1 & L1 & G1 & K1); [lia|lia| |inj|] end.
    { intros j i Hj Hi. rewrite spt_ee. split; [apply getC; lia|]. rewrite L. apply at3_range; lia. }
    rewrite E1. cbn [bind].
    match goal with |- context [store2 _ _ ?p ?f x1] => destruct (store2_run ni ni p f (fun j i => spt n (j * 2 + 1) (i * 2 + 1)) x1) as (x2 & E2 & L2 & G2 & K2); [lia|lia| |inj|] end.
    { intros j i Hj Hi. rewrite spt_oo, !getC by lia. split; [reflexivity|]. rewrite L1, L. apply at3_range; lia. }
    rewrite E2. cbn [bind].
    match goal with |- context [store2 _ _ ?p ?f x2] => destruct (store2_run ni (ni + 1) p f (fun j i => spt n (j * 2 + 1) (i * 2)) x2) as (x3 & E3 & L3 & G3 & K3); [lia|lia| |inj|] end.
    { intros j i Hj Hi. rewrite spt_oe, !getC by lia. split; [reflexivity|]. rewrite L2, L1, L. apply at3_range; lia. }
    rewrite E3. cbn [bind].
    match goal with |- context [store2 _ _ ?p ?f x3] => destruct (store2_run (ni + 1) ni p f (fun j i => spt n (j * 2) (i * 2 + 1)) x3) as (x4 & E4 & L4 & G4 & K4); [lia|lia| |inj|] end.
    { intros j i Hj Hi. rewrite spt_eo, !getC by lia. split; [reflexivity|]. rewrite L3, L2, L1, L. apply at3_range; lia. }
    rewrite E4. exists x4. split; auto. split; [congruence|]. clear E1 E2 E3 E4 L1 L2 L3 L4. split.
    - intros J I HJ HI.
      pose proof (Z.div_mod J 2 ltac:(lia)) as DJ. pose proof (Z.mod_pos_bound J 2 ltac:(lia)) as MJ.
      pose proof (Z.div_mod I 2 ltac:(lia)) as DI. pose proof (Z.mod_pos_bound I 2 ltac:(lia)) as MI.
      set (j := J / 2) in *. set (i := I / 2) in *. clearbody j i.
      assert (HJ' : J = j * 2 \/ J = j * 2 + 1) by lia. assert (HI' : I = i * 2 \/ I = i * 2 + 1) by lia. clear DJ MJ DI MI.
      destruct HJ' as [->| ->]; destruct HI' as [->| ->].
      + rewrite K4, K3, K2 by ne. apply G1; lia.
      + apply G4; lia.
      + rewrite K4 by ne. apply G3; lia.
      + rewrite K4, K3 by ne. apply G2; lia.
    - intros t J I Ht HJ HI. rewrite K4, K3, K2, K1 by ne. reflexivity.
  Qed.

  Lemma fill_all x : zlen x = 6 * (nxp * nxp) ->
    exists x', ofor 0 6 (fun x n => fill_tile mid mid4 ni xc n x) x = Ok x' /\ zlen x' = zlen x
      /\ (forall t J I, 0 <= t < 6 -> 0 <= J <= 2 * ni -> 0 <= I <= 2 * ni -> zget x' (at3 nxp nxp t J I) = Some (spt t J I)).
  Proof.
    intros L.
    destruct (ofor_inv (fun n x' => zlen x' = zlen x
        /\ (forall t J I, 0 <= t < n -> 0 <= J <= 2 * ni -> 0 <= I <= 2 * ni -> zget x' (at3 nxp nxp t J I) = Some (spt t J I)))
      (fun x n => fill_tile mid mid4 ni xc n x) 0 6 x) as (x' & E & H); [lia| | |].
    - split; auto. intros; lia.
    - intros n x1 Hn (L1 & G1). destruct (fill_run n x1) as (x2 & E2 & L2 & G2 & K2); [lia|congruence|].
      exists x2. split; auto. split; [congruence|]. intros t J I Ht HJ HI.
      destruct (Z.eq_dec t n) as [->|Hne]; [apply G2; lia|]. rewrite K2 by lia. apply G1; lia.
    - exists x'. auto.
  Qed.
End fill.
