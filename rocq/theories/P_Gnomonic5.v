(** Proofs for M_Gnomonic: mirror_grid and cubic_start. *)
From Coq Require Import Reals ZArith List Bool Lia Lra Psatz.
From Verif Require Import Base Loops M_Interp P_Longitude M_Matrix P_Matrix Spec_Gnomonic P_Gnomonic M_Cubic P_Cubic P_Cubic2 M_Gnomonic P_Gnomonic2 P_Gnomonic3 P_Gnomonic4.
Import ListNotations.
Open Scope Z_scope.

Section six.
  Context (ni : Z) (Hni : 1 <= ni <= 2147483647).
  Local Notation g := (grad ni).
  Local Notation nip := (ni + 1).
  Local Notation p3 := (at3 nip nip).
  Let Hn1 : 1 <= ni := proj1 Hni.

  Definition first_tile (x : list R) (F : Z -> Z -> R) : Prop :=
    zlen x = 6 * (nip * nip) /\ forall j i, 0 <= j <= ni -> 0 <= i <= ni -> zget x (j * nip + i) = Some (F j i).
  Definition AA (j i : Z) : R := atan (g i).

  Lemma first_at x F j i : first_tile x F -> 0 <= j <= ni -> 0 <= i <= ni ->
    oget x (j * nip + i) = Ok (F j i) /\ forall v, v = F j i -> oset x (j * nip + i) v = Ok x.
  Proof. intros [L K] Hj Hi. specialize (K j i Hj Hi). split; [apply oget_some; auto|]. intros v ->. apply oset_same. auto. Qed.

  Lemma sgn_abs v : (Rabs v * sgn1 v = v)%R.
  Proof.
    unfold sgn1. destruct (rlt_cases v 0) as [[-> H]|[-> H]]; [rewrite Rabs_left by lra|rewrite Rabs_right by lra]; ring.
  Qed.
  Lemma mean4_run x F j i : first_tile x F -> 0 <= j <= ni -> 0 <= i <= ni ->
    (Rabs (F j (ni - i)) = Rabs (F j i) -> Rabs (F (ni - j) i) = Rabs (F j i) -> Rabs (F (ni - j) (ni - i)) = Rabs (F j i) ->
     mean4 nip j (ni - j) i (ni - i) x = Ok x)%Z.
  Proof.
    intros K Hj Hi A B C. unfold mean4.
    destruct (first_at x F j i K) as [G1 S1]; [lia|lia|]. destruct (first_at x F j (ni - i) K) as [G2 S2]; [lia|lia|].
    destruct (first_at x F (ni - j) i K) as [G3 S3]; [lia|lia|]. destruct (first_at x F (ni - j) (ni - i) K) as [G4 S4]; [lia|lia|].
    rewrite G1, G2, G3, G4. cbn [bind]. rewrite A, B, C.
    assert (E : (1 / 4 * (Rabs (F j i) + Rabs (F j i) + Rabs (F j i) + Rabs (F j i)) = Rabs (F j i))%R) by field. rewrite E.
    rewrite S1 by apply sgn_abs. cbn [bind]. rewrite G2. cbn [bind]. rewrite S2 by (rewrite <- A; apply sgn_abs). cbn [bind].
    rewrite G3. cbn [bind]. rewrite S3 by (rewrite <- B; apply sgn_abs). cbn [bind]. rewrite G4. cbn [bind].
    apply S4. rewrite <- C. apply sgn_abs.
  Qed.

  Lemma mirror_first_run x y : first_tile x AA -> first_tile y (TT ni) -> mirror_first ni x y = Ok (x, y).
  Proof.
    intros KX KY. unfold mirror_first. cbv zeta.
    assert (Hh : forall k, 0 <= k < 0 + (nip + 1) / 2 -> 0 <= k <= ni).
    { intros k Hk. pose proof (Z.div_mod (nip + 1) 2 ltac:(lia)). pose proof (Z.mod_pos_bound (nip + 1) 2 ltac:(lia)). lia. }
    apply ofor_fix; [apply Z.div_pos; lia|]. intros j Hj. apply ofor_fix; [apply Z.div_pos; lia|]. intros i Hi. apply Hh in Hj. apply Hh in Hi.
    rewrite (mean4_run x AA j i KX Hj Hi).
    2, 3, 4: unfold AA; rewrite ?grad_opp, ?atan_opp, ?Rabs_Ropp by auto; reflexivity.
    cbn [bind]. rewrite (mean4_run y (TT ni) j i KY Hj Hi).
    2, 3, 4: rewrite ?TT_opp_i, ?TT_opp_j, ?TT_opp_i, ?Rabs_Ropp by auto; reflexivity.
    cbn [bind]. destruct (negb (nip mod 2 =? 0)) eqn:Odd; cbn [andb]; [|reflexivity].
    destruct (Z.eqb_spec i ((nip - 1) / 2)) as [Ei|Ei]; [|reflexivity].
    assert (G : g i = 0%R). { apply grad_mid; auto. rewrite Ei. apply (odd_mid ni Odd). }
    rewrite (proj2 (first_at x AA j i KX ltac:(lia) ltac:(lia))) by (unfold AA; rewrite G, atan_0; reflexivity). cbn [bind].
    rewrite (proj2 (first_at x AA (ni - j) i KX ltac:(lia) ltac:(lia))) by (unfold AA; rewrite G, atan_0; reflexivity). reflexivity.
  Qed.

  Definition pt (x y : list R) (t j i : Z) : Prop :=
    exists lon lat, zget x (p3 t j i) = Some lon /\ zget y (p3 t j i) = Some lat
      /\ toward lon lat (face t (g i) (g j)) /\ in_range lon lat.
  Lemma p3_0 j i : p3 0 j i = j * nip + i. Proof. unfold at3. lia. Qed.

  Lemma mirror_step x y t j i : first_tile x AA -> first_tile y (TT ni) -> 1 <= t < 6 -> 0 <= j <= ni -> 0 <= i <= ni ->
    exists x' y', (do x1 <- oget x (j * nip + i) ; do y1 <- oget y (j * nip + i) ;
       do '(x2, y2) <- mirror_point ni t j i x1 y1 ;
       do x <- oset x (p3 t j i) x2 ; do y <- oset y (p3 t j i) y2 ; Ok (x, y)) = Ok (x', y')
     /\ first_tile x' AA /\ first_tile y' (TT ni) /\ pt x' y' t j i
     /\ forall t' j' i', 0 <= j' <= ni -> 0 <= i' <= ni -> pt x y t' j' i' -> pt x' y' t' j' i'.
  Proof.
    intros KX KY Ht Hj Hi.
    rewrite (proj1 (first_at x AA j i KX Hj Hi)), (proj1 (first_at y (TT ni) j i KY Hj Hi)). cbn [bind].
    destruct (mirror_point_run ni Hni t j i Ht Hj Hi) as (lon & lat & E & T & Rg). unfold AA at 1. rewrite E. cbn [bind].
    destruct KX as [LX KX], KY as [LY KY].
    pose proof (at3_range nip nip t j i ltac:(lia) ltac:(lia) ltac:(lia)) as RG.
    destruct (oset_run x (p3 t j i) lon) as (x' & -> & LX' & GX & NX); [rewrite LX; auto|]. cbn [bind].
    destruct (oset_run y (p3 t j i) lat) as (y' & -> & LY' & GY & NY); [rewrite LY; auto|]. cbn [bind].
    exists x', y'. split; [reflexivity|].
    assert (NE : forall j' i', 0 <= j' <= ni -> 0 <= i' <= ni -> j' * nip + i' <> p3 t j i).
    { intros j' i' Hj' Hi' Eq. rewrite <- p3_0 in Eq. apply at3_inj in Eq; lia. }
    assert (PT : pt x' y' t j i) by (exists lon, lat; auto).
    split; [split; [congruence|intros; rewrite NX by auto; auto]|]. split; [split; [congruence|intros; rewrite NY by auto; auto]|]. split; auto.
    intros t' j' i' Hj' Hi' (lo & la & G1 & G2 & HT & HR). destruct (Z.eq_dec (p3 t' j' i') (p3 t j i)) as [Eq|Ne].
    - apply at3_inj in Eq as (-> & -> & ->); try lia. auto.
    - exists lo, la. rewrite NX, NY by auto. auto.
  Qed.

  Lemma mirror_run x y : first_tile x AA -> first_tile y (TT ni) ->
    exists x' y', mirror_grid ni x y = Ok (x', y') /\ zlen x' = 6 * (nip * nip) /\ zlen y' = 6 * (nip * nip)
      /\ forall t j i, 0 <= t < 6 -> 0 <= j <= ni -> 0 <= i <= ni -> pt x' y' t j i.
  Proof.
    intros KX KY. unfold mirror_grid. rewrite mirror_first_run by auto. cbn [bind].
    match goal with |- context [ofor 1 5 ?f (x, y)] => destruct (ofor_inv (fun k (s : list R * list R) =>
      first_tile (fst s) AA /\ first_tile (snd s) (TT ni) /\
      forall t j i, 1 <= t < k -> 0 <= j <= ni -> 0 <= i <= ni -> pt (fst s) (snd s) t j i) f 1 5 (x, y)) as ([x' y'] & E & K1 & K2 & K3) end.
    - lia.
    - cbn [fst snd]. split; auto. split; auto. intros; lia.
    - intros t [x1 y1] Ht (K1 & K2 & K3). cbn [fst snd] in *.
      match goal with |- context [ofor 0 nip ?f (x1, y1)] => destruct (ofor_inv (fun k (s : list R * list R) =>
        first_tile (fst s) AA /\ first_tile (snd s) (TT ni) /\
        forall t' j i, 1 <= t' -> (t' < t \/ (t' = t /\ j < k)) -> 0 <= j <= ni -> 0 <= i <= ni -> pt (fst s) (snd s) t' j i) f 0 nip (x1, y1)) as ([x' y'] & E & K4 & K5 & K6) end.
      + lia.
      + cbn [fst snd]. split; auto. split; auto. intros. apply K3; lia.
      + intros j [x2 y2] Hj (K4 & K5 & K6). cbn [fst snd] in *.
        match goal with |- context [ofor 0 nip ?f (x2, y2)] => destruct (ofor_inv (fun k (s : list R * list R) =>
          first_tile (fst s) AA /\ first_tile (snd s) (TT ni) /\
          forall t' j' i, 1 <= t' -> (t' < t \/ (t' = t /\ j' < j) \/ (t' = t /\ j' = j /\ i < k)) -> 0 <= j' <= ni -> 0 <= i <= ni -> pt (fst s) (snd s) t' j' i) f 0 nip (x2, y2)) as ([x' y'] & E & K7 & K8 & K9) end.
        * lia.
        * cbn [fst snd]. split; auto. split; auto. intros. apply K6; lia.
        * intros i [x3 y3] Hi (K7 & K8 & K9). cbn [fst snd] in *.
          destruct (mirror_step x3 y3 t j i K7 K8 ltac:(lia) ltac:(lia) ltac:(lia)) as (x4 & y4 & E & K10 & K11 & P & Q).
          exists (x4, y4). split; [exact E|]. cbn [fst snd]. split; auto. split; auto.
          intros t' j' i' Ht' HH Hj' Hi'. assert (HC : (t' = t /\ j' = j /\ i' = i) \/ (t' < t \/ (t' = t /\ j' < j) \/ (t' = t /\ j' = j /\ i' < i))) by lia.
          destruct HC as [(-> & -> & ->)|HC]; [exact P|]. apply Q; auto.
        * exists (x', y'). split; [exact E|]. cbn [fst snd] in *. split; auto. split; auto. intros. apply K9; lia.
      + exists (x', y'). split; [exact E|]. cbn [fst snd] in *. split; auto. split; auto. intros. apply K6; lia.
    - cbn [fst snd] in *. exists x', y'. split; [exact E|]. split; [apply K1|]. split; [apply K2|].
      intros t j i Ht Hj Hi. destruct (Z.eq_dec t 0) as [->|]; [|apply K3; lia].
      exists (AA j i), (TT ni j i). rewrite p3_0. destruct K1 as [_ K1], K2 as [_ K2]. split; auto. split; auto.
      destruct (start_on (g i) (g j)) as (On & Rg & Hk & _); [apply grad_bounds; auto|apply grad_bounds; auto|].
      split; [|exact Rg]. eapply on_toward; [exact Hk|exact On].
  Qed.

  Lemma start_run x y z lam th xc yc : zlen x = nip * nip -> zlen y = nip * nip -> zlen z = nip * nip ->
    zlen lam = nip * nip -> zlen th = nip * nip -> zlen xc = 6 * (nip * nip) -> zlen yc = 6 * (nip * nip) ->
    exists x' y', cubic_start ni (x, y, z) lam th xc yc = Ok (x', y') /\ zlen x' = 6 * (nip * nip) /\ zlen y' = 6 * (nip * nip)
      /\ forall t j i, 0 <= t < 6 -> 0 <= j <= ni -> 0 <= i <= ni -> pt x' y' t j i.
  Proof.
    intros L1 L2 L3 L4 L5 L6 L7. unfold cubic_start.
    destruct (gnomonic_run ni Hn1 x y z lam th L1 L2 L3 L4 L5) as (l1 & t1 & -> & K1 & K2). cbn [bind].
    rewrite (symm_run ni Hn1 l1 t1 K1 K2). cbn [bind].
    assert (IN : forall j i, 0 <= j < nip -> 0 <= i < nip -> 0 <= j * nip + i < 6 * (nip * nip)).
    { intros j i Hj Hi. pose proof (idx_range ni j i ltac:(lia) ltac:(lia)). nia. }
    destruct (store2_run nip nip (fun j i => j * nip + i) (fun j i => do v <- oget l1 (j * nip + i) ; Ok (v - PI)%R) AA xc) as (x' & -> & LX & GX & _);
      [lia|lia| | |].
    { intros j i Hj Hi. rewrite (proj1 (known_at ni l1 (LL ni) j i K1 ltac:(lia) ltac:(lia))). cbn [bind]. split; [f_equal; unfold LL, AA; ring|]. rewrite L6. auto. }
    { intros j i j' i' ? ? ? ? Eq. apply idx_inj in Eq; lia. }
    cbn [bind].
    destruct (store2_run nip nip (fun j i => j * nip + i) (fun j i => oget t1 (j * nip + i)) (TT ni) yc) as (y' & -> & LY & GY & _);
      [lia|lia| | |].
    { intros j i Hj Hi. rewrite (proj1 (known_at ni t1 (TT ni) j i K2 ltac:(lia) ltac:(lia))). split; [reflexivity|]. rewrite L7. auto. }
    { intros j i j' i' ? ? ? ? Eq. apply idx_inj in Eq; lia. }
    cbn [bind]. apply mirror_run.
    - split; [congruence|]. intros j i Hj Hi. apply (GX j i); lia.
    - split; [congruence|]. intros j i Hj Hi. apply (GY j i); lia.
  Qed.
End six.
