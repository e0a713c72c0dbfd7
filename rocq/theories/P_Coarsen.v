(** Proofs for M_Bilinear: the averaging of --finer_step. *)
From Coq Require Import Reals ZArith List Bool Lia Lra Psatz.
From Verif Require Import Base Loops M_Interp P_Longitude P_Gnomonic2 Spec_Gnomonic Spec_Schmidt Spec_Bilinear M_Bilinear.
Import ListNotations.
Open Scope R_scope.

(** ** Filling rows *)
Lemma fill_row {A} (f : list A -> Z -> outcome (list A)) base lo n (val : Z -> A) o : (0 <= n)%Z ->
  (forall i, (lo <= i < lo + n)%Z -> (0 <= base + i < zlen o)%Z) ->
  (forall s i, (lo <= i < lo + n)%Z -> zlen s = zlen o -> zget s (base + i) = zget o (base + i) -> f s i = oset s (base + i) (val i)) ->
  exists o', ofor lo n f o = Ok o' /\ zlen o' = zlen o /\ (forall i, (lo <= i < lo + n)%Z -> zget o' (base + i) = Some (val i))
    /\ (forall p, ~ (base + lo <= p < base + lo + n)%Z -> zget o' p = zget o p).
Proof.
  intros Hn HR HF.
  destruct (ofor_inv (fun i s => zlen s = zlen o /\ (forall i', (lo <= i' < i)%Z -> zget s (base + i') = Some (val i')) /\ (forall p, ~ (base + lo <= p < base + i)%Z -> zget s p = zget o p))
    f lo n o Hn) as (o' & E & L & G & N).
  - split; auto. split; auto. intros; lia.
  - intros i s Hi (L & G & N). destruct (oset_run s (base + i) (val i)) as (s' & E & L' & G' & N'). { rewrite L. apply HR. auto. }
    exists s'. split; [rewrite HF; auto; apply N; lia|]. split; [congruence|]. split.
    + intros i' Hi'. destruct (Z.eq_dec i' i) as [->|Ne]; auto. rewrite N' by lia. apply G. lia.
    + intros p Hp. rewrite N' by lia. apply N. lia.
  - exists o'. split; auto. split; auto. split; auto. intros p Hp. apply N. lia.
Qed.

Lemma fill_rows {A} (f : list A -> Z -> outcome (list A)) jlo nj m (val : Z -> Z -> A) o : (0 <= nj)%Z -> (0 <= m)%Z ->
  (forall s j, (jlo <= j < jlo + nj)%Z -> zlen s = zlen o -> (forall p, (j * m <= p < j * m + m)%Z -> zget s p = zget o p) ->
     exists s', f s j = Ok s' /\ zlen s' = zlen s /\ (forall i, (0 <= i < m)%Z -> zget s' (j * m + i) = Some (val j i))
       /\ (forall p, ~ (j * m <= p < j * m + m)%Z -> zget s' p = zget s p)) ->
  exists o', ofor jlo nj f o = Ok o' /\ zlen o' = zlen o
    /\ (forall j i, (jlo <= j < jlo + nj)%Z -> (0 <= i < m)%Z -> zget o' (j * m + i) = Some (val j i))
    /\ (forall p, ~ (jlo * m <= p < (jlo + nj) * m)%Z -> zget o' p = zget o p).
Proof.
  intros Hn Hm HF.
  destruct (ofor_inv (fun j s => zlen s = zlen o /\ (forall j' i, (jlo <= j' < j)%Z -> (0 <= i < m)%Z -> zget s (j' * m + i) = Some (val j' i)) /\ (forall p, ~ (jlo * m <= p < j * m)%Z -> zget s p = zget o p))
    f jlo nj o Hn) as (o' & E & L & G & N).
  - split; auto. split; auto. intros; lia.
  - intros j s Hj (L & G & N). destruct (HF s j Hj L) as (s' & E & L' & G' & N'). { intros p Hp. apply N. nia. }
    exists s'. split; auto. split; [congruence|]. split.
    + intros j' i Hj' Hi. destruct (Z.eq_dec j' j) as [->|Ne]; auto. rewrite N' by nia. apply G; auto. lia.
    + intros p Hp. rewrite N' by nia. apply N. nia.
  - exists o'. auto.
Qed.

Section Redu.
  Variables (m k : Z) (V : Z -> Z -> R) (Y : Z -> R) (varfin yfin : list R) (has_missing : bool) (missing : R).
  Hypothesis (Hm : (1 <= m)%Z) (Hk : (1 <= k)%Z).
  Let nx := (2 * m)%Z.
  Let ny := (2 * k + 1)%Z.
  Hypothesis HV : forall j i, (0 <= j < ny)%Z -> (0 <= i < nx)%Z -> zget varfin (j * nx + i) = Some (V j i).
  Hypothesis HY : forall j, (0 <= j < ny)%Z -> zget yfin j = Some (Y j).
  Hypothesis HC : forall j, (0 < j < ny - 1)%Z -> - (PI / 2) < Y j < PI / 2.
  Let X j i := mean_x nx V j (2 * i).
  Definition scaling : R := if has_missing then / missing else 1.
  Hypothesis HM : has_missing = true -> missing <> 0 /\ (forall j i, (0 <= j < ny)%Z -> (0 <= i < nx)%Z -> V j i <> missing)
    /\ (forall j i, (0 < j < ny - 1)%Z -> (0 <= i < m)%Z -> mean_x nx V j (2 * i) * cos (Y j) / missing <> missing).

  Let C j := if ((j =? 0) || (j =? ny - 1))%Z then 0 else cos (Y j).
  Lemma C_nonneg j : (0 <= j < ny)%Z -> 0 <= C j.
  Proof. intros H. unfold C. destruct (Z.eqb_spec j 0), (Z.eqb_spec j (ny - 1)); cbn [orb]; try lra. left. apply cos_gt_0; apply HC; lia. Qed.
  Lemma C_pos j : (0 < j < ny - 1)%Z -> 0 < C j.
  Proof. intros H. unfold C. destruct (Z.eqb_spec j 0), (Z.eqb_spec j (ny - 1)); cbn [orb]; try lia. apply cos_gt_0; apply HC; lia. Qed.

  Lemma vget j i : (0 <= j < ny)%Z -> (0 <= i < nx)%Z -> oget varfin (j * nx + i) = Ok (V j i).
  Proof. intros. apply oget_some. auto. Qed.
  Let miss d := has_missing && (if Req_EM_T d missing then true else false).
  Lemma miss_V j i : (0 <= j < ny)%Z -> (0 <= i < nx)%Z -> miss (V j i) = false.
  Proof. intros. unfold miss. destruct has_missing; auto. destruct (Req_EM_T (V j i) missing) as [E|]; auto. exfalso. apply (proj1 (proj2 (HM eq_refl)) j i); auto. Qed.

  Lemma redu_spec cosp acosp tmp crs : zlen cosp = ny -> zlen acosp = ny -> zlen tmp = (m * ny)%Z -> zlen crs = (m * (k + 1))%Z ->
    exists out, redu2x varfin yfin nx ny crs m (k + 1) has_missing missing cosp acosp tmp = Ok out /\ zlen out = (m * (k + 1))%Z
    /\ (forall i, (0 <= i < m)%Z -> zget out i = Some (V 0%Z (2 * i)%Z) /\ zget out (k * m + i) = Some (V (2 * k)%Z (2 * i)%Z))
    /\ (forall j i, (0 < j < k)%Z -> (0 <= i < m)%Z -> zget out (j * m + i) = Some (mean_area nx Y V (2 * j) (2 * i) * scaling)).
  Proof.
    intros Lc La Lt Lv. unfold redu2x.
    (* cosp *)
    destruct (oset_run cosp 0 0) as (c0 & -> & L0 & G0 & N0); [unfold ny in *; lia|]. cbn [bind].
    destruct (oset_run c0 (ny - 1) 0) as (c1 & -> & L1 & G1 & N1); [unfold ny in *; lia|]. cbn [bind].
    match goal with |- context [ofor 1 (ny - 2) ?f c1] => destruct (fill_row f 0 1 (ny - 2) (fun j => cos (Y j)) c1) as (c2 & -> & L2 & G2 & N2) end.
    { unfold ny; lia. } { intros; lia. } { intros s i Hi Ls _. rewrite (oget_some _ _ _ (HY i ltac:(lia))). reflexivity. }
    cbn [bind].
    assert (GC : forall j, (0 <= j < ny)%Z -> oget c2 j = Ok (C j)).
    { intros j Hj. apply oget_some. unfold C. destruct (Z.eqb_spec j 0) as [->|E0]; cbn [orb]. { rewrite N2 by lia. rewrite N1 by (unfold ny; lia). auto. }
      destruct (Z.eqb_spec j (ny - 1)) as [->|E1]. { rewrite N2 by lia. auto. } specialize (G2 j ltac:(lia)). replace (0 + j)%Z with j in G2 by lia. auto. }
    clear G0 N0 G1 N1 G2 N2.
    (* acosp *)
    match goal with |- context [ofor 1 (ny - 2) ?f acosp] => destruct (fill_row f 0 1 (ny - 2) (fun j => 1 / (C j + 5 / 10 * (C (j - 1)%Z + C (j + 1)%Z))) acosp) as (a2 & -> & L3 & G3 & _) end.
    { unfold ny; lia. } { intros; lia. }
    { intros s i Hi Ls _. rewrite !GC by lia. cbn [bind]. pose proof (C_pos i ltac:(lia)). pose proof (C_nonneg (i - 1) ltac:(lia)). pose proof (C_nonneg (i + 1) ltac:(lia)).
      destruct (Req_EM_T (C i + 5 / 10 * (C (i - 1)%Z + C (i + 1)%Z)) 0) as [E|_]; [exfalso; lra|]. reflexivity. }
    cbn [bind].
    (* x-sweep *)
    assert (EN : (nx / 2 = m)%Z) by (unfold nx; rewrite Z.mul_comm; apply Z.div_mul; lia). rewrite EN.
    assert (MX : forall j, (0 < j < ny - 1)%Z -> forall a b c i, (0 <= a < nx)%Z -> (0 <= b < nx)%Z -> (0 <= c < nx)%Z ->
      b = (2 * i)%Z -> a = ((2 * i - 1) mod nx)%Z -> c = ((2 * i + 1) mod nx)%Z ->
      (if (has_missing && (if Req_EM_T (V j a) missing then true else false)) || (has_missing && (if Req_EM_T (V j b) missing then true else false)) || (has_missing && (if Req_EM_T (V j c) missing then true else false))
       then missing else 25 / 100 * (V j a + 2 * V j b + V j c)) = X j i).
    { intros j Hj a b c i Ha Hb Hc Eb Ea Ec. pose proof (miss_V j a ltac:(lia) Ha) as M1. pose proof (miss_V j b ltac:(lia) Hb) as M2. pose proof (miss_V j c ltac:(lia) Hc) as M3.
      unfold miss in M1, M2, M3. rewrite M1, M2, M3. cbn [orb]. unfold X, mean_x. rewrite <- Ea, <- Ec, <- Eb. lra. }
    match goal with |- context [ofor 1 (ny - 2) ?f tmp] => destruct (fill_rows f 1 (ny - 2) m X tmp) as (t1 & -> & Lt1 & Gt1 & _) end.
    { unfold ny; lia. } { lia. }
    { intros s j Hj Ls _.
      replace (j * nx + nx - 1)%Z with (j * nx + (nx - 1))%Z by lia. rewrite (vget j (nx - 1)) by (unfold nx; lia). cbn [bind].
      replace (oget varfin (j * nx)) with (oget varfin (j * nx + 0)) by (f_equal; lia). rewrite (vget j 0) by (unfold nx; lia). cbn [bind]. rewrite (vget j 1) by (unfold nx; lia). cbn [bind].
      rewrite (MX j ltac:(lia) (nx - 1)%Z 0%Z 1%Z 0%Z) by (unfold nx; try lia; first [rewrite <- (Z.mod_unique (2 * 0 - 1) (2 * m) (-1) (2 * m - 1)); lia | rewrite Z.mod_small; lia]).
      assert (RG : forall i, (0 <= i < m)%Z -> (0 <= j * m + i < zlen s)%Z) by (intros i Hi; rewrite Ls, Lt; unfold ny in *; nia).
      destruct (oset_run s (j * m) (X j 0%Z)) as (s0 & -> & Ls0 & Gs0 & Ns0). { specialize (RG 0%Z ltac:(lia)). lia. } cbn [bind].
      match goal with |- context [ofor 1 (m - 1) ?f s0] => destruct (fill_row f (j * m) 1 (m - 1) (X j) s0) as (s1 & -> & Ls1 & Gs1 & Ns1) end.
      { lia. } { intros i Hi. rewrite Ls0. apply RG. lia. }
      { intros s2 i Hi _ _. replace (j * nx + 2 * i - 1)%Z with (j * nx + (2 * i - 1))%Z by lia. rewrite (vget j (2 * i - 1)), (vget j (2 * i)) by (unfold nx; lia). cbn [bind].
        replace (j * nx + 2 * i + 1)%Z with (j * nx + (2 * i + 1))%Z by lia. rewrite (vget j (2 * i + 1)) by (unfold nx; lia). cbn [bind].
        rewrite (MX j ltac:(lia) (2 * i - 1)%Z (2 * i)%Z (2 * i + 1)%Z i) by (unfold nx; try lia; rewrite Z.mod_small; lia). reflexivity. }
      exists s1. split; auto. split; [congruence|]. split.
      - intros i Hi. destruct (Z.eq_dec i 0) as [->|Ne]; [|apply Gs1; lia]. rewrite Ns1 by lia. rewrite Z.add_0_r. auto.
      - intros p Hp. rewrite Ns1 by lia. apply Ns0. lia. }
    cbn [bind].
    (* poles *)
    replace (ny - 1)%Z with (2 * k)%Z by (unfold ny; lia). replace (k + 1 - 1)%Z with k by lia.
    match goal with |- context [ofor 0 m ?f crs] => destruct (ofor_inv (fun i s => zlen s = zlen crs /\ forall i', (0 <= i' < i)%Z -> zget s i' = Some (V 0%Z (2 * i')%Z) /\ zget s (k * m + i') = Some (V (2 * k)%Z (2 * i')%Z)) f 0 m crs) as (v1 & -> & Lv1 & Gv1) end.
    { lia. } { split; auto. intros; lia. }
    { intros i s Hi (Ls & Gs). replace (oget varfin (i * 2)) with (oget varfin (0 * nx + (2 * i))) by (f_equal; lia). rewrite (vget 0 (2 * i)) by (unfold nx, ny; lia). cbn [bind].
      destruct (oset_run s i (V 0%Z (2 * i)%Z)) as (s0 & -> & Ls0 & Gs0 & Ns0). { rewrite Ls, Lv. nia. } cbn [bind].
      replace (2 * k * nx + i * 2)%Z with (2 * k * nx + 2 * i)%Z by lia. rewrite (vget (2 * k) (2 * i)) by (unfold nx, ny; lia). cbn [bind].
      destruct (oset_run s0 (k * m + i) (V (2 * k)%Z (2 * i)%Z)) as (s1 & -> & Ls1 & Gs1 & Ns1). { rewrite Ls0, Ls, Lv. nia. }
      exists s1. split; auto. split; [congruence|]. intros i' Hi'. destruct (Z.eq_dec i' i) as [->|Ne].
      - split; auto. rewrite Ns1 by nia. auto.
      - destruct (Gs i' ltac:(lia)) as [A B]. split; [rewrite Ns1 by nia; rewrite Ns0 by nia; auto|]. rewrite Ns1 by lia. rewrite Ns0 by nia. auto. }
    cbn [bind].
    (* y-sweep *)
    match goal with |- context [ofor 1 (ny - 2) ?f t1] => destruct (fill_rows f 1 (ny - 2) m (fun j i => X j i * C j * scaling) t1) as (t2 & -> & Lt2 & Gt2 & _) end.
    { unfold ny; lia. } { lia. }
    { intros s j Hj Ls Hs.
      match goal with |- context [ofor 0 m ?f s] => destruct (fill_row f (j * m) 0 m (fun i => X j i * C j * scaling) s) as (s1 & E1 & Ls1 & Gs1 & Ns1) end.
      { lia. } { intros i Hi. rewrite Ls, Lt1, Lt. unfold ny in *. nia. }
      { intros s2 i Hi _ E. rewrite (oget_some s2 (j * m + i) (X j i)). 2: { rewrite E, Hs by lia. apply Gt1; lia. } cbn [bind]. rewrite GC by lia. cbn [bind]. unfold scaling.
        destruct has_missing.
        - destruct (HM eq_refl) as (Z0 & _ & _). destruct (Req_EM_T missing 0); [contradiction|]. destruct (Req_EM_T (X j i / missing) 0) as [E0|_]; f_equal.
          + transitivity (X j i / missing * C j); [rewrite E0; ring|unfold Rdiv; ring].
          + unfold Rdiv. ring.
        - f_equal. ring. }
      exists s1. split; [exact E1|]. split; auto. split; [intros i Hi; apply Gs1; lia|]. intros p Hp. apply Ns1. lia. }
    cbn [bind].
    replace (2 * k / 2 - 1)%Z with (k - 1)%Z by (rewrite (Z.mul_comm 2 k), Z.div_mul; lia).
    assert (MT : forall j i, (0 < j < ny - 1)%Z -> (0 <= i < m)%Z -> has_missing && (if Req_EM_T (X j i * C j * scaling) missing then true else false) = false).
    { intros j i Hj Hi. unfold scaling, C. destruct has_missing; auto. destruct (HM eq_refl) as (_ & _ & H). specialize (H j i Hj Hi).
      destruct (Z.eqb_spec j 0); [lia|]. destruct (Z.eqb_spec j (ny - 1)); [lia|]. cbn [orb]. destruct (Req_EM_T _ missing) as [E|]; auto. exfalso. apply H. exact E. }
    match goal with |- context [ofor 1 (k - 1) ?f v1] => destruct (fill_rows f 1 (k - 1) m (fun j i => mean_area nx Y V (2 * j) (2 * i) * scaling) v1) as (v2 & -> & Lv2 & Gv2 & Nv2) end.
    { lia. } { lia. }
    { intros s j Hj Ls _.
      match goal with |- context [ofor 0 m ?f s] => destruct (fill_row f (j * m) 0 m (fun i => mean_area nx Y V (2 * j) (2 * i) * scaling) s) as (s1 & E1 & Ls1 & Gs1 & Ns1) end.
      { lia. } { intros i Hi. rewrite Ls, Lv1, Lv. nia. }
      { intros s2 i Hi _ _.
        assert (T : forall j', (0 < j' < ny - 1)%Z -> oget t2 (i + j' * m) = Ok (X j' i * C j' * scaling)).
        { intros j' Hj'. replace (i + j' * m)%Z with (j' * m + i)%Z by lia. apply oget_some. apply Gt2; lia. }
        unfold ny in *. rewrite (T (2 * j)%Z), (T (2 * j - 1)%Z), (T (2 * j + 1)%Z) by lia. cbn [bind].
        specialize (G3 (2 * j)%Z ltac:(lia)). replace (0 + 2 * j)%Z with (2 * j)%Z in G3 by lia. rewrite (oget_some _ _ _ G3). cbn [bind].
        rewrite !MT by lia. cbn [orb]. replace (i + j * m)%Z with (j * m + i)%Z by lia. f_equal.
        pose proof (C_pos (2 * j) ltac:(unfold ny; lia)) as P0. pose proof (C_pos (2 * j - 1) ltac:(unfold ny; lia)) as P1. pose proof (C_pos (2 * j + 1) ltac:(unfold ny; lia)) as P2.
        assert (EC : forall j', (0 < j' < 2 * k)%Z -> C j' = cos (Y j')). { intros j' Hj'. unfold C, ny. destruct (Z.eqb_spec j' 0); [lia|]. destruct (Z.eqb_spec j' (2 * k + 1 - 1)); [lia|]. reflexivity. }
        unfold mean_area. fold (X (2 * j) i) (X (2 * j - 1) i) (X (2 * j + 1) i). rewrite <- !EC by lia. field. lra. }
      exists s1. split; [exact E1|]. split; auto. split; [intros i Hi; apply Gs1; lia|]. intros p Hp. apply Ns1. lia. }
    exists v2. split; auto. split; [congruence|]. split.
    - intros i Hi. destruct (Gv1 i Hi) as [A B]. split; rewrite Nv2 by nia; auto.
    - intros j i Hj Hi. apply Gv2; lia.
  Qed.
End Redu.
