(** Proofs for M_Gnomonic: gnomonic_ed, the plane, and symm_ed. *)
From Coq Require Import Reals ZArith List Bool Lia Lra Psatz.
From Verif Require Import Base Loops M_Interp P_Longitude M_Matrix P_Matrix Spec_Gnomonic P_Gnomonic M_Cubic P_Cubic P_Cubic2 M_Gnomonic P_Gnomonic2.
Import ListNotations.
Open Scope Z_scope.

Lemma atan_opp' x : atan (- x) = (- atan x)%R. Proof. apply atan_opp. Qed.
Lemma asin_of s x : (- (PI / 2) <= x <= PI / 2)%R -> sin x = s -> x = asin s.
Proof. intros H <-. symmetry. apply asin_sin. auto. Qed.

Lemma plane_latlon a b : (-1 <= a <= 1 -> -1 <= b <= 1 ->
  xyz2latlon [- q; - q * a; q * b] = Ok (PI + atan a, asin (b / sqrt (1 + a * a + b * b))))%R.
Proof.
  intros Ha Hb. pose proof q_pos as Q. pose proof q_sq as Q2.
  destruct (xyz_spec (- q) (- q * a) (q * b)) as (lo & la & E & B1 & B2 & Z1 & XY & _); [nra|].
  set (m := sqrt (1 + a * a + b * b)). assert (Hm : (0 < m)%R) by (apply sqrt_lt_R0; nra).
  assert (Em : (m * m = 1 + a * a + b * b)%R) by (apply sqrt_sqrt; nra). clearbody m.
  assert (Er : sqrt (- q * - q + - q * a * (- q * a) + q * b * (q * b)) = (q * m)%R).
  { apply sqrt_lem_1; [nra|nra|]. replace (q * m * (q * m))%R with (q * q * (m * m))%R by ring. rewrite Em. ring. }
  cbv zeta in Z1, XY. rewrite Er in Z1, XY. clear Er.
  assert (Elat : sin la = (b / m)%R). { apply Rmult_eq_reg_l with (q * m)%R; [|nra]. rewrite <- Z1. field. lra. }
  assert (Hm2 : (m <= 2)%R) by nra.
  destruct XY as [X Y].
  { rewrite Rabs_Ropp, (Rabs_right q) by lra. pose proof (Rabs_pos (- q * a)). unfold EPSLN10. nra. }
  rewrite E. f_equal. f_equal; [|apply asin_of; auto].
  assert (Hc : (0 <= cos la)%R) by (apply cos_ge_0; lra).
  destruct (cs_atan a) as (E1 & C0 & S0). pose proof (atan_bound a) as AB. pose proof PI_RGT_0.
  set (c := cos (atan a)) in *. set (k := (m * cos la)%R).
  assert (K1 : (k * cos lo = -1)%R). { apply Rmult_eq_reg_l with q; [|lra]. unfold k. lra. }
  assert (K2 : (k * sin lo = - a)%R). { apply Rmult_eq_reg_l with q; [|lra]. unfold k. lra. }
  assert (Hk : (0 <= k)%R) by (unfold k; nra).
  pose proof (sin2_cos2 lo) as SC. unfold Rsqr in SC.
  assert (Ek : (k * k = 1 + a * a)%R).
  { replace (k * k)%R with (k * k * (sin lo * sin lo + cos lo * cos lo))%R by (rewrite SC; ring).
    replace (k * k * (sin lo * sin lo + cos lo * cos lo))%R with ((k * sin lo) * (k * sin lo) + (k * cos lo) * (k * cos lo))%R by ring.
    rewrite K1, K2. ring. }
  rewrite S0 in E1. fold c in E1. clearbody k.
  assert (KC : (k * c = 1)%R). { apply pos_root; [nra|lra|]. nra. }
  apply angle_unique; [lra|lra| |].
  - rewrite (Rplus_comm PI), neg_cos. fold c. apply Rmult_eq_reg_l with k; [|nra]. rewrite K1. lra.
  - rewrite (Rplus_comm PI), neg_sin, S0. fold c. apply Rmult_eq_reg_l with k; [|nra]. rewrite K2. nra.
Qed.

Section ed.
  Context (ni : Z) (Hni : 1 <= ni).
  Notation g := (grad ni).
  Local Notation nip := (ni + 1)%Z.

  Definition Yf (j i : Z) : R := (- q * g i)%R.
  Definition Zf (j i : Z) : R := (q * g j)%R.
  Definition Ked (S : Z -> Z -> Prop) (s : list R * list R * list R) : Prop :=
    zlen (fst (fst s)) = nip * nip /\ known ni (snd (fst s)) S Yf /\ known ni (snd s) S Zf.
  Lemma Ked_weak (S S' : Z -> Z -> Prop) s : (forall j i, 0 <= j <= ni -> 0 <= i <= ni -> S' j i -> S j i) -> Ked S s -> Ked S' s.
  Proof. intros H (A & B & C). split; auto. split; eapply known_weak; eauto. Qed.

  Lemma to_xyz_run lam t j i S s : edge_dir ni lam t j i -> 0 <= j <= ni -> 0 <= i <= ni ->
    (j = 0 \/ j = ni) -> (i = 0 \/ i = ni) -> Ked S s ->
    exists s', to_xyz lam t (j * nip + i) s = Ok s' /\ Ked (fun j' i' => S j' i' \/ (j' = j /\ i' = i)) s'.
  Proof.
    intros (lo & la & r & G1 & G2 & R0 & E & Hr) Hj Hi Cj Ci. destruct s as [[x y] z]. intros (L & K1 & K2). cbn [fst snd] in *.
    specialize (Hr Cj Ci). subst r. unfold to_xyz. rewrite (oget_some _ _ _ G1), (oget_some _ _ _ G2). cbn [bind]. rewrite E.
    destruct (oset_run x (j * nip + i) (- q)%R) as (x' & -> & Lx & _). { rewrite L. apply idx_range; auto. } cbn [bind].
    destruct (known_set ni y _ Yf j i (- g i * q)%R K1 Hj Hi) as (y' & -> & K3). { unfold Yf. ring. } cbn [bind].
    destruct (known_set ni z _ Zf j i (g j * q)%R K2 Hj Hi) as (z' & -> & K4). { unfold Zf. ring. } cbn [bind].
    eexists. split; [reflexivity|]. split; [cbn; congruence|]. split; auto.
  Qed.
  Lemma ed_edge_run lam t j i S s : edge_dir ni lam t j i -> 0 <= j <= ni -> 0 <= i <= ni -> Ked S s ->
    exists s', ed_edge q lam t (j * nip + i) s = Ok s' /\ Ked (fun j' i' => S j' i' \/ (j' = j /\ i' = i)) s'.
  Proof.
    intros (lo & la & r & G1 & G2 & R0 & E & Hr) Hj Hi. destruct s as [[x y] z]. intros (L & [L1 K1] & [L2 K2]). cbn [fst snd] in *.
    unfold ed_edge, to_xyz. rewrite (oget_some _ _ _ G1), (oget_some _ _ _ G2). cbn [bind]. rewrite E.
    assert (RG : 0 <= j * nip + i < nip * nip) by (apply idx_range; auto).
    destruct (oset_run x (j * nip + i) (- r)%R) as (x' & -> & Lx & Gx & _). { now rewrite L. } cbn [bind].
    destruct (oset_run y (j * nip + i) (- g i * r)%R) as (y' & -> & Ly & Gy & Ny). { now rewrite L1. } cbn [bind].
    destruct (oset_run z (j * nip + i) (g j * r)%R) as (z' & -> & Lz & Gz & Nz). { now rewrite L2. } cbn [bind].
    rewrite (oget_some _ _ _ Gx), (oget_some _ _ _ Gy). cbn [bind].
    destruct (oset_run y' (j * nip + i) (- (- g i * r) * q / - r)%R) as (y2 & -> & Ly2 & Gy2 & Ny2). { rewrite Ly. now rewrite L1. } cbn [bind].
    rewrite (oget_some _ _ _ Gz). cbn [bind].
    destruct (oset_run z' (j * nip + i) (- (g j * r) * q / - r)%R) as (z2 & -> & Lz2 & Gz2 & Nz2). { rewrite Lz. now rewrite L2. } cbn [bind].
    eexists. split; [reflexivity|]. split; [cbn; congruence|]. cbn [fst snd]. split; (split; [congruence|]); intros j' i' Hj' Hi' HS;
      (destruct (Z.eq_dec (j' * nip + i') (j * nip + i)) as [Eq|Ne]; [rewrite Eq; apply idx_inj in Eq as [-> ->]; auto|]).
    - rewrite Gy2. f_equal. unfold Yf. field. lra.
    - rewrite Ny2, Ny by auto. apply K1; auto. destruct HS as [HS|[-> ->]]; auto. congruence.
    - rewrite Gz2. f_equal. unfold Zf. field. lra.
    - rewrite Nz2, Nz by auto. apply K2; auto. destruct HS as [HS|[-> ->]]; auto. congruence.
  Qed.

  Lemma cube_run lam t s : (forall j, 0 <= j <= ni -> edge_dir ni lam t j 0) -> (forall i, 0 <= i <= ni -> edge_dir ni lam t 0 i) ->
    edge_dir ni lam t ni ni -> Ked (fun _ _ => False) s ->
    exists s', ed_cube ni q lam t s = Ok s' /\ Ked (fun j i => j = 0 \/ i = 0) s'.
  Proof.
    intros EC ER EN K0. unfold ed_cube. 
    destruct (to_xyz_run lam t 0 0 _ s (EC 0 ltac:(lia)) ltac:(lia) ltac:(lia) ltac:(lia) ltac:(lia) K0) as (s1 & E1 & K1).
    change (0 * nip + 0) with 0 in E1. rewrite E1. cbn [bind].
    destruct (to_xyz_run lam t 0 ni _ s1 (ER ni ltac:(lia)) ltac:(lia) ltac:(lia) ltac:(lia) ltac:(lia) K1) as (s2 & E2 & K2).
    rewrite Z.mul_0_l, Z.add_0_l in E2. rewrite E2. cbn [bind].
    destruct (to_xyz_run lam t ni 0 _ s2 (EC ni ltac:(lia)) ltac:(lia) ltac:(lia) ltac:(lia) ltac:(lia) K2) as (s3 & E3 & K3).
    rewrite Z.add_0_r in E3. rewrite E3. cbn [bind].
    destruct (to_xyz_run lam t ni ni _ s3 EN ltac:(lia) ltac:(lia) ltac:(lia) ltac:(lia) K3) as (s4 & E4 & K4).
    rewrite E4. cbn [bind]. clear E1 E2 E3 E4 K1 K2 K3.
    match goal with |- context [ofor 1 (ni - 1) ?f s4] => destruct (ofor_inv (fun k s => Ked (fun j i => (i = 0 /\ j < k) \/ (i = 0 /\ j = ni) \/ (j = 0 /\ i = ni)) s) f 1 (ni - 1) s4) as (s5 & E5 & K5) end.
    - lia.
    - revert K4. apply Ked_weak. intros; lia.
    - intros k s5 Hk K5. rewrite (idx_c0 ni k). 
      destruct (ed_edge_run lam t k 0 _ s5 (EC k ltac:(lia)) ltac:(lia) ltac:(lia) K5) as (s6 & -> & K6). exists s6. split; auto.
      revert K6. apply Ked_weak. intros; lia.
    - rewrite E5. cbn [bind].
      match goal with |- context [ofor 1 (ni - 1) ?f s5] => destruct (ofor_inv (fun k s => Ked (fun j i => i = 0 \/ (j = 0 /\ i < k) \/ (j = 0 /\ i = ni)) s) f 1 (ni - 1) s5) as (s6 & E6 & K6) end.
      + lia.
      + revert K5. apply Ked_weak. intros; lia.
      + intros k s6 Hk K6. pose proof (ed_edge_run lam t 0 k _ s6 (ER k ltac:(lia)) ltac:(lia) ltac:(lia) K6) as (s7 & E7 & K7).
        rewrite Z.mul_0_l, Z.add_0_l in E7. exists s7. split; auto. revert K7. apply Ked_weak. intros; lia.
      + exists s6. split; auto. revert K6. apply Ked_weak. intros; lia.
  Qed.

  Definition Xf (j i : Z) : R := (- q)%R.
  Lemma plane_run s : Ked (fun j i => j = 0 \/ i = 0) s ->
    exists x y z, ed_plane ni q s = Ok (x, y, z) /\ known ni x (fun _ _ => True) Xf /\ known ni y (fun _ _ => True) Yf /\ known ni z (fun _ _ => True) Zf.
  Proof.
    destruct s as [[x y] z]. intros (L & K1 & K2). cbn [fst snd] in *. unfold ed_plane. 
    destruct (store2_run nip nip (fun j i => j * nip + i) (fun _ _ => Ok (- q)%R) (fun _ _ => (- q)%R) x) as (x' & E & Lx & Gx & _).
    { lia. } { idtac; lia. }
    { intros j i Hj Hi. split; auto. rewrite L. apply (idx_range ni); lia. }
    { intros j i j' i' ? ? ? ? Eq. apply (idx_inj ni) in Eq; auto; lia. }
    rewrite E. cbn [bind].
    match goal with |- context [ofor 1 (nip - 1) ?f (y, z)] => destruct (ofor_inv (fun k (s : list R * list R) =>
      known ni (fst s) (fun j i => j < k \/ i = 0) Yf /\ known ni (snd s) (fun j i => j < k \/ i = 0) Zf) f 1 (nip - 1) (y, z)) as ([y' z'] & E5 & K5 & K6) end.
    - lia.
    - cbn [fst snd]. split; eapply known_weak; eauto; cbv beta; intros; lia.
    - intros k [y1 z1] Hk [K3 K4]. cbn [fst snd] in *.
      match goal with |- context [ofor 1 (nip - 1) ?f (y1, z1)] => destruct (ofor_inv (fun l (s : list R * list R) =>
        known ni (fst s) (fun j i => j < k \/ i = 0 \/ (j = k /\ i < l)) Yf /\ known ni (snd s) (fun j i => j < k \/ i = 0 \/ (j = k /\ i < l)) Zf) f 1 (nip - 1) (y1, z1)) as ([y' z'] & E5 & K5 & K6) end.
      + lia.
      + cbn [fst snd]. split; eapply known_weak; eauto; cbv beta; intros; lia.
      + intros l [y2 z2] Hl [K5 K6]. cbn [fst snd] in *.
        pose proof (known_get ni _ _ _ 0 l K5 ltac:(lia) ltac:(lia) ltac:(cbv beta; lia)) as G1. rewrite Z.mul_0_l, Z.add_0_l in G1. rewrite G1. cbn [bind].
        destruct (known_set ni y2 _ Yf k l (Yf 0 l) K5) as (y3 & E3 & K7); [lia|lia|reflexivity|].  rewrite E3. cbn [bind].
        pose proof (known_get ni _ _ _ k 0 K6 ltac:(lia) ltac:(lia) ltac:(cbv beta; lia)) as G2. rewrite Z.add_0_r in G2.  rewrite G2. cbn [bind].
        destruct (known_set ni z2 _ Zf k l (Zf k 0) K6) as (z3 & E4 & K8); [lia|lia|reflexivity|].  rewrite E4. cbn [bind].
        eexists. split; [reflexivity|]. cbn [fst snd]. split; eapply known_weak; eauto; cbv beta; intros; lia.
      + exists (y', z'). split; auto. cbn [fst snd] in *. split; eapply known_weak; eauto; cbv beta; idtac; intros; lia.
    - rewrite E5. cbn [bind fst snd] in *. exists x', y', z'. split; auto. split.
      + split; [congruence|]. intros j i Hj Hi _. apply (Gx j i); lia.
      + split; eapply known_weak; eauto; cbv beta; idtac; intros; lia.
  Qed.

  Definition LL (j i : Z) : R := (PI + atan (g i))%R.
  Definition TT (j i : Z) : R := asin (g j / sqrt (1 + g i * g i + g j * g j)).

  Lemma point_latlon j i : 0 <= j <= ni -> 0 <= i <= ni -> xyz2latlon [Xf j i; Yf j i; Zf j i] = Ok (LL j i, TT j i).
  Proof. intros Hj Hi. apply plane_latlon; apply grad_bounds; auto. Qed.

  Lemma split_idx k : 0 <= k < nip * nip -> exists j i, k = j * nip + i /\ 0 <= j <= ni /\ 0 <= i <= ni.
  Proof.
    intros H. exists (k / nip), (k mod nip). pose proof (Z.div_mod k nip ltac:(lia)). pose proof (Z.mod_pos_bound k nip ltac:(lia)).
    split; [lia|]. split; [|lia]. split; [apply Z.div_pos; lia|].
    assert (k / (ni + 1) < ni + 1) by (apply Z.div_lt_upper_bound; lia). lia.
  Qed.

  Lemma latlon_run x y z lam t : known ni x (fun _ _ => True) Xf -> known ni y (fun _ _ => True) Yf -> known ni z (fun _ _ => True) Zf ->
    zlen lam = nip * nip -> zlen t = nip * nip ->
    exists lam' t', all_latlon (nip * nip) x y z lam t = Ok (lam', t') /\ known ni lam' (fun _ _ => True) LL /\ known ni t' (fun _ _ => True) TT.
  Proof.
    intros KX KY KZ L1 L2. unfold all_latlon.
    match goal with |- context [ofor 0 (nip * nip) ?f (lam, t)] => destruct (ofor_inv (fun k (s : list R * list R) =>
      known ni (fst s) (fun j i => j * nip + i < k) LL /\ known ni (snd s) (fun j i => j * nip + i < k) TT) f 0 (nip * nip) (lam, t)) as ([lam' t'] & E & K1 & K2) end.
    - idtac; nia.
    - cbn [fst snd]. split; (split; [auto|]); intros j i Hj Hi HS; pose proof (idx_range ni j i Hj Hi); lia.
    - intros k [l1 t1] Hk [K1 K2]. cbn [fst snd] in *. destruct (split_idx k ltac:(lia)) as (j & i & -> & Hj & Hi).
      pose proof (known_get ni _ _ _ j i KX Hj Hi I) as G1. pose proof (known_get ni _ _ _ j i KY Hj Hi I) as G2. pose proof (known_get ni _ _ _ j i KZ Hj Hi I) as G3.  rewrite G1, G2, G3. cbn [bind]. rewrite point_latlon by auto. cbn [bind].
      destruct (known_set ni l1 _ LL j i _ K1 Hj Hi eq_refl) as (l2 & E2 & K3).  rewrite E2. cbn [bind].
      destruct (known_set ni t1 _ TT j i _ K2 Hj Hi eq_refl) as (t2 & E3 & K4).  rewrite E3. cbn [bind].
      eexists. split; [reflexivity|]. cbn [fst snd]. split; eapply known_weak; eauto; cbv beta; intros j' i' Hj' Hi' HS.
      all: destruct (Z.eq_dec (j' * nip + i') (j * nip + i)) as [Eq|]; [right; eapply idx_inj; eauto|left; lia].
    - exists lam', t'. split; auto. cbn [fst snd] in *. split; eapply known_weak; eauto; cbv beta; intros j i Hj Hi _; pose proof (idx_range ni j i Hj Hi); lia.
  Qed.

  Lemma gnomonic_run x y z lam t : zlen x = nip * nip -> zlen y = nip * nip -> zlen z = nip * nip -> zlen lam = nip * nip -> zlen t = nip * nip ->
    exists lam' t', gnomonic_ed ni (x, y, z) lam t = Ok (lam', t') /\ known ni lam' (fun _ _ => True) LL /\ known ni t' (fun _ _ => True) TT.
  Proof.
    intros Lx Ly Lz Ll Lt. unfold gnomonic_ed. change (asin (1 / sqrt 3)) with half_edge. change (1 / sqrt 3)%R with q.
    destruct (west_east_run ni Hni half_edge (2 * half_edge / IZR ni)%R lam t eq_refl eq_refl Ll Lt) as (l1 & t1 & -> & K1 & K2). cbn [bind].
    destruct (south_north_run ni Hni l1 t1 K1 K2) as (l2 & t2 & -> & L1 & L2 & E1 & E2 & E3). cbn [bind].
    destruct (cube_run l2 t2 (x, y, z) E1 E2 E3) as (s & -> & K3). { split; auto. split; split; auto; intros; contradiction. } cbn [bind].
    destruct (plane_run s K3) as (x1 & y1 & z1 & -> & K4 & K5 & K6). cbn [bind].
    apply latlon_run; auto.
  Qed.

  (** ** symm_ed changes nothing *)
  Lemma known_at {A} (a : list A) F j i : known ni a (fun _ _ => True) F -> 0 <= j <= ni -> 0 <= i <= ni ->
    oget a (j * nip + i) = Ok (F j i) /\ forall v, v = F j i -> oset a (j * nip + i) v = Ok a.
  Proof.
    intros K Hj Hi. pose proof (known_get ni _ _ _ j i K Hj Hi I) as G. split; auto. intros v ->. apply oset_same. apply oget_Ok. auto.
  Qed.
  Lemma ofor_fix {S} (f : S -> Z -> outcome S) b n (s : S) : 0 <= n -> (forall k, b <= k < b + n -> f s k = Ok s) -> ofor b n f s = Ok s.
  Proof.
    intros Hn H. destruct (ofor_inv (fun _ s' => s' = s) f b n s) as (s' & E & ->); auto. intros k s' Hk ->. exists s. auto.
  Qed.

  Lemma LL_opp j i : (LL j (ni - i) = 2 * PI - LL j i)%R.
  Proof. unfold LL. rewrite grad_opp, atan_opp by auto. ring. Qed.
  Lemma TT_opp_i j i : TT j (ni - i) = TT j i.
  Proof. unfold TT. rewrite grad_opp by auto. now rewrite Rmult_opp_opp. Qed.
  Lemma TT_opp_j j i : (TT (ni - j) i = - TT j i)%R.
  Proof. unfold TT. rewrite grad_opp by auto. rewrite Rmult_opp_opp. unfold Rdiv. now rewrite Ropp_mult_distr_l_reverse, asin_opp. Qed.

  Lemma symm_run lam t : known ni lam (fun _ _ => True) LL -> known ni t (fun _ _ => True) TT -> symm_ed ni lam t = Ok (lam, t).
  Proof.
    intros KL KT. unfold symm_ed.  pose proof (Z.div_mod ni 2 ltac:(lia)) as D. pose proof (Z.mod_pos_bound ni 2 ltac:(lia)) as M.
    rewrite (ofor_fix _ 1 (nip - 1) lam).
    2: { lia. }
    2: { intros j Hj. apply ofor_fix; [lia|]. intros i Hi. unfold copy1.
         destruct (known_at lam LL 0 i KL ltac:(lia) ltac:(lia)) as [G _]. rewrite Z.mul_0_l, Z.add_0_l in G. rewrite G. cbn [bind].
         apply (known_at lam LL j i KL); [lia|lia|reflexivity]. }
    cbn [bind]. rewrite (ofor_fix _ 0 nip (lam, t)).
    2: { lia. }
    2: { intros j Hj. apply ofor_fix; [lia|]. intros i Hi.
         destruct (known_at lam LL j i KL ltac:(lia) ltac:(lia)) as [G1 S1]. destruct (known_at lam LL j (ni - i) KL ltac:(lia) ltac:(lia)) as [G2 S2].
         destruct (known_at t TT j i KT ltac:(lia) ltac:(lia)) as [G3 S3]. destruct (known_at t TT j (ni - i) KT ltac:(lia) ltac:(lia)) as [G4 S4].
         cbv zeta. rewrite G1, G2. cbn [bind]. rewrite S1 by (rewrite LL_opp; field). cbn [bind]. rewrite S2 by (rewrite LL_opp; field). cbn [bind].
         rewrite G3, G4. cbn [bind]. rewrite S3 by (rewrite TT_opp_i; field). cbn [bind]. rewrite S4 by (rewrite TT_opp_i; field). reflexivity. }
    cbn [bind]. apply ofor_fix; [lia|]. intros j Hj. cbv zeta. apply ofor_fix; [lia|]. intros i Hi.
    destruct (known_at lam LL j i KL ltac:(lia) ltac:(lia)) as [G1 S1]. destruct (known_at lam LL (ni - j) i KL ltac:(lia) ltac:(lia)) as [G2 S2].
    destruct (known_at t TT j i KT ltac:(lia) ltac:(lia)) as [G3 S3]. destruct (known_at t TT (ni - j) i KT ltac:(lia) ltac:(lia)) as [G4 S4].
    rewrite G1, G2. cbn [bind]. assert (ELL : LL (ni - j) i = LL j i) by reflexivity. rewrite ELL.
    rewrite S1 by field. cbn [bind]. rewrite S2 by (rewrite ELL; field). cbn [bind].
    rewrite G3, G4. cbn [bind]. rewrite TT_opp_j in *. rewrite S3 by field. cbn [bind]. rewrite S4 by field. reflexivity.
  Qed.
End ed.
