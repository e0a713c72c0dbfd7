(** Proofs for M_Gnomonic: gnomonic_ed and symm_ed. *)
From Coq Require Import Reals ZArith List Bool Lia Lra Psatz.
From Verif Require Import Base Loops M_Interp P_Longitude M_Matrix P_Matrix Spec_Gnomonic P_Gnomonic M_Cubic P_Cubic P_Cubic2 M_Gnomonic.
Import ListNotations.
Open Scope R_scope.

Lemma oset_same {A} (a : list A) k v : zget a k = Some v -> oset a k v = Ok a.
Proof.
  intros H. pose proof (zget_Some_range _ _ _ H). destruct (zset_Some a k v H0) as [a' E].
  rewrite (proj2 (oset_Ok _ _ _ _) E). f_equal. apply zget_ext. apply (zset_len _ _ _ _ E).
  intros i _. destruct (Z.eq_dec k i) as [->|Hne]; [rewrite (zget_zset_eq _ _ _ _ E); auto|apply (zget_zset_ne _ _ _ _ _ E); auto].
Qed.
Lemma oset_run {A} (a : list A) k v : (0 <= k < zlen a)%Z ->
  exists a', oset a k v = Ok a' /\ zlen a' = zlen a /\ zget a' k = Some v /\ forall i, i <> k -> zget a' i = zget a i.
Proof.
  intros H. destruct (zset_Some a k v H) as [a' E]. exists a'. rewrite (proj2 (oset_Ok _ _ _ _) E). split; auto.
  split; [apply (zset_len _ _ _ _ E)|]. split; [apply (zget_zset_eq _ _ _ _ E)|]. intros i Hi. apply (zget_zset_ne _ _ _ _ _ E). auto.
Qed.
Lemma oget_some {A} (a : list A) k v : zget a k = Some v -> oget a k = Ok v.
Proof. apply oget_Ok. Qed.

Lemma l3 {A} (a b c a' b' c' : A) : a = a' -> b = b' -> c = c' -> [a; b; c] = [a'; b'; c'].
Proof. now intros -> -> ->. Qed.

(** ** Points of the edges *)
Section ed.
  Context (ni : Z) (Hni : (1 <= ni)%Z).
  Notation g := (grad ni).
  Notation th := (ang ni).
  Let nip := (ni + 1)%Z.

  Definition rr k := cos (th k) / sqrt 2.
  Lemma rr_pos k : (0 <= k <= ni)%Z -> 0 < rr k.
  Proof. intros H. unfold rr. pose proof (cos_ang_pos ni Hni k H). apply Rdiv_lt_0_compat; [auto|apply s2_pos]. Qed.
  Lemma rr_sin k : (0 <= k <= ni)%Z -> sin (th k) = g k * rr k.
  Proof.
    intros H. pose proof (sin_ang ni Hni k H). unfold rr. pose proof s2_pos.
    apply Rmult_eq_reg_l with (sqrt 2); [|lra]. rewrite H0. field. lra.
  Qed.
  Lemma rr_norm k : (0 <= k <= ni)%Z -> rr k * rr k * (2 + g k * g k) = 1.
  Proof.
    intros H. pose proof (rr_sin k H). pose proof (sin2_cos2 (th k)) as E. unfold Rsqr in E. rewrite H0 in E.
    assert (cos (th k) = sqrt 2 * rr k). { unfold rr. pose proof s2_pos. field. lra. } rewrite H1 in E.
    pose proof s2_sq. nra.
  Qed.
  Lemma rr_0 : rr 0 = q. Proof. unfold rr. rewrite ang_0 by auto. rewrite cos_neg, cos_h. pose proof s2_pos. field. lra. Qed.
  Lemma rr_n : rr ni = q. Proof. unfold rr. rewrite ang_n by auto. rewrite cos_h. pose proof s2_pos. field. lra. Qed.

  Lemma cos_west : cos (3 / 4 * PI) = - (1 / sqrt 2).
  Proof. replace (3 / 4 * PI) with (3 * (PI / 4)) by field. rewrite cos_3PI4. field. pose proof s2_pos. lra. Qed.
  Lemma sin_west : sin (3 / 4 * PI) = 1 / sqrt 2.
  Proof. replace (3 / 4 * PI) with (3 * (PI / 4)) by field. apply sin_3PI4. Qed.
  Lemma cos_east : cos (5 / 4 * PI) = - (1 / sqrt 2).
  Proof. replace (5 / 4 * PI) with (PI / 4 + PI) by field. rewrite neg_cos, cos_PI4. reflexivity. Qed.
  Lemma sin_east : sin (5 / 4 * PI) = - (1 / sqrt 2).
  Proof. replace (5 / 4 * PI) with (PI / 4 + PI) by field. rewrite neg_sin, sin_PI4. reflexivity. Qed.

  Lemma west_xyz k : (0 <= k <= ni)%Z -> latlon2xyz (3 / 4 * PI) (th k) = [- rr k; rr k; g k * rr k].
  Proof. intros H. unfold latlon2xyz. rewrite cos_west, sin_west, (rr_sin k H). unfold rr. pose proof s2_pos; apply l3; field; lra. Qed.
  Lemma east_xyz k : (0 <= k <= ni)%Z -> latlon2xyz (5 / 4 * PI) (th k) = [- rr k; - rr k; g k * rr k].
  Proof. intros H. unfold latlon2xyz. rewrite cos_east, sin_east, (rr_sin k H). unfold rr. pose proof s2_pos; apply l3; field; lra. Qed.

  Lemma mirror_run k : (0 <= k <= ni)%Z -> exists lo la,
    mirror_latlon (3 / 4 * PI) (th 0) (5 / 4 * PI) (th ni) (3 / 4 * PI) (th k) = Ok (lo, la)
    /\ latlon2xyz lo la = [- rr k; - (g k) * rr k; - rr k].
  Proof.
    intros H. unfold mirror_latlon. rewrite !west_xyz, east_xyz by lia. rewrite rr_0, rr_n, grad_0, grad_n by auto.
    pose proof q_sq as Q. pose proof q_pos as Q0. pose proof (rr_pos k H) as R0. pose proof (rr_norm k H) as RN. pose proof (grad_bounds ni Hni k H) as GB.
    set (r := rr k) in *. set (G := g k) in *. clearbody r G.
    assert (N0 : q * (1 * q) - -1 * q * - q = 0) by ring.
    assert (N1 : -1 * q * - q - - q * (1 * q) = 2 / 3) by lra.
    assert (N2 : - q * - q - q * - q = 2 / 3) by lra.
    rewrite N0, N1, N2. clear N0 N1 N2.
    set (m := sqrt (0 * 0 + 2 / 3 * (2 / 3) + 2 / 3 * (2 / 3))).
    assert (Hm : 0 < m) by (apply sqrt_lt_R0; lra). assert (Em : m * m = 8 / 9) by (unfold m; rewrite sqrt_sqrt; lra). clearbody m.
    set (w := 2 / 3 / m). assert (Ew : w * w = 1 / 2). { unfold w. replace (2 / 3 / m * (2 / 3 / m)) with (4 / 9 / (m * m)) by (field; lra). rewrite Em. lra. }
    clearbody w.
    replace (0 / m) with 0 by (field; lra).
    match goal with |- context [xyz2latlon [?a; ?b; ?c]] => assert (Ea : a = - r) by ring;
      assert (Eb : b = - G * r) by (replace b with (r - 2 * (w * w) * (r + G * r)) by ring; rewrite Ew; lra);
      assert (Ec : c = - r) by (replace c with (G * r - 2 * (w * w) * (r + G * r)) by ring; rewrite Ew; lra) end.
    rewrite Ea, Eb, Ec.
    destruct (xyz_spec (- r) (- G * r) (- r)) as (lo & la & E & _ & _ & Z1 & XY & _); [nra|].
    replace (- r * - r + - G * r * (- G * r) + - r * - r) with 1 in Z1, XY by nra. rewrite sqrt_1 in Z1, XY.
    exists lo, la. split; auto. destruct XY as [X Y].
    { rewrite Rabs_Ropp, (Rabs_right r) by lra. pose proof (Rabs_pos (- G * r)). unfold EPSLN10. assert (1 / 4 <= r) by nra. lra. }
    unfold latlon2xyz. rewrite Rmult_1_l in X, Y, Z1. now rewrite <- X, <- Y, <- Z1.
  Qed.

  (** ** The edges *)
  Local Open Scope Z_scope.
  Lemma idx_inj j i j' i' : 0 <= i <= ni -> 0 <= i' <= ni -> j * nip + i = j' * nip + i' -> j = j' /\ i = i'.
  Proof. intros. apply rowmajor_inj with nip; unfold nip; auto; lia. Qed.
  Lemma idx_range j i : 0 <= j <= ni -> 0 <= i <= ni -> 0 <= j * nip + i < nip * nip.
  Proof. intros. apply rowmajor_range; unfold nip; lia. Qed.
  Lemma idx_c0 j : j * nip = j * nip + 0. Proof. lia. Qed.
  Lemma idx_r0 i : i = 0 * nip + i. Proof. lia. Qed.

  (** Known on a set of points. *)
  Definition known {A} (a : list A) (S : Z -> Z -> Prop) (F : Z -> Z -> A) : Prop :=
    zlen a = nip * nip /\ forall j i, 0 <= j <= ni -> 0 <= i <= ni -> S j i -> zget a (j * nip + i) = Some (F j i).
  Lemma known_weak {A} (a : list A) (S S' : Z -> Z -> Prop) F :
    (forall j i, 0 <= j <= ni -> 0 <= i <= ni -> S' j i -> S j i) -> known a S F -> known a S' F.
  Proof. intros H [L K]. split; auto. Qed.
  Lemma known_get {A} (a : list A) S F j i : known a S F -> 0 <= j <= ni -> 0 <= i <= ni -> S j i -> oget a (j * nip + i) = Ok (F j i).
  Proof. intros [L K] **. apply oget_some. auto. Qed.
  Lemma known_set {A} (a : list A) S F j i v : known a S F -> 0 <= j <= ni -> 0 <= i <= ni -> v = F j i ->
    exists a', oset a (j * nip + i) v = Ok a' /\ known a' (fun j' i' => S j' i' \/ (j' = j /\ i' = i)) F.
  Proof.
    intros [L K] Hj Hi Hv. destruct (oset_run a (j * nip + i) v) as (a' & E & L' & G & H); [rewrite L; apply idx_range; auto|].
    exists a'. split; auto. split; [congruence|]. intros j' i' Hj' Hi' HS.
    destruct (Z.eq_dec (j' * nip + i') (j * nip + i)) as [Eq|Ne].
    - rewrite Eq. apply idx_inj in Eq as [-> ->]; auto. rewrite G, Hv. reflexivity.
    - rewrite H by auto. apply K; auto. destruct HS as [HS|[-> ->]]; auto. congruence.
  Qed.

  (** West and east edges. *)
  Definition LE (j i : Z) : R := if i =? 0 then (3 / 4 * PI)%R else (5 / 4 * PI)%R.
  Definition TE (j i : Z) : R := th j.

  Lemma west_east_run alpha dely lam t : alpha = half_edge -> dely = (2 * half_edge / IZR ni)%R ->
    zlen lam = nip * nip -> zlen t = nip * nip ->
    exists lam' t', ed_west_east ni alpha dely lam t = Ok (lam', t')
      /\ known lam' (fun j i => i = 0 \/ i = ni) LE /\ known t' (fun j i => i = 0 \/ i = ni) TE.
  Proof.
    intros -> -> L1 L2. unfold ed_west_east. fold nip.
    match goal with |- context [ofor 0 nip ?f (lam, t)] => set (body := f) end.
    destruct (ofor_inv (fun k (s : list R * list R) => known (fst s) (fun j i => j < k /\ (i = 0 \/ i = ni)) LE
        /\ known (snd s) (fun j i => j < k /\ (i = 0 \/ i = ni)) TE) body 0 nip (lam, t)) as ([lam' t'] & E & H1 & H2).
    - unfold nip; lia.
    - split; (split; [auto|intros; lia]).
    - intros k [l1 t1] Hk [K1 K2]. cbn [fst snd] in *. unfold nip in Hk. unfold body. cbn beta iota. rewrite (idx_c0 k). replace (k * nip + 0 + ni) with (k * nip + ni) by lia.
      destruct (known_set l1 _ LE k 0 (3 / 4 * PI)%R K1) as (l2 & -> & K3); [lia|lia|reflexivity|]. cbn [bind].
      destruct (known_set l2 _ LE k ni (5 / 4 * PI)%R K3) as (l3 & -> & K4); [lia|lia| |].
      { unfold LE. destruct (Z.eqb_spec ni 0); [lia|reflexivity]. }
      cbn [bind].
      destruct (known_set t1 _ TE k 0 (- half_edge + 2 * half_edge / IZR ni * IZR k)%R K2) as (t2 & -> & K5); [lia|lia| |].
      { unfold TE, ang. field. apply not_0_IZR. lia. }
      cbn [bind]. rewrite (known_get _ _ _ k 0 K5) by (auto; lia). cbn [bind].
      destruct (known_set t2 _ TE k ni (TE k 0) K5) as (t3 & -> & K6); [lia|lia|reflexivity|]. cbn [bind].
      eexists. split; [reflexivity|]. cbn [fst snd]. split.
      + revert K4. apply known_weak. intros j i Hj Hi [H [->| ->]]; destruct (Z.eq_dec j k); subst; auto; left; left; lia.
      + revert K6. apply known_weak. intros j i Hj Hi [H [->| ->]]; destruct (Z.eq_dec j k); subst; auto; left; left; lia.
    - cbn [fst snd] in *. exists lam', t'. split; [exact E|]. split.
      + revert H1. apply known_weak. unfold nip. intros; lia.
      + revert H2. apply known_weak. unfold nip. intros; lia.
  Qed.

  (** Edge points whose direction is known. *)
  Definition edge_dir (lam t : list R) (j i : Z) : Prop :=
    exists lo la r, zget lam (j * nip + i) = Some lo /\ zget t (j * nip + i) = Some la
      /\ (0 < r)%R /\ latlon2xyz lo la = [- r; - g i * r; g j * r]%R
      /\ ((j = 0 \/ j = ni) -> (i = 0 \/ i = ni) -> r = q).

  Lemma south_north_run lam t : known lam (fun j i => i = 0 \/ i = ni) LE -> known t (fun j i => i = 0 \/ i = ni) TE ->
    exists lam' t', ed_south_north ni lam t = Ok (lam', t')
      /\ zlen lam' = nip * nip /\ zlen t' = nip * nip
      /\ (forall j, 0 <= j <= ni -> edge_dir lam' t' j 0) /\ (forall i, 0 <= i <= ni -> edge_dir lam' t' 0 i)
      /\ edge_dir lam' t' ni ni.
  Proof.
    intros K1 K2. unfold ed_south_north. fold nip.
    match goal with |- context [ofor 1 (ni - 1) ?f (lam, t)] => set (body := f) end.
    destruct (ofor_inv (fun k (s : list R * list R) =>
         known (fst s) (fun j i => i = 0 \/ i = ni) LE /\ known (snd s) (fun j i => i = 0 \/ i = ni) TE
         /\ forall i, 1 <= i < k -> exists lo la, zget (fst s) i = Some lo /\ zget (snd s) i = Some la
              /\ latlon2xyz lo la = [- rr i; - g i * rr i; - rr i]%R) body 1 (ni - 1) (lam, t)) as ([lam' t'] & E & H1 & H2 & H3).
    - lia.
    - cbn [fst snd]. split; auto. split; auto. intros; lia.
    - intros k [l1 t1] Hk (K3 & K4 & K5). cbn [fst snd] in *. unfold body. cbn beta iota.
      rewrite (idx_c0 k).
      pose proof (known_get _ _ _ 0 0 K3 ltac:(lia) ltac:(lia) (or_introl eq_refl)) as G0. pose proof (known_get _ _ _ 0 0 K4 ltac:(lia) ltac:(lia) (or_introl eq_refl)) as G1.
      rewrite Z.mul_0_l, Z.add_0_l in G0, G1. rewrite G0, G1. clear G0 G1. cbn [bind].
      rewrite (known_get _ _ _ ni ni K3), (known_get _ _ _ ni ni K4) by (auto; lia). cbn [bind].
      rewrite (known_get _ _ _ k 0 K3), (known_get _ _ _ k 0 K4) by (auto; lia). cbn [bind].
      assert (EL : LE ni ni = (5 / 4 * PI)%R) by (unfold LE; destruct (Z.eqb_spec ni 0); [lia|reflexivity]).
      rewrite EL. change (LE 0 0) with (3 / 4 * PI)%R. change (LE k 0) with (3 / 4 * PI)%R. unfold TE at 1 2 3.
      destruct (mirror_run k ltac:(lia)) as (lo & la & -> & Exyz). cbn [bind].
      destruct K3 as [L3 K3], K4 as [L4 K4].
      destruct (oset_run l1 k lo) as (l2 & -> & Ll2 & G2 & N2). { rewrite L3. rewrite (idx_r0 k). apply idx_range; lia. } cbn [bind].
      destruct (oset_run t1 k la) as (t2 & -> & Lt2 & Gt2 & Nt2). { rewrite L4. rewrite (idx_r0 k). apply idx_range; lia. } cbn [bind].
      rewrite (oget_some _ _ _ G2). cbn [bind].
      destruct (oset_run l2 (ni * nip + k) lo) as (l3 & -> & Ll3 & G3 & N3). { rewrite Ll2, L3. apply idx_range; lia. } cbn [bind].
      rewrite (oget_some _ _ _ Gt2). cbn [bind].
      destruct (oset_run t2 (ni * nip + k) (- la)%R) as (t3 & -> & Lt3 & Gt3 & Nt3). { rewrite Lt2, L4. apply idx_range; lia. } cbn [bind].
      eexists. split; [reflexivity|]. cbn [fst snd].
      assert (NE : forall j i, 0 <= j <= ni -> i = 0 \/ i = ni -> j * nip + i <> k /\ j * nip + i <> ni * nip + k).
      { intros j i Hj Hi. split; intros E'.
        - rewrite (idx_r0 k) in E'. apply idx_inj in E'; lia.
        - apply idx_inj in E'; lia. }
      split; [|split].
      + split; [congruence|]. intros j i Hj Hi HS. destruct (NE j i Hj HS). rewrite N3, N2 by auto. apply K3; auto.
      + split; [congruence|]. intros j i Hj Hi HS. destruct (NE j i Hj HS). rewrite Nt3, Nt2 by auto. apply K4; auto.
      + intros i Hi. assert (i <> ni * nip + k) by (unfold nip; nia).
        destruct (Z.eq_dec i k) as [->|Hne].
        * exists lo, la. rewrite N3, Nt3 by auto. auto.
        * rewrite N3, N2, Nt3, Nt2 by auto. apply K5. lia.
    - cbn [fst snd] in *. exists lam', t'. split; [exact E|]. destruct H1 as [L1 H1], H2 as [L2 H2].
      split; auto. split; auto. split; [|split].
      + intros j Hj. exists (3 / 4 * PI)%R, (th j), (rr j). rewrite (H1 j 0), (H2 j 0) by (auto; lia).
        split; [reflexivity|]. split; [reflexivity|]. split; [apply rr_pos; lia|]. split.
        * rewrite west_xyz by lia. rewrite grad_0 by auto. apply l3; ring.
        * intros [->| ->] _; [apply rr_0|apply rr_n].
      + intros i Hi. destruct (Z.eq_dec i 0) as [->|N0]; [|destruct (Z.eq_dec i ni) as [->|Nn]].
        * exists (3 / 4 * PI)%R, (th 0), (rr 0). rewrite (H1 0 0), (H2 0 0) by (auto; lia).
          split; [reflexivity|]. split; [reflexivity|]. split; [apply rr_pos; lia|]. split.
          -- rewrite west_xyz by lia. rewrite grad_0 by auto. apply l3; ring.
          -- intros _ _. apply rr_0.
        * exists (5 / 4 * PI)%R, (th 0), (rr 0). rewrite (H1 0 ni), (H2 0 ni) by (auto; lia).
          split; [f_equal; unfold LE; destruct (Z.eqb_spec ni 0); [lia|reflexivity]|]. split; [reflexivity|]. split; [apply rr_pos; lia|]. split.
          -- rewrite east_xyz by lia. rewrite grad_0, grad_n by auto. apply l3; ring.
          -- intros _ _. apply rr_0.
        * destruct (H3 i ltac:(lia)) as (lo & la & E1 & E2 & E3). exists lo, la, (rr i). rewrite Z.mul_0_l, Z.add_0_l.
          split; auto. split; auto. split; [apply rr_pos; lia|]. split.
          -- rewrite E3, grad_0 by auto. apply l3; ring.
          -- intros _ [?|?]; lia.
      + exists (5 / 4 * PI)%R, (th ni), (rr ni). rewrite (H1 ni ni), (H2 ni ni) by (auto; lia).
        split; [f_equal; unfold LE; destruct (Z.eqb_spec ni 0); [lia|reflexivity]|]. split; [reflexivity|]. split; [apply rr_pos; lia|]. split.
        * rewrite east_xyz by lia. rewrite grad_n by auto. apply l3; ring.
        * intros _ _. apply rr_n.
  Qed.
End ed.
