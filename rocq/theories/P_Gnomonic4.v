(** Proofs for M_Gnomonic: rot_3d and mirror_point. *)
From Coq Require Import Reals ZArith List Bool Lia Lra Psatz.
From Verif Require Import Base Loops M_Interp P_Longitude M_Matrix P_Matrix Spec_Gnomonic P_Gnomonic M_Cubic P_Cubic P_Cubic2 M_Gnomonic P_Gnomonic2 P_Gnomonic3.
Import ListNotations.
Open Scope R_scope.

(** The point has the direction (X, Y, Z), whose length is 1/k. *)
Definition on (k : R) (p : R * R * R) (v : R * R * R) : Prop :=
  let '(lon, lat, r) := p in let '(X, Y, Z) := v in
  r = 6371000 /\ cos lat * cos lon = k * X /\ cos lat * sin lon = k * Y /\ sin lat = k * Z.
Definition in_range (lon lat : R) : Prop := - PI < lon <= PI /\ - (PI / 2) <= lat <= PI / 2.

Lemma cts_run k X Y Z : 0 < k -> k * k * (X * X + Y * Y + Z * Z) = 1 ->
  (X = 0 /\ Y = 0) \/ EPSLN10 <= 6371000 * k * (Rabs X + Rabs Y) ->
  exists lon lat r, cartesian_to_spherical (6371000 * (k * X)) (6371000 * (k * Y)) (- (6371000) * (k * Z)) = (lon, lat, r)
    /\ on k (lon, lat, r) (X, Y, Z) /\ in_range lon lat /\ (X = 0 -> Y = 0 -> lon = 0).
Proof.
  intros Hk E1 HP. unfold cartesian_to_spherical. cbv zeta.
  set (r0 := 6371000) in *. assert (Hr0 : 1 <= r0) by (unfold r0; lra).
  replace (r0 * (k * X) * (r0 * (k * X)) + r0 * (k * Y) * (r0 * (k * Y)) + - r0 * (k * Z) * (- r0 * (k * Z))) with (r0 * r0).
  2: { transitivity (r0 * r0 * (k * k * (X * X + Y * Y + Z * Z))); [rewrite E1; ring|ring]. }
  assert (Hs : sqrt (r0 * r0) = r0) by (apply sqrt_square; lra). rewrite Hs.
  exists (if rlt (Rabs (r0 * (k * X)) + Rabs (r0 * (k * Y))) EPSLN10 then 0 else atan2 (r0 * (k * Y)) (r0 * (k * X))), (acos (- r0 * (k * Z) / r0) - PI / 2), r0.
  split; [reflexivity|]. unfold on, in_range.
  set (u := k * X). set (v := k * Y). set (w := k * Z).
  assert (EU : u * u + v * v + w * w = 1) by (unfold u, v, w; rewrite <- E1; ring).
  replace (- r0 * w / r0) with (- w) by (field; lra).
  assert (Bw : -1 <= - w <= 1) by nra.
  pose proof (acos_bound (- w)) as AB. pose proof PI_RGT_0 as HPI.
  assert (SL : sin (acos (- w) - PI / 2) = w). { rewrite sin_minus, cos_PI2, sin_PI2, cos_acos by auto. ring. }
  assert (CL : cos (acos (- w) - PI / 2) = sin (acos (- w))). { rewrite cos_minus, cos_PI2, sin_PI2. ring. }
  assert (S0 : 0 <= sin (acos (- w))) by (apply sin_ge_0; lra).
  assert (S2 : sin (acos (- w)) * sin (acos (- w)) = u * u + v * v).
  { pose proof (sin2_cos2 (acos (- w))) as SC. unfold Rsqr in SC. rewrite cos_acos in SC by auto. lra. }
  assert (AE : Rabs (r0 * u) + Rabs (r0 * v) = r0 * k * (Rabs X + Rabs Y)).
  { unfold u, v. rewrite !Rabs_mult, (Rabs_right r0), (Rabs_right k) by lra. ring. }
  assert (EP : 0 < EPSLN10) by (unfold EPSLN10; lra).
  assert (L0 : X = 0 -> Y = 0 -> (if rlt (Rabs (r0 * u) + Rabs (r0 * v)) EPSLN10 then 0 else atan2 (r0 * v) (r0 * u)) = 0).
  { intros -> ->. rewrite rlt_t; auto. rewrite AE, Rabs_R0. lra. }
  split; [|split; [|exact L0]].
  - split; [auto|]. rewrite SL, CL. fold u v w. destruct HP as [[-> ->]|HP].
    + rewrite L0 by auto. assert (Eu : u = 0) by (unfold u; ring). assert (Ev : v = 0) by (unfold v; ring). rewrite Eu, Ev in *.
      assert (SZ : sin (acos (- w)) = 0) by (clear - S2; apply Rsqr_0_uniq; unfold Rsqr; lra). rewrite SZ. repeat split; ring.
    + rewrite rlt_f by lra. assert (P1 : 0 < u * u + v * v).
      { destruct (Req_dec u 0) as [U|U]; [|clear - U; nra]. destruct (Req_dec v 0) as [V|V]; [|clear - V; nra]. rewrite U, V in AE. rewrite Rmult_0_r, Rabs_R0 in AE. lra. }
      destruct (atan2_spec (r0 * u) (r0 * v)) as (A1 & A2 & _); [replace (r0 * u * (r0 * u) + r0 * v * (r0 * v)) with (r0 * r0 * (u * u + v * v)) by ring; apply Rmult_lt_0_compat; [apply Rmult_lt_0_compat; lra|exact P1]|]. cbv zeta in A1, A2.
      assert (Er : sqrt (r0 * u * (r0 * u) + r0 * v * (r0 * v)) = r0 * sin (acos (- w))).
      { apply sqrt_lem_1; [replace (r0 * u * (r0 * u) + r0 * v * (r0 * v)) with (r0 * r0 * (u * u + v * v)) by ring; apply Rmult_le_pos; [apply Rmult_le_pos; lra|lra]|apply Rmult_le_pos; lra|]. replace (r0 * sin (acos (- w)) * (r0 * sin (acos (- w)))) with (r0 * r0 * (sin (acos (- w)) * sin (acos (- w)))) by ring. rewrite S2. ring. }
      rewrite Er in A1, A2. split; [|split; auto].
      * apply Rmult_eq_reg_l with r0; [|lra]. rewrite A1 at 2. ring.
      * apply Rmult_eq_reg_l with r0; [|lra]. rewrite A2 at 2. ring.
  - split; [|lra]. destruct (rlt_cases (Rabs (r0 * u) + Rabs (r0 * v)) EPSLN10) as [[-> Hc]|[-> Hc]]; [lra|].
    apply atan2_spec. replace (r0 * u * (r0 * u) + r0 * v * (r0 * v)) with (r0 * r0 * (u * u + v * v)) by ring. apply Rmult_lt_0_compat; [apply Rmult_lt_0_compat; lra|]. destruct (Req_dec u 0) as [U|U]; [|clear - U; nra]. destruct (Req_dec v 0) as [V|V]; [|clear - V; nra].
    rewrite U, V in Hc. rewrite Rmult_0_r, Rabs_R0 in Hc. lra.
Qed.

(** The rotations used. *)
Definition rotated (axis : Z) (angle : R) (v v' : R * R * R) : Prop :=
  let '(X, Y, Z) := v in let c := cos (angle * (PI / 180)) in let s := sin (angle * (PI / 180)) in
  match axis with
  | 1%Z => v' = (X, c * Y - s * Z, s * Y + c * Z)
  | 2%Z => v' = (c * X + s * Z, Y, - s * X + c * Z)
  | 3%Z => v' = (c * X + s * Y, - s * X + c * Y, Z)
  | _ => False
  end.
Lemma rot_run axis angle k p X Y Z X' Y' Z' : 0 < k -> k * k * (X' * X' + Y' * Y' + Z' * Z') = 1 ->
  on k p (X, Y, Z) -> rotated axis angle (X, Y, Z) (X', Y', Z') ->
  (X' = 0 /\ Y' = 0) \/ EPSLN10 <= 6371000 * k * (Rabs X' + Rabs Y') ->
  exists lon lat r, rot_3d axis p angle = Ok (lon, lat, r) /\ on k (lon, lat, r) (X', Y', Z')
    /\ in_range lon lat /\ (X' = 0 -> Y' = 0 -> lon = 0).
Proof.
  intros Hk E1 Hp Hrot HP. destruct p as [[lon0 lat0] r0]. cbn [on] in Hp. destruct Hp as (-> & PX & PY & PZ).
  destruct (cts_run k X' Y' Z' Hk E1 HP) as (lon & lat & r & E & On & Rg & L0). exists lon, lat, r. split; [|auto].
  rewrite <- E. clear E On Rg L0 HP.
  unfold rot_3d, spherical_to_cartesian. cbv zeta. unfold rotated in Hrot.
  set (r0 := 6371000) in *. clearbody r0.
  replace (r0 * cos lon0 * cos lat0) with (r0 * (k * X)) by (rewrite <- PX; ring).
  replace (r0 * sin lon0 * cos lat0) with (r0 * (k * Y)) by (rewrite <- PY; ring). rewrite PZ.
  destruct axis as [|[[|[]|]|[]|]|]; try contradiction; injection Hrot as -> -> ->.
  - f_equal. f_equal; ring.
  - f_equal. f_equal; ring.
  - f_equal. f_equal; ring.
Qed.

Lemma deg90 : cos (90 * (PI / 180)) = 0 /\ sin (90 * (PI / 180)) = 1.
Proof. replace (90 * (PI / 180)) with (PI / 2) by field. split; [apply cos_PI2|apply sin_PI2]. Qed.
Lemma degm90 : cos (-90 * (PI / 180)) = 0 /\ sin (-90 * (PI / 180)) = -1.
Proof. replace (-90 * (PI / 180)) with (- (PI / 2)) by field. rewrite cos_neg, sin_neg, cos_PI2, sin_PI2. split; ring. Qed.
Lemma degm180 : cos (-180 * (PI / 180)) = -1 /\ sin (-180 * (PI / 180)) = 0.
Proof. replace (-180 * (PI / 180)) with (- PI) by field. rewrite cos_neg, sin_neg, cos_PI, sin_PI. split; ring. Qed.
Lemma deg0 : cos (0 * (PI / 180)) = 1 /\ sin (0 * (PI / 180)) = 0.
Proof. rewrite Rmult_0_l, cos_0, sin_0. auto. Qed.

Lemma on_toward k lon lat r v : 0 < k -> on k (lon, lat, r) v -> toward lon lat v.
Proof.
  destruct v as [[X Y] Z]. intros Hk (_ & A & B & C). exists (1 / k). split; [apply Rdiv_lt_0_compat; lra|].
  rewrite A, B, C. repeat split; field; lra.
Qed.

(** A longitude in range with the right signs. *)
Lemma lon_zero k lon lat X Z : in_range lon lat -> on k (lon, lat, 6371000) (X, 0, Z) -> 0 < k * X -> lon = 0.
Proof.
  intros [B1 B2] (_ & A & B & _) H. assert (C : 0 <= cos lat) by (apply cos_ge_0; lra).
  assert (C1 : 0 < cos lat). { destruct (Req_dec (cos lat) 0) as [Z0|Z0]; [rewrite Z0 in A; lra|lra]. }
  assert (sin lon = 0). { apply Rmult_eq_reg_l with (cos lat); [|lra]. rewrite B. ring. }
  assert (0 < cos lon). { apply Rmult_lt_reg_l with (cos lat); [lra|]. lra. }
  destruct (Rlt_dec lon 0) as [L|L]. { assert (0 < sin (- lon)) by (apply sin_gt_0; lra). rewrite sin_neg in *. lra. }
  destruct (Rlt_dec 0 lon) as [L2|L2]; [|lra].
  destruct (Rlt_dec lon PI) as [L3|L3]; [pose proof (sin_gt_0 lon L2 L3); lra|]. assert (lon = PI) by lra. subst. rewrite cos_PI in H1. lra.
Qed.
Lemma lon_pi k lon lat X Z : in_range lon lat -> on k (lon, lat, 6371000) (X, 0, Z) -> k * X < 0 -> lon = PI.
Proof.
  intros [B1 B2] (_ & A & B & _) H. assert (C : 0 <= cos lat) by (apply cos_ge_0; lra).
  assert (C1 : 0 < cos lat). { destruct (Req_dec (cos lat) 0) as [Z0|Z0]; [rewrite Z0 in A; lra|lra]. }
  assert (sin lon = 0). { apply Rmult_eq_reg_l with (cos lat); [|lra]. rewrite B. ring. }
  assert (cos lon < 0). { apply Rmult_lt_reg_l with (cos lat); [lra|]. lra. }
  destruct (Rlt_dec lon 0) as [L|L]. { assert (0 < sin (- lon)) by (apply sin_gt_0; lra). rewrite sin_neg in *. lra. }
  destruct (Rlt_dec lon PI) as [L3|L3]; [|lra]. destruct (Rlt_dec 0 lon) as [L2|L2]; [pose proof (sin_gt_0 lon L2 L3); lra|].
  assert (lon = 0) by lra. subst. rewrite cos_0 in H1. lra.
Qed.
Lemma on_r k lon lat r v : on k (lon, lat, r) v -> r = 6371000. Proof. destruct v as [[X Y] Z]. now intros (-> & _). Qed.

Lemma start_on a b : -1 <= a <= 1 -> -1 <= b <= 1 -> let m := sqrt (1 + a * a + b * b) in
  on (1 / m) (atan a, asin (b / m), 6371000) (1, a, b) /\ in_range (atan a) (asin (b / m)) /\ 0 < 1 / m /\ 1 / 2 <= 1 / m
  /\ 1 / m * (1 / m) * (1 + a * a + b * b) = 1.
Proof.
  intros Ha Hb m. assert (Hm : 0 < m) by (apply sqrt_lt_R0; nra). assert (Em : m * m = 1 + a * a + b * b) by (apply sqrt_sqrt; nra). clearbody m.
  assert (Hm2 : m <= 2) by nra.
  assert (Bb : -1 <= b / m <= 1).
  { split; apply Rmult_le_reg_r with m; auto; unfold Rdiv; rewrite Rmult_assoc, Rinv_l by lra; nra. }
  destruct (cs_atan a) as (E1 & C0 & S0). rewrite S0 in E1. remember (cos (atan a)) as c eqn:Ec.
  assert (CA : cos (asin (b / m)) = 1 / (m * c)).
  { pose proof (asin_bound (b / m)) as AB. assert (0 <= cos (asin (b / m))) by (apply cos_ge_0; lra).
    pose proof (sin2_cos2 (asin (b / m))) as SC. unfold Rsqr in SC. rewrite sin_asin in SC by auto.
    assert (P0 : 0 < 1 / (m * c)) by (apply Rdiv_lt_0_compat; nra).
    assert (PS : 1 / (m * c) * (1 / (m * c)) = (1 + a * a) / (m * m)).
    { replace (1 / (m * c) * (1 / (m * c))) with (1 / (m * m * (c * c))) by (field; lra). apply Rmult_eq_reg_r with (m * m * (c * c)); [|nra].
      replace (1 / (m * m * (c * c)) * (m * m * (c * c))) with 1 by (field; lra).
      replace ((1 + a * a) / (m * m) * (m * m * (c * c))) with (c * c + a * c * (a * c)) by (field; lra). lra. }
    assert (PQ : cos (asin (b / m)) * cos (asin (b / m)) = (1 + a * a) / (m * m)).
    { replace ((1 + a * a) / (m * m)) with (1 - b / m * (b / m)); [lra|].
      apply Rmult_eq_reg_r with (m * m); [|nra]. replace ((1 - b / m * (b / m)) * (m * m)) with (m * m - b * b) by (field; lra).
      replace ((1 + a * a) / (m * m) * (m * m)) with (1 + a * a) by (field; lra). lra. }
    rewrite <- PS in PQ. apply Rsqr_inj; [auto|lra|exact PQ]. }
  split; [|split; [|split; [|split]]].
  - split; [reflexivity|]. rewrite CA, S0, sin_asin, <- Ec by auto. clear CA. repeat split.
    + field. lra.
    + field. lra.
    + field. lra.
  - pose proof (atan_bound a). pose proof (asin_bound (b / m)). pose proof PI_RGT_0. unfold in_range. lra.
  - apply Rdiv_lt_0_compat; lra.
  - apply Rmult_le_reg_r with m; auto. unfold Rdiv at 2. rewrite Rmult_assoc, Rinv_l by lra. lra.
  - rewrite <- Em. field. lra.
Qed.

Lemma t3 (x y z x' y' z' : R) : x = x' -> y = y' -> z = z' -> (x, y, z) = (x', y', z').
Proof. now intros -> -> ->. Qed.

Section mirror.
  Context (ni : Z) (Hni : (1 <= ni <= 2147483647)%Z).
  Notation g := (grad ni).
  Let Hn1 : (1 <= ni)%Z := proj1 Hni.

  Lemma far k j i : (0 <= j <= ni)%Z -> (0 <= i <= ni)%Z -> 1 / 2 <= k ->
    (g i = 0 /\ g j = 0) \/ EPSLN10 <= 6371000 * k * (Rabs (g i) + Rabs (g j)).
  Proof.
    intros Hj Hi Hk. pose proof (N_pos ni Hn1) as HN. assert (HN2 : IZR ni <= 2147483647) by (apply IZR_le; lia).
    assert (G : 1 / 20000000000 <= 1 / (8 * IZR ni)). { apply Rmult_le_reg_r with (8 * IZR ni); [lra|]. unfold Rdiv at 2. rewrite Rmult_assoc, Rinv_l by lra. lra. }
    pose proof (Rabs_pos (g i)). pose proof (Rabs_pos (g j)).
    destruct (Z.eq_dec (2 * i) ni) as [Ei|Ni]; [destruct (Z.eq_dec (2 * j) ni) as [Ej|Nj]|].
    - left. split; apply grad_mid; auto.
    - right. pose proof (grad_gap ni Hn1 j Hj Nj). unfold EPSLN10. nra.
    - right. pose proof (grad_gap ni Hn1 i Hi Ni). unfold EPSLN10. nra.
  Qed.
  Lemma far1 k a b : 1 / 2 <= k -> Rabs a = 1 -> EPSLN10 <= 6371000 * k * (Rabs a + Rabs b).
  Proof. intros Hk ->. pose proof (Rabs_pos b). unfold EPSLN10. nra. Qed.
  Lemma far2 k a b : 1 / 2 <= k -> Rabs b = 1 -> EPSLN10 <= 6371000 * k * (Rabs a + Rabs b).
  Proof. intros Hk ->. pose proof (Rabs_pos a). unfold EPSLN10. nra. Qed.

  Lemma odd_spec : negb ((ni + 1) mod 2 =? 0)%Z = true <-> (ni mod 2 = 0)%Z.
  Proof. rewrite negb_true_iff, Z.eqb_neq. rewrite Z.add_mod by lia. pose proof (Z.mod_pos_bound ni 2 ltac:(lia)). 
    assert (H0 : (ni mod 2 = 0 \/ ni mod 2 = 1)%Z) by lia. destruct H0 as [-> | ->]; cbn; lia. Qed.
  Lemma odd_mid : negb ((ni + 1) mod 2 =? 0)%Z = true -> (2 * ((ni + 1 - 1) / 2) = ni)%Z.
  Proof. intros H. apply odd_spec in H. replace (ni + 1 - 1)%Z with ni by lia. pose proof (Z.div_mod ni 2 ltac:(lia)). lia. Qed.

  Lemma mirror_point_run nt j i : (1 <= nt < 6)%Z -> (0 <= j <= ni)%Z -> (0 <= i <= ni)%Z ->
    exists lon lat, mirror_point ni nt j i (atan (g i)) (TT ni j i) = Ok (lon, lat)
      /\ toward lon lat (face nt (g i) (g j)) /\ in_range lon lat.
  Proof.
    intros Hnt Hj Hi. pose proof (grad_bounds ni Hn1 i Hi) as Bi. pose proof (grad_bounds ni Hn1 j Hj) as Bj.
    destruct (start_on (g i) (g j) Bi Bj) as (On & Rg & Hk & Hk2 & E1). cbv zeta in *. fold (TT ni j i) in On, Rg.
    set (k := 1 / sqrt (1 + g i * g i + g j * g j)) in *. clearbody k.
    pose proof (far k j i Hj Hi Hk2) as Far.
    assert (G0 : forall l, (0 <= l <= ni)%Z -> negb ((ni + 1) mod 2 =? 0)%Z = true -> (l = (ni + 1 - 1) / 2)%Z -> g l = 0).
    { intros l Hl Ho ->. apply grad_mid; auto. apply odd_mid; auto. }
    assert (Gp : forall l, (0 <= l <= ni)%Z -> negb ((ni + 1) mod 2 =? 0)%Z = true -> ((ni + 1 - 1) / 2 < l)%Z -> 0 < g l).
    { intros l Hl Ho L. rewrite <- (G0 ((ni + 1 - 1) / 2)%Z); [|pose proof (odd_mid Ho); lia|auto|auto]. pose proof (odd_mid Ho). apply grad_incr; lia. }
    assert (Gm : forall l, (0 <= l <= ni)%Z -> negb ((ni + 1) mod 2 =? 0)%Z = true -> (l < (ni + 1 - 1) / 2)%Z -> g l < 0).
    { intros l Hl Ho L. rewrite <- (G0 ((ni + 1 - 1) / 2)%Z); [|pose proof (odd_mid Ho); lia|auto|auto]. pose proof (odd_mid Ho). apply grad_incr; lia. }
    set (a := g i) in *. set (b := g j) in *.
    assert (R1 : forall ax an X Y Z X' Y' Z', rotated ax an (X, Y, Z) (X', Y', Z') ->
      X' * X' + Y' * Y' + Z' * Z' = 1 + a * a + b * b -> (X' = 0 /\ Y' = 0) \/ EPSLN10 <= 6371000 * k * (Rabs X' + Rabs Y') ->
      forall p, on k p (X, Y, Z) -> exists lon lat, rot_3d ax p an = Ok (lon, lat, 6371000) /\ on k (lon, lat, 6371000) (X', Y', Z')
        /\ in_range lon lat /\ (X' = 0 -> Y' = 0 -> lon = 0)).
    { intros ax an X Y Z X' Y' Z' Hr EE FF p Hp. destruct (rot_run ax an k p X Y Z X' Y' Z' Hk ltac:(rewrite EE; auto) Hp Hr FF) as (lon & lat & r & E & O & R' & L).
      pose proof (on_r _ _ _ _ _ O) as ->. exists lon, lat. auto. }
    destruct deg90 as [C90 S90], degm90 as [Cm90 Sm90], degm180 as [Cm180 Sm180], deg0 as [C0 S0].
    assert (A1 : Rabs 1 = 1) by apply Rabs_R1. assert (A2 : Rabs (-1) = 1) by (rewrite Rabs_left; lra).
    assert (A3 : forall v, Rabs (- v) = Rabs v) by apply Rabs_Ropp.
    unfold mirror_point. cbv zeta.
    destruct (Z.eq_dec nt 1) as [->|N1]; [|destruct (Z.eq_dec nt 2) as [->|N2]; [|destruct (Z.eq_dec nt 3) as [->|N3]; [|destruct (Z.eq_dec nt 4) as [->|N4]; [|assert (nt = 5)%Z by lia; subst nt]]]];
      cbn [face].
    - destruct (R1 3%Z (-90) 1 a b (- a) 1 b) with (p := (atan a, TT ni j i, 6371000)) as (lon & lat & -> & O & R' & L); auto.
      { unfold rotated. rewrite Cm90, Sm90. apply t3; ring. } { ring. } { right. apply far2; auto. }
      cbn [bind]. exists lon, lat. split; [reflexivity|]. split; auto. eapply on_toward; eauto.
    - destruct (R1 3%Z (-90) 1 a b (- a) 1 b) with (p := (atan a, TT ni j i, 6371000)) as (lon1 & lat1 & -> & O1 & _ & _); auto.
      { unfold rotated. rewrite Cm90, Sm90. apply t3; ring. } { ring. } { right. apply far2; auto. }
      cbn [bind].
      destruct (R1 1%Z 90 (- a) 1 b (- a) (- b) 1) with (p := (lon1, lat1, 6371000)) as (lon & lat & -> & O & R' & L); auto.
      { unfold rotated. rewrite C90, S90. apply t3; ring. } { ring. }
      { destruct Far as [[-> ->]|Far]; [left; split; ring|right]. now rewrite !A3. }
      cbn [bind].
      assert (T : toward lon lat (- a, - b, 1)) by (eapply on_toward; eauto).
      destruct (negb ((ni + 1) mod 2 =? 0)%Z) eqn:Odd; [|exists lon, lat; auto].
      set (mid := ((ni + 1 - 1) / 2)%Z) in *.
      destruct (Z.eqb_spec i mid) as [Ei|Ei]; cbn [andb].
      + destruct (Z.eqb_spec i j) as [Eij|Eij]; cbn [andb].
        * assert (Ej : j = mid) by lia. rewrite Ej, Z.eqb_refl, Ei, Z.ltb_irrefl. cbn [andb].
          assert (Ea : a = 0) by (apply G0; auto). assert (Eb : b = 0) by (apply G0; auto).
          exists 0, (PI * (1 / 2)). split; [reflexivity|]. pose proof PI_RGT_0. split; [|unfold in_range; lra].
          exists 1. replace (PI * (1 / 2)) with (PI / 2) by field. rewrite cos_PI2, sin_PI2, Ea, Eb. lra.
        * destruct (Z.eqb_spec j mid); [lia|]. cbn [andb]. exists lon, lat; auto.
      + destruct (Z.eqb_spec j mid) as [Ej|Ej]; cbn [andb]; [|exists lon, lat; auto].
        assert (Eb : b = 0) by (apply G0; auto). rewrite Eb in *. replace (- 0) with 0 in * by ring.
        destruct (Z.ltb_spec i mid).
        * destruct (Z.ltb_spec mid i); [lia|]. assert (a < 0) by (apply Gm; auto).
          assert (EL : lon = 0) by (apply (lon_zero k lon lat (- a) 1 R' O); nra). rewrite EL in T, R'. exists 0, lat. auto.
        * destruct (Z.ltb_spec mid i); [|lia]. assert (0 < a) by (apply Gp; auto).
          assert (EL : lon = PI) by (apply (lon_pi k lon lat (- a) 1 R' O); nra). rewrite EL in T, R'. exists PI, lat. auto.
    - destruct (R1 3%Z (-180) 1 a b (-1) (- a) b) with (p := (atan a, TT ni j i, 6371000)) as (lon1 & lat1 & -> & O1 & _ & _); auto.
      { unfold rotated. rewrite Cm180, Sm180. apply t3; ring. } { ring. } { right. apply far1; auto. }
      cbn [bind].
      destruct (R1 1%Z 90 (-1) (- a) b (-1) (- b) (- a)) with (p := (lon1, lat1, 6371000)) as (lon & lat & -> & O & R' & L); auto.
      { unfold rotated. rewrite C90, S90. apply t3; ring. } { ring. } { right. apply far1; auto. }
      cbn [bind].
      assert (T : toward lon lat (-1, - b, - a)) by (eapply on_toward; eauto).
      destruct (negb ((ni + 1) mod 2 =? 0)%Z) eqn:Odd; cbn [andb]; [|exists lon, lat; auto].
      destruct (Z.eqb_spec j ((ni + 1 - 1) / 2)) as [Ej|Ej]; [|exists lon, lat; auto].
      assert (Eb : b = 0) by (apply G0; auto). rewrite Eb in *. replace (- 0) with 0 in * by ring.
      assert (EL : lon = PI) by (apply (lon_pi k lon lat (-1) (- a) R' O); lra). rewrite EL in T, R'. exists PI, lat. auto.
    - destruct (R1 3%Z 90 1 a b a (-1) b) with (p := (atan a, TT ni j i, 6371000)) as (lon1 & lat1 & -> & O1 & _ & _); auto.
      { unfold rotated. rewrite C90, S90. apply t3; ring. } { ring. } { right. apply far2; auto. }
      cbn [bind].
      destruct (R1 2%Z 90 a (-1) b b (-1) (- a)) with (p := (lon1, lat1, 6371000)) as (lon & lat & -> & O & R' & L); auto.
      { unfold rotated. rewrite C90, S90. apply t3; ring. } { ring. } { right. apply far2; auto. }
      cbn [bind]. exists lon, lat. split; [reflexivity|]. split; auto. eapply on_toward; eauto.
    - destruct (R1 2%Z 90 1 a b b a (-1)) with (p := (atan a, TT ni j i, 6371000)) as (lon1 & lat1 & -> & O1 & _ & _); auto.
      { unfold rotated. rewrite C90, S90. apply t3; ring. } { ring. }
      { destruct Far as [[-> ->]|Far]; [left; split; ring|right; now rewrite (Rplus_comm (Rabs b))]. }
      cbn [bind].
      destruct (R1 3%Z 0 b a (-1) b a (-1)) with (p := (lon1, lat1, 6371000)) as (lon & lat & -> & O & R' & L); auto.
      { unfold rotated. rewrite C0, S0. apply t3; ring. } { ring. }
      { destruct Far as [[-> ->]|Far]; [left; split; ring|right; now rewrite (Rplus_comm (Rabs b))]. }
      cbn [bind].
      assert (T : toward lon lat (b, a, -1)) by (eapply on_toward; eauto).
      destruct (negb ((ni + 1) mod 2 =? 0)%Z) eqn:Odd; [|exists lon, lat; auto].
      set (mid := ((ni + 1 - 1) / 2)%Z) in *.
      destruct (Z.eqb_spec i mid) as [Ei|Ei]; cbn [andb]; [|exists lon, lat; auto].
      assert (Ea : a = 0) by (apply G0; auto).
      destruct (Z.eqb_spec i j) as [Eij|Eij].
      + assert (Ej : j = mid) by lia. rewrite Ej, Z.ltb_irrefl.
        assert (Eb : b = 0) by (apply G0; auto).
        exists 0, (- PI * (1 / 2)). split; [reflexivity|]. pose proof PI_RGT_0. split; [|unfold in_range; lra].
        exists 1. replace (- PI * (1 / 2)) with (- (PI / 2)) by field. rewrite cos_neg, sin_neg, cos_PI2, sin_PI2, Ea, Eb. lra.
      + rewrite Ea in *. destruct (Z.ltb_spec j mid).
        * destruct (Z.ltb_spec mid j); [lia|]. assert (b < 0) by (apply Gm; auto).
          assert (EL : lon = PI) by (apply (lon_pi k lon lat b (-1) R' O); nra). rewrite EL in T, R'. exists PI, lat. auto.
        * destruct (Z.ltb_spec mid j); [|lia]. assert (0 < b) by (apply Gp; auto).
          assert (EL : lon = 0) by (apply (lon_zero k lon lat b (-1) R' O); nra). rewrite EL in T, R'. exists 0, lat. auto.
  Qed.
End mirror.
