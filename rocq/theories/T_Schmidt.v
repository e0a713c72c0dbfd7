(** C84: the stretching and turning of a cubed-sphere grid (make_hgrid --do_schmidt and
    --do_cube_transform). *)
From Coq Require Import Reals ZArith List Bool Lia Lra Psatz.
From Verif Require Import Base Loops M_Interp P_Longitude M_Matrix P_Matrix Spec_Cubic Spec_Gnomonic P_Gnomonic P_Gnomonic2 P_Gnomonic6 M_Schmidt Spec_Schmidt P_Schmidt.
Import ListNotations.
Open Scope R_scope.

(** Stretching a latitude: defined for every latitude, in one way, keeps their order and the
    poles, does nothing for the factor 1, and divides the tangent of half the distance from
    the south pole by the factor. *)
Theorem C84_stretch : forall c, 0 < c ->
  (forall lat, - (PI / 2) <= lat <= PI / 2 ->
     exists lat', stretched_lat c lat lat' /\ forall lat'', stretched_lat c lat lat'' -> lat'' = lat')
  /\ (forall a b a' b', - (PI / 2) <= a -> a < b -> b <= PI / 2 -> stretched_lat c a a' -> stretched_lat c b b' -> a' < b')
  /\ (forall a b, - (PI / 2) <= a < PI / 2 -> - (PI / 2) <= b < PI / 2 ->
        (stretched_lat c a b <-> tan ((b + PI / 2) / 2) = tan ((a + PI / 2) / 2) / c))
  /\ stretched_lat c (- (PI / 2)) (- (PI / 2)) /\ stretched_lat c (PI / 2) (PI / 2)
  /\ (forall a, - (PI / 2) <= a <= PI / 2 -> stretched_lat 1 a a).
Proof.
  intros c Hc. pose proof PI_RGT_0 as HP. split.
  { intros lat Hl. exists (asin (((1 - c * c) + (1 + c * c) * sin lat) / ((1 + c * c) + (1 - c * c) * sin lat))).
    pose proof (asin_stretched c lat Hc) as HA. split; auto. intros l' H'. exact (stretched_unique c lat _ _ Hc Hl H' HA). }
  split.
  { intros a b a' b' Ha Hab Hb [Ra Ea] [Rb Eb]. assert (P : 0 < c * c) by nra.
    assert (S : sin a < sin b) by (apply sin_increasing_1; lra). pose proof (sin_bd a). pose proof (sin_bd b). pose proof (sin_bd a'). pose proof (sin_bd b').
    destruct (Rlt_le_dec a' b') as [|L]; auto. exfalso. assert (S' : sin b' <= sin a').
    { destruct (Req_dec a' b') as [->|]; [lra|]. left. apply sin_increasing_1; lra. }
    set (x := sin a) in *. set (y := sin b) in *. set (u := sin a') in *. set (v := sin b') in *. clearbody x y u v. clear - P S S' H H0 H1 H2 Ea Eb.
    assert (Da : 0 < (1 + x) + c * c * (1 - x)) by nra.
    assert (K1 : u * ((1 + x) + c * c * (1 - x)) = (1 + x) - c * c * (1 - x)) by lra.
    assert (K2 : v * ((1 + y) + c * c * (1 - y)) = (1 + y) - c * c * (1 - y)) by lra.
    assert (Db : 0 < (1 + y) + c * c * (1 - y)) by nra.
    set (A := (1 + x) + c * c * (1 - x)) in *. set (B := (1 + y) + c * c * (1 - y)) in *.
    assert (E : (v - u) * (A * B) = 4 * (c * c) * (y - x)).
    { replace ((v - u) * (A * B)) with (v * B * A - u * A * B) by ring. rewrite K1, K2. unfold A, B. ring. }
    assert (0 < A * B) by (apply Rmult_lt_0_compat; auto). assert (0 < 4 * (c * c) * (y - x)) by (apply Rmult_lt_0_compat; lra). nra. }
  split; [intros; apply stretch_tan; auto|].
  split; [split; [lra|rewrite sin_neg, sin_PI2; ring]|]. split; [split; [lra|rewrite sin_PI2; ring]|].
  intros; apply stretched_1; auto.
Qed.

(** The turn is a rotation of the sphere: it keeps the angle between any two directions, and
    the orientation.  It takes the south pole to the target, and there the meridian of 0
    becomes the northward (up = 1) or southward (up = -1) direction. *)
Theorem C84_turn : forall up lon_p lat_p, up = 1 \/ up = -1 ->
  (forall u v, dot (turn up lon_p lat_p u) (turn up lon_p lat_p v) = dot u v)
  /\ (forall u v, cross (turn up lon_p lat_p u) (turn up lon_p lat_p v) = turn up lon_p lat_p (cross u v))
  /\ (forall lon, turn up lon_p lat_p (unit lon (- (PI / 2))) = unit lon_p lat_p)
  /\ turn up lon_p lat_p (1, 0, 0) = scale up (north lon_p lat_p)
  /\ turn up lon_p lat_p (0, 1, 0) = scale up (east lon_p lat_p).
Proof.
  intros up lon_p lat_p Hu. assert (U : up * up = 1) by (destruct Hu as [-> | ->]; ring).
  split; [intros; now apply turn_dot|]. split; [intros; now apply turn_cross|].
  split. { intros lon. replace (unit lon (- (PI / 2))) with (0, 0, -1); [apply turn_south|]. unfold unit. rewrite cos_neg, sin_neg, cos_PI2, sin_PI2. apply v3; ring. }
  unfold turn, plus, scale, unit, north, east. split; apply v3; ring.
Qed.

(** Every point of every tile, for every stretch factor and target, with --do_schmidt (which
    has priority) or --do_cube_transform: its latitude is stretched (by 1 if the factor is
    within 1e-7 of it) and it is turned; the result is given with a longitude in [0, 2 pi) and
    a latitude in [-pi/2, pi/2].  The exception are points whose sine of the latitude comes
    within 1e-7 of 1 or -1: they are moved to the pole. *)
Theorem C84_grid : forall schmidt cube c target_lon target_lat ni xc yc, (0 <= ni)%Z -> schmidt || cube = true ->
  zlen xc = (6 * ((ni + 1) * (ni + 1)))%Z -> zlen yc = (6 * ((ni + 1) * (ni + 1)))%Z ->
  0 < c -> -180 <= target_lon <= 360 ->
  let lon_p := target_lon / 180 * PI in let lat_p := target_lat / 180 * PI in
  let up := if schmidt then -1 else 1 in
  exists xs ys, transform_tiles schmidt cube c target_lon target_lat ni xc yc = Ok (xs, ys)
    /\ zlen xs = zlen xc /\ zlen ys = zlen yc
    /\ forall t j i lon lat,
         tile_value (ni + 1) (ni + 1) xc t j i = Some lon -> tile_value (ni + 1) (ni + 1) yc t j i = Some lat ->
         - (PI / 2) <= lat <= PI / 2 ->
         exists lon' lat' c' lat_t, tile_value (ni + 1) (ni + 1) xs t j i = Some lon'
           /\ tile_value (ni + 1) (ni + 1) ys t j i = Some lat'
           /\ 0 <= lon' < 2 * PI /\ - (PI / 2) <= lat' <= PI / 2
           /\ (1 / 10000000 < Rabs (1 - c * c) -> c' = c) /\ (Rabs (1 - c * c) <= 1 / 10000000 -> c' = 1)
           /\ stretched_lat c' lat lat_t
           /\ let w := turn up lon_p lat_p (unit lon lat_t) in
              (Rabs (snd w) <= 1 - 1 / 10000000 -> unit lon' lat' = w)
              /\ (1 - 1 / 10000000 < Rabs (snd w) -> lon' = 0 /\ (0 < snd w -> lat' = PI / 2) /\ (snd w < 0 -> lat' = - (PI / 2))).
Proof.
  intros schmidt cube c tlon tlat ni xc yc Hni Hs L1 L2 Hc Ht lon_p lat_p up. pose proof PI_RGT_0 as HP.
  destruct (tiles_run schmidt cube c tlon tlat ni xc yc Hni Hs L1 L2) as (xs & ys & E & LX & LY & P).
  replace (tlon * (PI / 180)) with lon_p in P by (unfold lon_p; field). replace (tlat * (PI / 180)) with lat_p in P by (unfold lat_p; field).
  exists xs, ys. split; auto. split; auto. split; auto. intros t j i lon lat G1 G2 Hl.
  assert (R : - PI <= lon_p <= 2 * PI) by (unfold lon_p; split; nra).
  destruct (point_spec (negb schmidt) c lon_p lat_p lon lat Hc R Hl) as (c' & lat_t & lon' & lat' & F & Q1 & Q2 & St & R1 & R2 & W).
  exists lon', lat', c', lat_t. unfold tile_value in *.
  destruct ((0 <=? t) && (t <? 6) && (0 <=? j) && (j <? ni + 1) && (0 <=? i) && (i <? ni + 1))%Z; [|discriminate].
  destruct (P _ (lon, lat) (conj G1 G2)) as [B1 B2]. rewrite F in B1, B2. cbn [fst snd] in B1, B2.
  split; auto. split; auto. split; auto. split; auto. split; auto. split; auto. split; auto.
  assert (U : updown (negb schmidt) = up) by (unfold up; destruct schmidt; reflexivity). rewrite U in W. unfold third, EPSLN7 in W.
  cbv zeta in W |- *. destruct W as [W1 W2]. split; auto. intros HW. destruct (W2 HW) as [-> ->].
  split; auto. split; intros; destruct (Rlt_dec _ 0); lra.
Qed.

(** How far a point is from the target afterwards (its distance from the south pole was
    lat + pi/2), and that no point moved to a pole is moved by more than the angle with cosine
    1 - 1e-7 (0.0256 degrees). *)
Theorem C84_zoom : forall c up lon_p lat_p lon lat lat_t, 0 < c -> up = 1 \/ up = -1 ->
  - (PI / 2) <= lat < PI / 2 -> stretched_lat c lat lat_t ->
  exists d, 0 <= d < PI /\ tan (d / 2) = tan ((lat + PI / 2) / 2) / c
    /\ dot (turn up lon_p lat_p (unit lon lat_t)) (unit lon_p lat_p) = cos d.
Proof.
  intros c up lon_p lat_p lon lat lat_t Hc Hu Hl St. pose proof PI_RGT_0 as HP. pose proof St as [Rt _].
  assert (Rt' : - (PI / 2) <= lat_t < PI / 2). { split; [lra|]. destruct (Req_dec lat_t (PI / 2)) as [E|]; [|lra]. apply (stretch_top c lat lat_t Hc) in E; auto; lra. }
  exists (lat_t + PI / 2). split; [lra|]. split; [apply (stretch_tan c lat lat_t); auto|].
  rewrite <- (turn_south up lon_p lat_p). rewrite turn_dot by (destruct Hu as [-> | ->]; ring).
  unfold dot, unit. rewrite cos_plus, cos_PI2, sin_PI2. ring.
Qed.
Theorem C84_snap : forall lon' lat' w, dot w w = 1 -> 1 - 1 / 10000000 < Rabs (snd w) ->
  (0 < snd w -> lat' = PI / 2) -> (snd w < 0 -> lat' = - (PI / 2)) -> 1 - 1 / 10000000 < dot (unit lon' lat') w.
Proof.
  intros lon' lat' [[x y] z] N Hz P1 P2. cbn [snd] in *. unfold dot, unit. destruct (Rlt_le_dec 0 z) as [L|L].
  - rewrite (P1 L), cos_PI2, sin_PI2. rewrite Rabs_pos_eq in Hz by lra. lra.
  - assert (z < 0). { destruct (Req_dec z 0) as [->|]; [rewrite Rabs_R0 in Hz; lra|lra]. }
    rewrite (P2 H), cos_neg, sin_neg, cos_PI2, sin_PI2. rewrite Rabs_left in Hz by lra. lra.
Qed.

(** Different points stay different unless they are moved to a pole. *)
Theorem C84_distinct : forall c up lon_p lat_p lon1 lat1 lon2 lat2 t1 t2, 0 < c -> up = 1 \/ up = -1 ->
  - (PI / 2) <= lat1 <= PI / 2 -> - (PI / 2) <= lat2 <= PI / 2 ->
  stretched_lat c lat1 t1 -> stretched_lat c lat2 t2 ->
  turn up lon_p lat_p (unit lon1 t1) = turn up lon_p lat_p (unit lon2 t2) -> unit lon1 lat1 = unit lon2 lat2.
Proof.
  intros c up lon_p lat_p lon1 lat1 lon2 lat2 t1 t2 Hc Hu H1 H2 S1 S2 E. pose proof PI_RGT_0 as HP.
  assert (U : up * up = 1) by (destruct Hu as [-> | ->]; ring).
  assert (D : dot (unit lon1 t1) (unit lon2 t2) = 1).
  { rewrite <- (turn_dot up lon_p lat_p) by auto. rewrite E, turn_dot by auto. apply unit_norm. }
  pose proof (unit_norm lon1 t1) as N1. pose proof (unit_norm lon2 t2) as N2. unfold dot, unit in D, N1, N2.
  assert (Z : (cos t1 * cos lon1 - cos t2 * cos lon2) * (cos t1 * cos lon1 - cos t2 * cos lon2) + (cos t1 * sin lon1 - cos t2 * sin lon2) * (cos t1 * sin lon1 - cos t2 * sin lon2)
     + (sin t1 - sin t2) * (sin t1 - sin t2) = 0) by lra.
  assert (SQ : forall x y z : R, x * x + y * y + z * z = 0 -> x = 0 /\ y = 0 /\ z = 0) by (clear; intros; repeat split; nra).
  destruct (SQ _ _ _ Z) as (Zx & Zy & Zz). clear SQ Z.
  pose proof S1 as [R1 _]. pose proof S2 as [R2 _]. assert (T : t1 = t2) by (apply sin_inj; auto; lra). subst t2.
  assert (L : lat1 = lat2).
  { destruct S1 as [_ E1], S2 as [_ E2]. apply sin_inj; auto. assert (P : 0 < c * c) by nra. pose proof (sin_bd t1).
    assert (D1 : 0 < (1 + sin t1) * (c * c) + (1 - sin t1)).
    { destruct (Rlt_le_dec (sin t1) 1); [assert (0 <= (1 + sin t1) * (c * c)) by (apply Rmult_le_pos; lra); lra|assert (0 < (1 + sin t1) * (c * c)) by (apply Rmult_lt_0_compat; lra); lra]. }
    apply (Rmult_eq_reg_l ((1 + sin t1) * (c * c) + (1 - sin t1))); [|lra]. lra. }
  subst lat2. destruct (Req_dec (cos t1) 0) as [C0|C0].
  - assert (HT : t1 = PI / 2 \/ t1 = - (PI / 2)).
    { destruct (Rlt_le_dec t1 (PI / 2)); [|left; lra]. destruct (Rlt_le_dec (- (PI / 2)) t1); [|right; lra]. pose proof (cos_gt_0 t1 ltac:(lra) ltac:(lra)). lra. }
    assert (C1 : cos lat1 = 0).
    { destruct HT as [-> | ->].
      - apply (stretch_top c lat1 (PI / 2) Hc H1) in S1. destruct S1 as [S1 _]. rewrite (S1 eq_refl). apply cos_PI2.
      - destruct S1 as [_ E1]. rewrite sin_neg, sin_PI2 in E1. assert (ES : sin lat1 = sin (- (PI / 2))) by (rewrite sin_neg, sin_PI2; lra).
        apply sin_inj in ES; [|auto|lra]. rewrite ES, cos_neg. apply cos_PI2. }
    unfold unit. rewrite C1. apply v3; ring.
  - unfold unit. assert (cos lon1 = cos lon2) as -> by (apply (Rmult_eq_reg_l (cos t1)); lra). assert (sin lon1 = sin lon2) as -> by (apply (Rmult_eq_reg_l (cos t1)); lra). reflexivity.
Qed.

Lemma snapped lon lat : - (PI / 2) <= lat <= PI / 2 -> 1 + sin lat <= 64 / 100000000 ->
  transform_point false 3 0 (90 * (PI / 180)) (lon, lat) = (0, PI / 2).
Proof.
  intros Hl Hs. pose proof PI_RGT_0 as HP.
  destruct (point_spec false 3 0 (90 * (PI / 180)) lon lat ltac:(lra) ltac:(lra) Hl) as (c' & t & lon' & lat' & E & Q & _ & [Rt St] & _ & _ & _ & W).
  rewrite E. assert (c' = 3) as ->. { apply Q. unfold EPSLN7. rewrite Rabs_left by lra. lra. }
  replace (90 * (PI / 180)) with (PI / 2) in W by field. unfold turn, plus, scale, unit, north, east, third in W. cbn [snd] in W. rewrite cos_PI2, sin_PI2 in W.
  assert (EZ : updown false * (cos t * cos lon) * 0 + (updown false * (cos t * sin lon) * 0 + - sin t * 1) = - sin t) by ring. rewrite EZ in W.
  pose proof (sin_bd t). pose proof (sin_bd lat). assert (B : 1 + sin t < 1 / 10000000) by nra.
  assert (AB : Rabs (- sin t) = - sin t) by (apply Rabs_pos_eq; lra). unfold EPSLN7 in W. rewrite AB in W.
  destruct W as [-> ->]; [lra|]. destruct (Rlt_dec (- sin t) 0); [lra|reflexivity].
Qed.

(** Distinct points of a tile should have distinct images.  They do not: with
    --do_schmidt --stretch_factor 3 --target_lat 90 --target_lon 0 and 3072 cells along a tile,
    the middle of tile 6 and the point next to it are both moved to the pole, so that the cells
    between them have no extent. *)
Theorem C84_collapse_refuted :
  ~ (forall n c target_lon target_lat t j i j' i' lon lat lon' lat', (1 <= n)%Z -> 0 < c ->
       -180 <= target_lon <= 360 -> -90 <= target_lat <= 90 -> (0 <= t < 6)%Z ->
       (0 <= j <= n)%Z -> (0 <= i <= n)%Z -> (0 <= j' <= n)%Z -> (0 <= i' <= n)%Z -> (j, i) <> (j', i') ->
       - (PI / 2) <= lat <= PI / 2 -> - (PI / 2) <= lat' <= PI / 2 ->
       toward lon lat (face t (grad n i) (grad n j)) -> toward lon' lat' (face t (grad n i') (grad n j')) ->
       transform_point false c (target_lon * (PI / 180)) (target_lat * (PI / 180)) (lon, lat)
       <> transform_point false c (target_lon * (PI / 180)) (target_lat * (PI / 180)) (lon', lat')).
Proof.
  intros H. pose proof PI_RGT_0 as HP. pose proof PI_4 as HP4. set (n := 3072%Z) in *. set (g := grad n 1537).
  assert (G0 : grad n 1536 = 0) by (apply grad_mid; unfold n; lia).
  destruct (cs_atan g) as (CS & CP & SG). pose proof (atan_bound g) as AB. set (th := atan g) in *.
  assert (GP : 0 < g). { unfold g. rewrite <- G0. apply grad_incr; unfold n; lia. }
  assert (SP : 0 < sin th) by (rewrite SG; apply Rmult_lt_0_compat; auto).
  assert (TP : 0 < th). { destruct (Rlt_le_dec 0 th); auto. exfalso. assert (sin th <= sin 0). { destruct (Req_dec th 0) as [->|]; [lra|]. left. apply sin_increasing_1; lra. } rewrite sin_0 in *. lra. }
  assert (GB : g * g <= 12789 / 10000000000).
  { pose proof (sin_ang n ltac:(unfold n; lia) 1537 ltac:(unfold n; lia)) as E. pose proof (cos_ang n ltac:(unfold n; lia) 1537 ltac:(unfold n; lia)) as C. fold g in E.
    assert (A : ang n 1537 = half_edge / 1536) by (unfold ang, n; field). rewrite A in *. pose proof h_bounds as HB.
    assert (SX : sin (half_edge / 1536) < half_edge / 1536) by (apply sin_lt_x; lra).
    assert (SX0 : 0 <= sin (half_edge / 1536)) by (apply sin_ge_0; lra).
    pose proof s2_sq as S2. pose proof s2_pos as S2p. pose proof q_sq as QS. pose proof q_pos as QP.
    set (x := half_edge / 1536) in *. assert (XB : x <= 1 / 1536) by (unfold x; lra). clearbody x g.
    assert (Q1 : (sqrt 2 * q) * (sqrt 2 * q) = 2 / 3). { replace (sqrt 2 * q * (sqrt 2 * q)) with (sqrt 2 * sqrt 2 * (q * q)) by ring. rewrite S2, QS. lra. }
    assert (CC : 2 / 3 <= cos x * cos x). { rewrite <- Q1. assert (0 < sqrt 2 * q) by (apply Rmult_lt_0_compat; auto). nra. }
    assert (GG : (g * g) * (cos x * cos x) = 2 * (sin x * sin x)). { replace (g * g * (cos x * cos x)) with ((g * cos x) * (g * cos x)) by ring. rewrite <- E. replace (sqrt 2 * sin x * (sqrt 2 * sin x)) with (sqrt 2 * sqrt 2 * (sin x * sin x)) by ring. now rewrite S2. }
    assert (S3 : sin x * sin x <= (1 / 1536) * (1 / 1536)) by nra. nra. }
  apply (H n 3 0 90 5%Z 1536%Z 1536%Z 1536%Z 1537%Z 0 (- (PI / 2)) (PI / 2) (th - PI / 2)); try lra; try (unfold n; lia); [congruence|..].
  - cbn [face]. rewrite G0. exists 1. rewrite cos_neg, sin_neg, cos_PI2, sin_PI2. repeat split; try lra; ring.
  - cbn [face]. rewrite G0. fold g. exists (1 / cos th). rewrite cos_PI2, sin_PI2, cos_minus, sin_minus, cos_PI2, sin_PI2, SG.
    split; [apply Rdiv_lt_0_compat; lra|]. repeat split; field; lra.
  - rewrite Rmult_0_l. rewrite !snapped; auto; try lra.
    + rewrite sin_minus, cos_PI2, sin_PI2. clear H. clearbody g th n. assert (K : g * g * (cos th * cos th) = 1 - cos th * cos th) by (rewrite SG in CS; lra).
      assert (cos th <= 1) by nra. nra.
    + rewrite sin_neg, sin_PI2. lra.
Qed.

(** A stretched grid with target 260 E, 35 N: the middle of tile 6 comes there, and the equator
    (90 degrees from the middle) to where the tangent of half the distance is 1/3. *)
Example C84_example : transform_point true 3 (260 * (PI / 180)) (35 * (PI / 180)) (0, - (PI / 2)) = (260 / 180 * PI, 35 / 180 * PI)
  /\ exists d, 0 <= d < PI /\ tan (d / 2) = 1 / 3.
Proof.
  pose proof PI_RGT_0 as HP. pose proof PI_4 as HP4. split.
  - destruct (point_spec true 3 (260 * (PI / 180)) (35 * (PI / 180)) 0 (- (PI / 2)) ltac:(lra) ltac:(lra) ltac:(lra)) as (c' & t & lon' & lat' & E & Q & _ & [Rt St] & R1 & R2 & W & _).
    rewrite E. assert (c' = 3) as ->. { apply Q. unfold EPSLN7. rewrite Rabs_left by lra. lra. }
    rewrite sin_neg, sin_PI2 in St. assert (T : t = - (PI / 2)) by (apply sin_inj; auto; [lra|rewrite sin_neg, sin_PI2; lra]). subst t.
    assert (U : unit 0 (- (PI / 2)) = (0, 0, -1)) by (unfold unit; rewrite cos_neg, sin_neg, cos_PI2, sin_PI2; apply v3; ring).
    rewrite U, turn_south in W. assert (S : 0 <= sin (35 * (PI / 180)) <= 1 / sqrt 2).
    { split; [apply sin_ge_0; lra|]. rewrite <- sin_PI4. left. apply sin_increasing_1; lra. }
    assert (Q2 : 1 / sqrt 2 <= 3 / 4). { pose proof s2_pos. pose proof s2_sq. apply (Rmult_le_reg_r (sqrt 2)); auto. unfold Rdiv. rewrite Rmult_1_l, Rinv_l by lra. nra. }
    assert (W' : unit lon' lat' = unit (260 * (PI / 180)) (35 * (PI / 180))). { apply W. unfold third, unit. cbn [snd]. rewrite Rabs_pos_eq by lra. unfold EPSLN7. lra. }
    unfold unit in W'. injection W' as X Y Z. apply sin_inj in Z; [|auto|lra]. subst lat'.
    assert (C : 0 < cos (35 * (PI / 180))) by (apply cos_gt_0; lra).
    f_equal; [|field]. transitivity (260 * (PI / 180)); [|field]. apply angle_unique; [auto|lra| |]; apply (Rmult_eq_reg_l (cos (35 * (PI / 180)))); lra.
  - exists (2 * atan (1 / 3)). assert (B : 0 < atan (1 / 3)) by (rewrite <- atan_0; apply atan_increasing; lra). pose proof (atan_bound (1 / 3)). split; [lra|].
    replace (2 * atan (1 / 3) / 2) with (atan (1 / 3)) by field. apply tan_atan.
Qed.
