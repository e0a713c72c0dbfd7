(** Proofs for M_Schmidt. *)
From Coq Require Import Reals ZArith List Bool Lia Lra Psatz Nsatz.
From Verif Require Import Base Loops M_Interp P_Longitude M_Matrix P_Matrix Spec_Gnomonic P_Gnomonic P_Gnomonic2 P_Gnomonic3 P_Gnomonic6 M_Schmidt Spec_Schmidt.
Import ListNotations.
Open Scope R_scope.

Lemma sc2 x : sin x * sin x + cos x * cos x = 1.
Proof. pose proof (sin2_cos2 x) as E. unfold Rsqr in E. lra. Qed.
Lemma sin_bd x : -1 <= sin x <= 1. Proof. pose proof (SIN_bound x). lra. Qed.

Lemma v3 (x y z x' y' z' : R) : x = x' -> y = y' -> z = z' -> (x, y, z) = (x', y', z').
Proof. now intros -> -> ->. Qed.

Lemma unit_norm lon lat : dot (unit lon lat) (unit lon lat) = 1.
Proof. unfold dot, unit. pose proof (sc2 lon). pose proof (sc2 lat). nra. Qed.

(** The turn is a rotation. *)
Lemma turn_dot up lon_p lat_p u v : up * up = 1 -> dot (turn up lon_p lat_p u) (turn up lon_p lat_p v) = dot u v.
Proof.
  intros Hu. destruct u as [[x y] z], v as [[x' y'] z']. unfold turn, plus, scale, dot, unit, east, north.
  pose proof (sc2 lon_p) as A. pose proof (sc2 lat_p) as B.
  set (s := sin lon_p) in *. set (c := cos lon_p) in *. set (t := sin lat_p) in *. set (d := cos lat_p) in *. clearbody s c t d.
  transitivity (up * up * (x * x') * (t * t * (s * s + c * c) + d * d) + up * up * (y * y') * (s * s + c * c) + z * z' * (d * d * (s * s + c * c) + t * t)
    + (up * (x * z' + x' * z)) * (t * d * (s * s + c * c) - t * d)).
  - ring.
  - rewrite A, Hu. replace (t * t * 1 + d * d) with 1 by lra. replace (d * d * 1 + t * t) with 1 by lra. ring.
Qed.
Lemma turn_cross up lon_p lat_p u v : up * up = 1 -> cross (turn up lon_p lat_p u) (turn up lon_p lat_p v) = turn up lon_p lat_p (cross u v).
Proof.
  intros Hu. destruct u as [[x y] z], v as [[x' y'] z']. unfold turn, plus, scale, cross, unit, east, north.
  pose proof (sc2 lon_p) as A. pose proof (sc2 lat_p) as B.
  set (s := sin lon_p) in *. set (c := cos lon_p) in *. set (t := sin lat_p) in *. set (d := cos lat_p) in *. clearbody s c t d.
  apply v3; nsatz.
Qed.
Lemma turn_south up lon_p lat_p : turn up lon_p lat_p (0, 0, -1) = unit lon_p lat_p.
Proof. unfold turn, plus, scale, unit, north, east. apply v3; ring. Qed.

(** The stretched latitude. *)
Lemma stretch_arg c s : 0 < c -> -1 <= s <= 1 -> 0 < (1 + c * c) + (1 - c * c) * s
  /\ -1 <= ((1 - c * c) + (1 + c * c) * s) / ((1 + c * c) + (1 - c * c) * s) <= 1.
Proof.
  intros Hc Hs. assert (P : 0 < c * c) by nra.
  assert (D : 0 < (1 + c * c) + (1 - c * c) * s).
  { replace (1 + c * c + (1 - c * c) * s) with ((1 + s) + (c * c) * (1 - s)) by ring. destruct (Rlt_le_dec s 1); [|assert (s = 1) by lra; subst; lra].
    assert (0 < c * c * (1 - s)) by (apply Rmult_lt_0_compat; lra). lra. }
  split; auto. split.
  - apply (Rmult_le_reg_r ((1 + c * c) + (1 - c * c) * s)); auto. unfold Rdiv. rewrite Rmult_assoc, Rinv_l by lra. nra.
  - apply (Rmult_le_reg_r ((1 + c * c) + (1 - c * c) * s)); auto. unfold Rdiv. rewrite Rmult_assoc, Rinv_l by lra. nra.
Qed.
Lemma asin_stretched c lat : 0 < c -> stretched_lat c lat (asin (((1 - c * c) + (1 + c * c) * sin lat) / ((1 + c * c) + (1 - c * c) * sin lat))).
Proof.
  intros Hc. destruct (stretch_arg c (sin lat) Hc (sin_bd lat)) as [D B]. split.
  - pose proof (asin_bound (((1 - c * c) + (1 + c * c) * sin lat) / ((1 + c * c) + (1 - c * c) * sin lat))). lra.
  - rewrite sin_asin by auto. field. lra.
Qed.
Lemma stretched_1 lat : - (PI / 2) <= lat <= PI / 2 -> stretched_lat 1 lat lat.
Proof. intros H. split; auto. ring. Qed.
Lemma stretched_unique c lat a b : 0 < c -> - (PI / 2) <= lat <= PI / 2 -> stretched_lat c lat a -> stretched_lat c lat b -> a = b.
Proof.
  intros Hc Hl [Ra Ea] [Rb Eb]. apply sin_inj; auto.
  pose proof (sin_bd lat) as S. assert (P : 0 < c * c) by nra.
  assert (D : 0 < (1 + sin lat) + c * c * (1 - sin lat)).
  { destruct (Rlt_le_dec (sin lat) 1); [assert (0 < c * c * (1 - sin lat)) by (apply Rmult_lt_0_compat; lra); lra|]. assert (E : sin lat = 1) by lra. rewrite E. lra. }
  apply (Rmult_eq_reg_l ((1 + sin lat) + c * c * (1 - sin lat))); [|lra]. lra.
Qed.

(** Half angles: the tangent of half the distance from the south pole. *)
Lemma half_sin x : - (PI / 2) <= x < PI / 2 -> let h := (x + PI / 2) / 2 in
  0 <= h < PI / 2 /\ 0 < cos h /\ 0 <= sin h /\ 1 + sin x = 2 * (sin h * sin h) /\ 1 - sin x = 2 * (cos h * cos h).
Proof.
  intros Hx h. assert (R : 0 <= h < PI / 2) by (unfold h; lra). split; auto.
  split; [apply cos_gt_0; lra|]. split; [apply sin_ge_0; lra|].
  assert (E : sin x = - cos (2 * h)). { unfold h. replace (2 * ((x + PI / 2) / 2)) with (PI / 2 + x) by field. rewrite cos_plus, cos_PI2, sin_PI2; ring. }
  rewrite E. rewrite cos_2a. pose proof (sc2 h). split; lra.
Qed.
Lemma stretch_tan c a b : 0 < c -> - (PI / 2) <= a < PI / 2 -> - (PI / 2) <= b < PI / 2 ->
  (stretched_lat c a b <-> tan ((b + PI / 2) / 2) = tan ((a + PI / 2) / 2) / c).
Proof.
  intros Hc Ha Hb. destruct (half_sin a Ha) as (Ra & Ca & Sa & A1 & A2), (half_sin b Hb) as (Rb & Cb & Sb & B1 & B2).
  set (h := (a + PI / 2) / 2) in *. set (g := (b + PI / 2) / 2) in *. clearbody h g. unfold stretched_lat, tan. rewrite A1, A2, B1, B2.
  assert (E : sin g / cos g = sin h / cos h / c <-> c * (sin g * cos h) = sin h * cos g).
  { split; intros E.
    - replace (sin g) with (sin g / cos g * cos g) by (field; lra). rewrite E. field. lra.
    - apply (Rmult_eq_reg_l (c * (cos g * cos h))); [|apply Rgt_not_eq; repeat apply Rmult_lt_0_compat; auto]. field_simplify; lra. }
  rewrite E. split.
  - intros [_ H]. set (u := c * (sin g * cos h)) in *. set (v := sin h * cos g) in *.
    assert (0 <= u) by (unfold u; repeat apply Rmult_le_pos; lra). assert (0 <= v) by (unfold v; apply Rmult_le_pos; lra).
    assert (Q : u * u = v * v) by (unfold u, v; nra). clearbody u v. nra.
  - intros H. split; [lra|]. assert (Q : (c * (sin g * cos h)) * (c * (sin g * cos h)) = (sin h * cos g) * (sin h * cos g)) by now rewrite H. nra.
Qed.
Lemma stretch_top c a b : 0 < c -> - (PI / 2) <= a <= PI / 2 -> stretched_lat c a b -> (b = PI / 2 <-> a = PI / 2).
Proof.
  intros Hc Ha [Rb E]. assert (P : 0 < c * c) by nra. pose proof PI_RGT_0. split; intros ->.
  - rewrite sin_PI2 in E. apply sin_inj; try lra. rewrite sin_PI2. nra.
  - rewrite sin_PI2 in E. apply sin_inj; try lra. rewrite sin_PI2. nra.
Qed.

(** Longitudes. *)
Lemma lon_wrap l : - (2 * PI) < l -> l <= 3 * PI ->
  let l' := if rlt l 0 then l + 2 * PI else if negb (rlt l (2 * PI)) then l - 2 * PI else l in
  0 <= l' < 2 * PI /\ cos l' = cos l /\ sin l' = sin l.
Proof.
  intros H1 H2. pose proof PI_RGT_0. cbv zeta. destruct (rlt_cases l 0) as [[-> A]|[-> A]].
  - split; [lra|]. rewrite cos_plus, sin_plus, cos_2PI, sin_2PI. split; ring.
  - destruct (rlt_cases l (2 * PI)) as [[-> B]|[-> B]]; cbn [negb]; [split; [lra|auto]|].
    split; [lra|]. rewrite cos_minus, sin_minus, cos_2PI, sin_2PI. split; ring.
Qed.

Definition third (v : vec) : R := snd v.
Definition updown (flip : bool) : R := if flip then 1 else -1.
Lemma updown2 flip : updown flip * updown flip = 1. Proof. destruct flip; cbn; ring. Qed.

Lemma turned_point (flip : bool) lon_p lat_p lon lat : - PI <= lon_p <= 2 * PI ->
  let lon1 := if flip then lon + PI else lon in
  let sin_o := - (sin lat_p * sin lat + cos lat_p * cos lat * cos lon1) in
  let w := turn (updown flip) lon_p lat_p (unit lon lat) in
  third w = sin_o /\ (sin_o * sin_o < 1 ->
   let l := lon_p + atan2 (- cos lat * sin lon1) (- sin lat * cos lat_p + cos lat * sin lat_p * cos lon1) in
   - (2 * PI) < l <= 3 * PI /\ (cos (asin sin_o) * cos l, cos (asin sin_o) * sin l, sin (asin sin_o)) = w).
Proof.
  intros Hp lon1 sin_o w. pose proof PI_RGT_0.
  assert (CS : updown flip * cos lon = - cos lon1 /\ updown flip * sin lon = - sin lon1).
  { unfold updown, lon1. destruct flip; [rewrite neg_cos, neg_sin|]; split; ring. }
  destruct CS as [C1 S1]. set (c := cos lon1) in *. set (s := sin lon1) in *. assert (CS1 : s * s + c * c = 1) by apply sc2.
  assert (W : w = (cos lat_p * (- sin lat) * cos lon_p + cos lat * (c * sin lat_p) * cos lon_p + cos lat * s * sin lon_p,
     cos lat_p * (- sin lat) * sin lon_p + cos lat * (c * sin lat_p) * sin lon_p - cos lat * s * cos lon_p, sin_o)).
  { unfold w, turn, plus, scale, unit, north, east.
    replace (updown flip * (cos lat * cos lon)) with (cos lat * (updown flip * cos lon)) by ring.
    replace (updown flip * (cos lat * sin lon)) with (cos lat * (updown flip * sin lon)) by ring. rewrite C1, S1. unfold sin_o. apply v3; ring. }
  split; [rewrite W; reflexivity|]. intros So l. set (y := - cos lat * s) in *. set (x := - sin lat * cos lat_p + cos lat * sin lat_p * c) in *.
  assert (N : x * x + y * y = 1 - sin_o * sin_o).
  { unfold x, y, sin_o. pose proof (sc2 lat) as A. pose proof (sc2 lat_p) as B. clear - A B CS1. clearbody c s.
    set (p := sin lat) in *. set (q := cos lat) in *. set (t := sin lat_p) in *. set (d := cos lat_p) in *. clearbody p q t d. nsatz. }
  destruct (atan2_spec x y ltac:(lra)) as (X & Y & RG). set (th := atan2 y x) in *. rewrite N in X, Y.
  assert (Cl : cos (asin sin_o) = sqrt (1 - sin_o * sin_o)).
  { rewrite cos_asin; [now unfold Rsqr|]. split; nra. }
  split; [unfold l; lra|]. rewrite W. rewrite sin_asin by nra. rewrite Cl. unfold l. rewrite cos_plus, sin_plus.
  set (r := sqrt (1 - sin_o * sin_o)) in *. apply v3; [| |reflexivity].
  - transitivity (cos lon_p * x - sin lon_p * y); [rewrite X at 1; rewrite Y at 1; ring|unfold x, y; ring].
  - transitivity (sin lon_p * x + cos lon_p * y); [rewrite X at 1; rewrite Y at 1; ring|unfold x, y; ring].
Qed.

Lemma rabs_le1 v w : dot v v = 1 -> dot w w = 1 -> Rabs (third v) <= 1.
Proof. intros H _. destruct v as [[x y] z]. unfold dot, third in *. cbn [snd]. apply Rabs_le. nra. Qed.

Lemma point_spec (flip : bool) c lon_p lat_p lon lat : 0 < c -> - PI <= lon_p <= 2 * PI -> - (PI / 2) <= lat <= PI / 2 ->
  exists c' lat_t lon' lat', transform_point flip c lon_p lat_p (lon, lat) = (lon', lat')
    /\ (EPSLN7 < Rabs (1 - c * c) -> c' = c) /\ (Rabs (1 - c * c) <= EPSLN7 -> c' = 1)
    /\ stretched_lat c' lat lat_t /\ 0 <= lon' < 2 * PI /\ - (PI / 2) <= lat' <= PI / 2
    /\ let w := turn (updown flip) lon_p lat_p (unit lon lat_t) in
       (Rabs (third w) <= 1 - EPSLN7 -> unit lon' lat' = w)
       /\ (1 - EPSLN7 < Rabs (third w) -> lon' = 0 /\ lat' = (if Rlt_dec (third w) 0 then - (PI / 2) else PI / 2)).
Proof.
  intros Hc Hp Hl. pose proof PI_RGT_0. unfold transform_point.
  set (lat_t := if rlt EPSLN7 (Rabs (1 - c * c)) then _ else lat).
  assert (LT : exists c', (EPSLN7 < Rabs (1 - c * c) -> c' = c) /\ (Rabs (1 - c * c) <= EPSLN7 -> c' = 1) /\ stretched_lat c' lat lat_t).
  { unfold lat_t. destruct (rlt_cases EPSLN7 (Rabs (1 - c * c))) as [[-> A]|[-> A]].
    - exists c. split; auto. split; [intros; lra|]. now apply asin_stretched.
    - exists 1. split; [intros; lra|]. split; auto. now apply stretched_1. }
  destruct LT as (c' & Q1 & Q2 & St). clearbody lat_t. exists c', lat_t.
  destruct (turned_point flip lon_p lat_p lon lat_t Hp) as [T3 TT]. cbv zeta in T3, TT |- *.
  set (lon1 := if flip then lon + PI else lon) in *. set (sin_o := - (sin lat_p * sin lat_t + _)) in *.
  set (w := turn (updown flip) lon_p lat_p (unit lon lat_t)) in *.
  destruct (rlt_cases (1 - Rabs sin_o) EPSLN7) as [[-> A]|[-> A]].
  - eexists _, _. split; [reflexivity|]. split; auto. split; auto. split; auto. split; [lra|]. split; [destruct (rlt sin_o 0); lra|].
    rewrite T3. split; [intros; lra|]. intros _. split; auto. destruct (rlt_cases sin_o 0) as [[-> B]|[-> B]]; destruct (Rlt_dec sin_o 0); lra.
  - assert (So : sin_o * sin_o < 1). { assert (E7 : 0 < EPSLN7) by (unfold EPSLN7; lra). rewrite <- (Rabs_pos_eq (sin_o * sin_o)) by nra. rewrite Rabs_mult. pose proof (Rabs_pos sin_o). nra. }
    destruct (TT So) as [RG E]. destruct (lon_wrap _ (proj1 RG) (proj2 RG)) as (W1 & W2 & W3). cbv zeta in W1, W2, W3.
    eexists _, _. split; [reflexivity|]. split; auto. split; auto. split; auto. split; [exact W1|]. split; [pose proof (asin_bound sin_o); lra|].
    rewrite T3. split; [|intros; lra]. intros _. rewrite <- E. unfold unit. now rewrite W2, W3.
Qed.

(** ** The loops *)
Definition both (lon lat : list R) (k : Z) (p : R * R) : Prop := zget lon k = Some (fst p) /\ zget lat k = Some (snd p).
Lemma tile_run flip c lon_p lat_p ni o (lon lat : list R) : (0 <= ni)%Z -> (0 <= o)%Z ->
  zlen lat = zlen lon -> (o + (ni + 1) * (ni + 1) <= zlen lon)%Z ->
  exists lon' lat', transform_tile flip c 0 ni 0 ni lon_p lat_p o lon lat = Ok (lon', lat')
    /\ zlen lon' = zlen lon /\ zlen lat' = zlen lon
    /\ forall k p, both lon lat k p -> both lon' lat' k (if (o <=? k)%Z && (k <? o + (ni + 1) * (ni + 1))%Z then transform_point flip c lon_p lat_p p else p).
Proof.
  intros Hni Ho L1 L2. unfold transform_tile. replace (ni - 0 + 1)%Z with (ni + 1)%Z by lia.
  rewrite ofor_nest2 by lia.
  set (f := transform_point flip c lon_p lat_p).
  destruct (ofor_inv (fun n (s : list R * list R) => zlen (fst s) = zlen lon /\ zlen (snd s) = zlen lon
     /\ forall k p, both lon lat k p -> both (fst s) (snd s) k (if (o <=? k)%Z && (k <? o + n)%Z then f p else p))
     (fun s n => (fun '(lon0, lat0) (i : Z) =>
        do x <- oget lon0 (o + ((0 + n / (ni + 1)) * (ni + 1) + i));
        do y <- oget lat0 (o + ((0 + n / (ni + 1)) * (ni + 1) + i));
        (let '(x', y') := f (x, y) in
         do lon1 <- oset lon0 (o + ((0 + n / (ni + 1)) * (ni + 1) + i)) x';
         do lat1 <- oset lat0 (o + ((0 + n / (ni + 1)) * (ni + 1) + i)) y'; Ok (lon1, lat1))) s (0 + n mod (ni + 1))%Z)
     0%Z ((ni + 1) * (ni + 1))%Z (lon, lat)) as (s' & E & P).
  - nia.
  - cbn [fst snd]. split; auto. split; auto. intros k p B. destruct (Z.leb_spec o k), (Z.ltb_spec k (o + 0)); cbn [andb]; auto; lia.
  - intros n [a b] Hn (A1 & A2 & A3). cbn [fst snd] in *.
    destruct (divmod_range (ni + 1) (ni + 1) n ltac:(lia) ltac:(lia)) as (_ & _ & _ & DM).
    replace (o + ((0 + n / (ni + 1)) * (ni + 1) + (0 + n mod (ni + 1))))%Z with (o + n)%Z by lia. clear DM.
    destruct (zget_in_range lon (o + n)%Z ltac:(lia)) as [x Gx]. destruct (zget_in_range lat (o + n)%Z ltac:(lia)) as [y Gy].
    destruct (A3 (o + n)%Z (x, y) (conj Gx Gy)) as [B1 B2]. destruct (Z.ltb_spec (o + n) (o + n)); [lia|]. rewrite andb_false_r in B1, B2. cbn [fst snd] in *.
    rewrite (oget_some _ _ _ B1), (oget_some _ _ _ B2). cbn [bind]. destruct (f (x, y)) as [x' y'] eqn:F.
    destruct (oset_run a (o + n)%Z x' ltac:(lia)) as (a' & -> & La & Ga & Ha). destruct (oset_run b (o + n)%Z y' ltac:(lia)) as (b' & -> & Lb & Gb & Hb). cbn [bind].
    eexists; split; [reflexivity|]. cbn [fst snd]. split; [congruence|]. split; [congruence|].
    intros k p B. destruct (Z.eq_dec k (o + n)) as [->|NE].
    + assert (p = (x, y)) as ->. { destruct B as [B1' B2']. destruct p as [px py]. cbn [fst snd] in *. congruence. }
      destruct (Z.leb_spec o (o + n)), (Z.ltb_spec (o + n) (o + (n + 1))); try lia. cbn [andb]. rewrite F. split; auto.
    + destruct (A3 k p B) as [C1 C2]. split; rewrite ?Ha, ?Hb by auto; destruct (Z.leb_spec o k), (Z.ltb_spec k (o + n)), (Z.ltb_spec k (o + (n + 1))); try lia; cbn [andb] in *; auto.
  - destruct s' as [lon' lat']. exists lon', lat'. split; [|cbn [fst snd] in P; exact P]. exact E.
Qed.

Lemma tiles_run schmidt cube c tlon tlat ni (lon lat : list R) : (0 <= ni)%Z -> schmidt || cube = true ->
  zlen lon = (6 * ((ni + 1) * (ni + 1)))%Z -> zlen lat = (6 * ((ni + 1) * (ni + 1)))%Z ->
  exists lon' lat', transform_tiles schmidt cube c tlon tlat ni lon lat = Ok (lon', lat')
    /\ zlen lon' = zlen lon /\ zlen lat' = zlen lat
    /\ forall k p, both lon lat k p -> both lon' lat' k (transform_point (negb schmidt) c (tlon * (PI / 180)) (tlat * (PI / 180)) p).
Proof.
  intros Hni Hs L1 L2. unfold transform_tiles. rewrite Hs. set (f := transform_point _ _ _ _). set (m := ((ni + 1) * (ni + 1))%Z) in *.
  destruct (ofor_inv (fun n (s : list R * list R) => zlen (fst s) = zlen lon /\ zlen (snd s) = zlen lon
     /\ forall k p, both lon lat k p -> both (fst s) (snd s) k (if (k <? n * m)%Z then f p else p))
     (fun '(xc, yc) n => transform_tile (negb schmidt) c 0 ni 0 ni (tlon * (PI / 180)) (tlat * (PI / 180)) (n * (ni + 1) * (ni + 1))%Z xc yc)
     0%Z 6%Z (lon, lat)) as (s' & E & P).
  - lia.
  - cbn [fst snd]. split; auto. split; [congruence|]. intros k p B. destruct B as [B1 B2]. pose proof (zget_Some_range _ _ _ B1). destruct (Z.ltb_spec k (0 * m)); [lia|]. split; auto.
  - intros n [a b] Hn (A1 & A2 & A3). cbn [fst snd] in *.
    destruct (tile_run (negb schmidt) c (tlon * (PI / 180)) (tlat * (PI / 180)) ni (n * (ni + 1) * (ni + 1)) a b ltac:(lia) ltac:(nia) ltac:(congruence) ltac:(rewrite A1, L1; unfold m; nia)) as (a' & b' & -> & La & Lb & T).
    eexists; split; [reflexivity|]. cbn [fst snd]. split; [congruence|]. split; [congruence|]. intros k p B. pose proof (zget_Some_range _ _ _ (proj1 B)) as RK.
    specialize (T _ _ (A3 _ _ B)). fold f m in T. replace (n * (ni + 1) * (ni + 1))%Z with (n * m)%Z in T by (unfold m; ring).
    destruct (Z.ltb_spec k (n * m)), (Z.leb_spec (n * m) k), (Z.ltb_spec k (n * m + m)), (Z.ltb_spec k ((n + 1) * m)); cbn [andb] in T; auto; try lia.
  - destruct s' as [lon' lat']. exists lon', lat'. cbn [fst snd] in P. destruct P as (P1 & P2 & P3). split; [exact E|]. split; auto. split; [congruence|].
    intros k p B. pose proof (zget_Some_range _ _ _ (proj1 B)) as RK. specialize (P3 k p B). destruct (Z.ltb_spec k ((0 + 6) * m)); auto. lia.
Qed.
