(** C83: where the points of a gnomonic cubed-sphere grid lie. *)
From Coq Require Import Reals ZArith List Bool Lia Lra Psatz.
From Verif Require Import Base Loops M_Interp P_Longitude M_Matrix P_Matrix Spec_Cubic Spec_Gnomonic P_Gnomonic M_Cubic P_Cubic P_Cubic2 P_Cubic3 M_Gnomonic P_Gnomonic2 P_Gnomonic3 P_Gnomonic4 P_Gnomonic5 P_Gnomonic6.
Import ListNotations.
Open Scope R_scope.

Lemma pt_value ni x y t j i : (0 <= t < 6)%Z -> (0 <= j <= ni)%Z -> (0 <= i <= ni)%Z -> pt ni x y t j i ->
  exists lon lat, tile_value (ni + 1) (ni + 1) x t j i = Some lon /\ tile_value (ni + 1) (ni + 1) y t j i = Some lat
    /\ toward lon lat (face t (grad ni i) (grad ni j)) /\ - PI < lon <= PI /\ - (PI / 2) <= lat <= PI / 2.
Proof.
  intros Ht Hj Hi (lon & lat & G1 & G2 & T & R1 & R2). exists lon, lat. unfold tile_value.
  destruct (Z.leb_spec 0 t), (Z.ltb_spec t 6), (Z.leb_spec 0 j), (Z.ltb_spec j (ni + 1)), (Z.leb_spec 0 i), (Z.ltb_spec i (ni + 1)); try lia.
  cbn [andb]. auto.
Qed.

(** Point (j, i) of tile t lies in the direction of point (grad i, grad j) of face t of the
    cube, for every grid size a program can have, whatever the work arrays held before. *)
Theorem C83_faces : forall ni x y z lam th xc yc, (1 <= ni <= 2147483647)%Z ->
  let m := ((ni + 1) * (ni + 1))%Z in
  zlen x = m -> zlen y = m -> zlen z = m -> zlen lam = m -> zlen th = m -> zlen xc = (6 * m)%Z -> zlen yc = (6 * m)%Z ->
  exists xs ys, cubic_start ni (x, y, z) lam th xc yc = Ok (xs, ys)
    /\ zlen xs = (6 * m)%Z /\ zlen ys = (6 * m)%Z
    /\ forall t j i, (0 <= t < 6)%Z -> (0 <= j <= ni)%Z -> (0 <= i <= ni)%Z ->
       exists lon lat, tile_value (ni + 1) (ni + 1) xs t j i = Some lon
         /\ tile_value (ni + 1) (ni + 1) ys t j i = Some lat
         /\ toward lon lat (face t (grad ni i) (grad ni j))
         /\ - PI < lon <= PI /\ - (PI / 2) <= lat <= PI / 2.
Proof.
  intros ni x y z lam th xc yc Hni m L1 L2 L3 L4 L5 L6 L7.
  destruct (start_run ni Hni x y z lam th xc yc L1 L2 L3 L4 L5 L6 L7) as (xs & ys & E & LX & LY & P).
  exists xs, ys. split; auto. split; auto. split; auto. intros t j i Ht Hj Hi. apply pt_value; auto.
Qed.

(** The points of an edge of the cube divide it into [n] equal angles, the same for all
    edges; on every face the coordinate lines run through them, from -1 to 1, in order and
    symmetric about the middle. *)
Theorem C83_spacing : forall n k t s, (1 <= n)%Z -> (0 <= k < n)%Z -> s = -1 \/ s = 1 ->
  (let u := face t (grad n k) s in let v := face t (grad n (k + 1)) s in
   dot u v = sqrt (dot u u) * sqrt (dot v v) * cos (2 * half_edge / IZR n))
  /\ (let u := face t s (grad n k) in let v := face t s (grad n (k + 1)) in
   dot u v = sqrt (dot u u) * sqrt (dot v v) * cos (2 * half_edge / IZR n))
  /\ grad n 0 = -1 /\ grad n n = 1 /\ grad n k < grad n (k + 1) /\ grad n (n - k) = - grad n k.
Proof.
  intros n k t s Hn Hk Hs. assert (E : s * s = 1) by (destruct Hs as [-> | ->]; ring).
  pose proof (spacing n k s Hn Hk E) as H. cbv zeta in H.
  assert (D : forall a b a' b', dot (face t a b) (face t a' b') = 1 + a * a' + b * b').
  { intros. unfold dot, face. repeat match goal with |- context [match ?p with _ => _ end] => is_var p; destruct p end; ring. }
  cbv zeta. rewrite !D. split; [exact H|]. split.
  - replace (1 + s * s + grad n k * grad n (k + 1)) with (1 + grad n k * grad n (k + 1) + s * s) by ring.
    replace (1 + s * s + grad n k * grad n k) with (1 + grad n k * grad n k + s * s) by ring.
    replace (1 + s * s + grad n (k + 1) * grad n (k + 1)) with (1 + grad n (k + 1) * grad n (k + 1) + s * s) by ring. exact H.
  - split; [apply grad_0; auto|]. split; [apply grad_n; auto|]. split; [apply grad_incr; lia|apply grad_opp; auto].
Qed.

(** The cells between the coordinate lines of the six faces cover the sphere: every direction
    lies in one of them, and in only one unless it lies on the border of a cell. *)
Theorem C83_cover : forall n x y z, (1 <= n)%Z -> (x, y, z) <> (0, 0, 0) ->
  exists t j i k a b, (0 <= t < 6)%Z /\ (0 <= j < n)%Z /\ (0 <= i < n)%Z /\ 0 < k
    /\ grad n i <= a <= grad n (i + 1) /\ grad n j <= b <= grad n (j + 1)
    /\ (x, y, z) = scale k (face t a b).
Proof.
  intros n x y z Hn NZ. destruct (cover_face x y z NZ) as (t & k & a & b & Ht & Hk & Ha & Hb & E).
  destruct (locate n a Hn Ha) as (i & Hi & Bi). destruct (locate n b Hn Hb) as (j & Hj & Bj).
  exists t, j, i, k, a, b. auto 10.
Qed.
Theorem C83_disjoint : forall n t j i k a b t' j' i' k' a' b', (1 <= n)%Z ->
  (0 <= t < 6)%Z -> (0 <= j < n)%Z -> (0 <= i < n)%Z -> 0 < k ->
  (0 <= t' < 6)%Z -> (0 <= j' < n)%Z -> (0 <= i' < n)%Z -> 0 < k' ->
  grad n i < a < grad n (i + 1) -> grad n j < b < grad n (j + 1) ->
  grad n i' < a' < grad n (i' + 1) -> grad n j' < b' < grad n (j' + 1) ->
  scale k (face t a b) = scale k' (face t' a' b') -> t = t' /\ j = j' /\ i = i'.
Proof.
  intros n t j i k a b t' j' i' k' a' b' Hn Ht Hj Hi Hk Ht' Hj' Hi' Hk' A B A' B' E.
  assert (BB : forall l c, (0 <= l < n)%Z -> grad n l < c < grad n (l + 1) -> -1 < c < 1).
  { intros l c Hl Hc. pose proof (grad_bounds n Hn l ltac:(lia)). pose proof (grad_bounds n Hn (l + 1) ltac:(lia)). lra. }
  destruct (face_unique t t' k k' a b a' b') as (-> & _ & -> & ->); eauto.
  split; auto. split; eapply locate_unique; eauto.
Qed.

(** Where two tiles meet they have the same points already before the code copies them from
    one to the other; rounding apart, that step changes nothing. *)
Theorem C83_consistent : forall ni x y z lam th xc yc, (1 <= ni <= 2147483647)%Z ->
  let m := ((ni + 1) * (ni + 1))%Z in
  zlen x = m -> zlen y = m -> zlen z = m -> zlen lam = m -> zlen th = m -> zlen xc = (6 * m)%Z -> zlen yc = (6 * m)%Z ->
  exists xs ys, cubic_start ni (x, y, z) lam th xc yc = Ok (xs, ys)
    /\ join_tiles ni (combine xs ys) = Ok (combine xs ys)
    /\ forall t s t' s' r k, In (t, s, t', s', r) cube_edges -> (0 <= k <= ni)%Z ->
       side_point ni xs t s k = side_point ni xs t' s' (if r then ni - k else k)%Z
       /\ side_point ni ys t s k = side_point ni ys t' s' (if r then ni - k else k)%Z.
Proof.
  intros ni x y z lam th xc yc Hni m L1 L2 L3 L4 L5 L6 L7.
  destruct (start_run ni Hni x y z lam th xc yc L1 L2 L3 L4 L5 L6 L7) as (xs & ys & E & LX & LY & P).
  exists xs, ys. split; auto. pose proof (consistent ni Hni xs ys LX LY P) as C. split.
  - apply join_same; [lia|rewrite zlen_combine; rewrite LX, LY; apply Z.min_id|].
    intros t s t' s' r k I Hk p p'. destruct (C t s t' s' r k I Hk) as [C1 C2]. rewrite !zget_combine. fold p p' in C1, C2. now rewrite C1, C2.
  - intros t s t' s' r k I Hk. destruct (C t s t' s' r k I Hk) as [C1 C2]. destruct (edge_face ni Hni t s t' s' r k I Hk) as (_ & B1 & B2 & B3 & B4 & T1 & T2 & _).
    assert (SP : forall (a : list R) t s k, (0 <= t < 6)%Z -> (0 <= k <= ni)%Z -> side_point ni a t s k = zget a (at3 (ni + 1) (ni + 1) t (fst (spoint ni s k)) (snd (spoint ni s k)))).
    { clear - Hni. intros a t s k Ht Hk. unfold at3. destruct s; cbn [side_point spoint fst snd]; unfold tile_value;
        repeat match goal with |- context [(?a <=? ?b)%Z] => destruct (Z.leb_spec a b); [|lia] | |- context [(?a <? ?b)%Z] => destruct (Z.ltb_spec a b); [|lia] end; reflexivity. }
    assert (HK : (0 <= (if r then ni - k else k) <= ni)%Z) by (destruct r; lia).
    rewrite !SP by auto. auto.
Qed.

(** The corners of the cells in the grid that is written (the even points of the supergrid,
    when no transformation was asked for): longitudes between 0 and 2 pi, latitudes between
    -pi/2 and pi/2, and every tile, its edges included, is where [C83_faces] says, turned to
    the west as a whole; the snapping of small values to zero moves no point by more than
    1e-10. *)
Theorem C83_grid : forall (mid : R * R -> R * R -> R * R) (mid4 : R * R -> R * R -> R * R -> R * R -> R * R)
    ni x y z lam th xc yc s turn shift_fac, (1 <= ni <= 2147483647)%Z ->
  let m := ((ni + 1) * (ni + 1))%Z in
  zlen x = m -> zlen y = m -> zlen z = m -> zlen lam = m -> zlen th = m -> zlen xc = (6 * m)%Z -> zlen yc = (6 * m)%Z ->
  zlen s = (6 * ((2 * ni + 1) * (2 * ni + 1)))%Z ->
  exists xs ys s', cubic_start ni (x, y, z) lam th xc yc = Ok (xs, ys)
    /\ cubic_points (adjust_point turn shift_fac) (fun p => p) mid mid4 ni (combine xs ys) s = Ok s'
    /\ forall t j i, (0 <= t < 6)%Z -> (0 <= j <= ni)%Z -> (0 <= i <= ni)%Z ->
       exists lon lat lon0 lat0 k, tile_value (2 * ni + 1) (2 * ni + 1) s' t (2 * j) (2 * i) = Some (lon, lat)
         /\ 0 <= lon < 2 * PI /\ - (PI / 2) <= lat <= PI / 2
         /\ toward lon0 lat0 (face t (grad ni i) (grad ni j))
         /\ Rabs (lon - (lon0 - west_shift turn shift_fac + 2 * PI * IZR k)) < 1 / 10000000000
         /\ Rabs (lat - lat0) < 1 / 10000000000.
Proof.
  intros mid mid4 ni x y z lam th xc yc s turn shift_fac Hni m L1 L2 L3 L4 L5 L6 L7 L8.
  destruct (start_run ni Hni x y z lam th xc yc L1 L2 L3 L4 L5 L6 L7) as (xs & ys & E & LX & LY & P).
  exists xs, ys. pose proof (consistent ni Hni xs ys LX LY P) as C.
  set (A := adjust_point turn shift_fac). set (a := map A (combine xs ys)).
  assert (La : zlen a = (6 * m)%Z). { unfold a. rewrite zlen_map, zlen_combine, LX, LY. apply Z.min_id. }
  assert (EJ : join_tiles ni a = Ok a).
  { apply join_same; [lia|exact La|]. intros t s0 t' s' r k I Hk p p'. unfold a. rewrite !zget_map, !zget_combine.
    destruct (C t s0 t' s' r k I Hk) as [C1 C2]. fold p p' in C1, C2. now rewrite C1, C2. }
  destruct (tab_of (ni + 1) (ni + 1) a La ltac:(lia) ltac:(lia)) as [F [_ HF]].
  destruct (fill_all mid mid4 ni ltac:(lia) a F ltac:(intros; apply HF; lia) s L8) as (s' & Es & Ls & G).
  exists s'. split; auto. split.
  { unfold cubic_points. fold a. rewrite EJ. cbn [bind]. rewrite map_id. exact Es. }
  intros t j i Ht Hj Hi. destruct (P t j i Ht Hj Hi) as (lon0 & lat0 & G1 & G2 & T & Rg).
  destruct (adjust_spec turn shift_fac lon0 lat0 Rg) as (lon & lat & k & EA & B1 & B2 & _ & D1 & D2).
  exists lon, lat, lon0, lat0, k. split; [|unfold EPSLN10 in *; auto 10].
  assert (T2 : tab (2 * ni + 1) (2 * ni + 1) s' (spt mid mid4 F)) by (split; [congruence|intros; apply G; lia]).
  rewrite (tab_value _ _ _ _ t (2 * j)%Z (2 * i)%Z T2) by lia. rewrite !(Z.mul_comm 2). rewrite spt_ee.
  pose proof (HF t j i Ht ltac:(lia) ltac:(lia)) as HH. unfold a in HH. rewrite zget_map, zget_combine, G1, G2 in HH. cbn [option_map] in HH.
  unfold A in HH. rewrite EA in HH. now injection HH as <-.
Qed.

(** The usage message (make_hgrid.c:215) says that the grid is turned to the west by
    180/shift_fac degrees.  It is turned by 10 degrees, whatever --shift_fac is. *)
Theorem C83_shift_refuted :
  ~ (forall shift_fac lon lat, 1 / 10000 < shift_fac -> - PI < lon <= PI -> - (PI / 2) <= lat <= PI / 2 ->
       exists k, Rabs (fst (adjust_point true shift_fac (lon, lat)) - (lon - PI / shift_fac + 2 * PI * IZR k)) < 1 / 10000000000).
Proof.
  intros H. pose proof PI_RGT_0 as HP. pose proof PI2_1 as HP2.
  destruct (H 9 (PI / 2) 0 ltac:(lra) ltac:(lra) ltac:(lra)) as [k Hk]. clear H.
  destruct (adjust_spec true 9 (PI / 2) 0) as (lon & lat & k' & E & _ & _ & _ & D & _); [unfold in_range; lra|]. rewrite E in Hk. cbn [fst] in Hk.
  unfold west_shift in D. destruct (Rlt_dec (1 / 10000) 9) as [_|]; [|lra]. unfold EPSLN10 in D.
  apply Rabs_def2 in Hk. apply Rabs_def2 in D.
  assert (IN : exists z, IZR z = IZR k' - IZR k) by (exists (k' - k)%Z; apply minus_IZR). destruct IN as [w Hw].
  assert (W : - (1 / 5000000000) < PI / 18 + 2 * PI * IZR w < 1 / 5000000000) by (rewrite Hw; lra).
  destruct (Z.lt_trichotomy w 0) as [L|[->|L]].
  - assert (IZR w <= -1) by (apply IZR_le; lia). nra.
  - lra.
  - assert (1 <= IZR w) by (apply IZR_le; lia). nra.
Qed.

(** A grid of 2 x 2 cells: the middle of the west side of tile 1, at 45 degrees west, and the
    north pole in the middle of tile 3. *)
Example C83_example : exists xs ys,
  cubic_start 2 (repeat 0 9, repeat 0 9, repeat 0 9) (repeat 0 9) (repeat 0 9) (repeat 0 54) (repeat 0 54) = Ok (xs, ys)
  /\ tile_value 3 3 xs 0 1 0 = Some (- (PI / 4)) /\ tile_value 3 3 ys 0 1 0 = Some 0
  /\ tile_value 3 3 ys 2 1 1 = Some (PI / 2).
Proof.
  destruct (C83_faces 2 (repeat 0 9) (repeat 0 9) (repeat 0 9) (repeat 0 9) (repeat 0 9) (repeat 0 54) (repeat 0 54)) as (xs & ys & E & _ & _ & P); try reflexivity; [lia|].
  exists xs, ys. split; auto. pose proof PI_RGT_0 as HP. change (2 + 1)%Z with 3%Z in P.
  destruct (P 0%Z 1%Z 0%Z) as (lon & lat & G1 & G2 & T & R1 & R2); try lia. rewrite G1, G2. cbn [face] in T.
  rewrite grad_0, (grad_mid 2 ltac:(lia) 1) in T by lia.
  destruct (toward_unique lon lat (- (PI / 4)) 0 1 (-1) 0) as [-> ->]; [left; lra|split; auto|unfold in_range; lra|auto| |].
  { exists (sqrt 2). rewrite cos_0, sin_0, cos_neg, sin_neg, cos_PI4, sin_PI4. pose proof s2_pos. repeat split; auto; field; lra. }
  split; auto. split; auto.
  destruct (P 2%Z 1%Z 1%Z) as (lon' & lat' & G1' & G2' & T' & R1' & R2'); try lia. rewrite G2'. f_equal. cbn [face] in T'.
  rewrite (grad_mid 2 ltac:(lia) 1) in T' by lia. destruct T' as (r & Hr & A & B & C).
  assert (CL : cos lat' = 0).
  { pose proof (sin2_cos2 lon') as S. unfold Rsqr in S. assert (A' : cos lat' * cos lon' = 0) by (apply Rmult_eq_reg_l with r; lra).
    assert (B' : cos lat' * sin lon' = 0) by (apply Rmult_eq_reg_l with r; lra).
    replace (cos lat') with (cos lat' * (sin lon' * sin lon' + cos lon' * cos lon')) by (rewrite S; ring).
    replace (cos lat' * (sin lon' * sin lon' + cos lon' * cos lon')) with (cos lat' * sin lon' * sin lon' + cos lat' * cos lon' * cos lon') by ring. rewrite A', B'. ring. }
  assert (S0 : 0 < sin lat') by (apply Rmult_lt_reg_l with r; lra).
  apply sin_inj; [auto|lra|]. rewrite sin_PI2. pose proof (sin2_cos2 lat') as S. unfold Rsqr in S. rewrite CL in S. apply pos_root; lra.
Qed.
