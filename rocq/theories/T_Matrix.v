(** * C55: 3x3 inverse, line and plane, rotation away from the pole.
      C56: longitude/latitude and Cartesian coordinates, rotation of polygons *)
From Coq Require Import Reals Lra Lia.
From Verif Require Import Base Loops Lst M_Interp M_Matrix Spec_Matrix P_Longitude P_Matrix.
Open Scope R_scope.

(** ** C55 *)
(** The inverse is returned exactly when the determinant is at least 1e-15 in size, and it is
    an inverse from both sides. *)
Theorem C55_inverse : forall M,
  (Rabs (volume M) < 1 / 1000000000000000 -> invert_matrix_3x3 (entries M) = Ok None) /\
  (1 / 1000000000000000 <= Rabs (volume M) -> exists I, invert_matrix_3x3 (entries M) = Ok (Some (entries I)) /\ same (mprod I M) ident /\ same (mprod M I) ident).
Proof.
  intros M. rewrite invert_entries. unfold EPSLN15. split; intros H. - rewrite rlt_t by auto. auto.
  - rewrite rlt_f by auto. eexists. split; [reflexivity|].
    assert (N : volume M <> 0) by (intros E; rewrite E, Rabs_R0 in H; lra).
    split; intros i j Hi Hj; apply lt3 in Hi, Hj; destruct Hi as [->|[-> | ->]], Hj as [->|[-> | ->]]; unfold mprod, ident; cbn [Nat.eqb]; unfold volume, row, dot, cross in *; field; auto.
Qed.

(** mult is the product of matrix and vector. *)
Theorem C55_mult : forall M v, mult (entries M) (lst v) = Ok [dot (row M 0) v; dot (row M 1) v; dot (row M 2) v].
Proof. intros M [[x y] z]. reflexivity. Qed.

(** The line through [a] and [b] meets the plane through [p0], [p1], [p2] in one point; the
    routine returns its coordinate on the line and its two coordinates in the plane. *)
Theorem C55_intersect : forall p0 p1 p2 a b,
  let d := Rabs (dot (vminus a b) (cross (vminus p1 p0) (vminus p2 p0))) in
  (d < 1 / 1000000000000000 -> intersect_tri_with_line (lst p0 ++ lst p1 ++ lst p2) (lst a) (lst b) = Ok None) /\
  (1 / 1000000000000000 <= d -> exists t u v, intersect_tri_with_line (lst p0 ++ lst p1 ++ lst p2) (lst a) (lst b) = Ok (Some (t, u, v)) /\
     forall t' u' v', vplus a (vscale t' (vminus b a)) = vplus p0 (vplus (vscale u' (vminus p1 p0)) (vscale v' (vminus p2 p0))) <-> t' = t /\ u' = u /\ v' = v).
Proof.
  intros [[x0 y0] z0] [[x1 y1] z1] [[x2 y2] z2] [[a0 a1] a2] [[b0 b1] b2] d.
  set (M := (fun i j => match i, j with 0%nat, 0%nat => a0 - b0 | 0%nat, 1%nat => x1 - x0 | 0%nat, _ => x2 - x0
    | 1%nat, 0%nat => a1 - b1 | 1%nat, 1%nat => y1 - y0 | 1%nat, _ => y2 - y0 | _, 0%nat => a2 - b2 | _, 1%nat => z1 - z0 | _, _ => z2 - z0 end) : mat3).
  assert (D : dot (vminus (a0, a1, a2) (b0, b1, b2)) (cross (vminus (x1, y1, z1) (x0, y0, z0)) (vminus (x2, y2, z2) (x0, y0, z0))) = volume M) by (cbn; ring).
  unfold d. rewrite D. clear d D.
  assert (E : intersect_tri_with_line (lst (x0, y0, z0) ++ lst (x1, y1, z1) ++ lst (x2, y2, z2)) (lst (a0, a1, a2)) (lst (b0, b1, b2)) =
    do inv <- invert_matrix_3x3 (entries M) ;
    match inv with None => Ok None | Some m => do X <- mult m [a0 - x0; a1 - y0; a2 - z0] ; do t <- oget X 0%Z ; do p0 <- oget X 1%Z ; do p1 <- oget X 2%Z ; Ok (Some (t, p0, p1)) end) by reflexivity.
  rewrite E. clear E. destruct (C55_inverse M) as [C1 C2]. split; intros H.
  - rewrite C1 by auto. reflexivity.
  - destruct (C2 H) as (I & -> & LI & RI). clear C1 C2. cbn [bind]. change [a0 - x0; a1 - y0; a2 - z0] with (lst (a0 - x0, a1 - y0, a2 - z0)). rewrite C55_mult. gets.
    eexists _, _, _. split; [reflexivity|]. intros t' u' v'.
    assert (Q : vplus (a0, a1, a2) (vscale t' (vminus (b0, b1, b2) (a0, a1, a2))) = vplus (x0, y0, z0) (vplus (vscale u' (vminus (x1, y1, z1) (x0, y0, z0))) (vscale v' (vminus (x2, y2, z2) (x0, y0, z0)))) <->
      (a0 - x0 = dot (row M 0) (t', u', v') /\ a1 - y0 = dot (row M 1) (t', u', v') /\ a2 - z0 = dot (row M 2) (t', u', v'))).
    { cbn. split. - intros E. injection E as E1 E2 E3. repeat split; lra. - intros (E1 & E2 & E3). apply f_equal2; [apply f_equal2|]; lra. }
    rewrite Q. clear Q. set (X := a0 - x0). set (Y := a1 - y0). set (Z0 := a2 - z0). clearbody X Y Z0. clear H.
    assert (L : forall i j, (i < 3)%nat -> (j < 3)%nat -> I i 0%nat * M 0%nat j + I i 1%nat * M 1%nat j + I i 2%nat * M 2%nat j = ident i j) by exact LI.
    assert (RR : forall i j, (i < 3)%nat -> (j < 3)%nat -> M i 0%nat * I 0%nat j + M i 1%nat * I 1%nat j + M i 2%nat * I 2%nat j = ident i j) by exact RI.
    clearbody M. clear LI RI. unfold row, dot. split.
    + intros (-> & -> & ->). repeat split;
      match goal with |- ?l = I ?i 0%nat * _ + _ + _ =>
        pose proof (L i 0%nat ltac:(lia) ltac:(lia)) as L0; pose proof (L i 1%nat ltac:(lia) ltac:(lia)) as L1; pose proof (L i 2%nat ltac:(lia) ltac:(lia)) as L2;
        unfold ident in L0, L1, L2; cbn [Nat.eqb] in L0, L1, L2;
        transitivity ((I i 0%nat * M 0%nat 0%nat + I i 1%nat * M 1%nat 0%nat + I i 2%nat * M 2%nat 0%nat) * t' + (I i 0%nat * M 0%nat 1%nat + I i 1%nat * M 1%nat 1%nat + I i 2%nat * M 2%nat 1%nat) * u' + (I i 0%nat * M 0%nat 2%nat + I i 1%nat * M 1%nat 2%nat + I i 2%nat * M 2%nat 2%nat) * v'); [rewrite L0, L1, L2; ring|ring] end.
    + intros (-> & -> & ->). repeat split;
      match goal with |- ?l = M ?i 0%nat * _ + _ + _ =>
        pose proof (RR i 0%nat ltac:(lia) ltac:(lia)) as L0; pose proof (RR i 1%nat ltac:(lia) ltac:(lia)) as L1; pose proof (RR i 2%nat ltac:(lia) ltac:(lia)) as L2;
        unfold ident in L0, L1, L2; cbn [Nat.eqb] in L0, L1, L2;
        transitivity ((M i 0%nat * I 0%nat 0%nat + M i 1%nat * I 1%nat 0%nat + M i 2%nat * I 2%nat 0%nat) * X + (M i 0%nat * I 0%nat 1%nat + M i 1%nat * I 1%nat 1%nat + M i 2%nat * I 2%nat 1%nat) * Y + (M i 0%nat * I 0%nat 2%nat + M i 1%nat * I 1%nat 2%nat + M i 2%nat * I 2%nat 2%nat) * Z0); [rewrite L0, L1, L2; ring|ring] end.
Qed.
(** The threshold is absolute: a line that crosses a small triangle at a right angle, through
    its corner, is reported as parallel to it. *)
Theorem C55_small_refuted : exists p0 p1 p2 a b t u v,
  vplus a (vscale t (vminus b a)) = vplus p0 (vplus (vscale u (vminus p1 p0)) (vscale v (vminus p2 p0))) /\ 0 <= t <= 1 /\ 0 <= u /\ 0 <= v /\ u + v <= 1 /\
  dot (vminus b a) (vminus p1 p0) = 0 /\ dot (vminus b a) (vminus p2 p0) = 0 /\ vminus b a <> (0, 0, 0) /\
  intersect_tri_with_line (lst p0 ++ lst p1 ++ lst p2) (lst a) (lst b) = Ok None.
Proof.
  set (e := 1 / 1000000). exists (0, 0, 0), (e, 0, 0), (0, e, 0), (0, 0, - e), (0, 0, e), (1 / 2), 0, 0.
  split; [unfold e; cbn; apply f_equal2; [apply f_equal2|]; lra|]. repeat split; try lra; try (cbn; lra).
  - cbn. intros E. apply (f_equal snd) in E. cbn in E. unfold e in E. lra.
  - apply C55_intersect. cbn. replace ((0 - 0) * ((0 - 0) * (0 - 0) - (0 - 0) * (e - 0)) + (0 - 0) * ((0 - 0) * (0 - 0) - (e - 0) * (0 - 0)) + (- e - e) * ((e - 0) * (e - 0) - (0 - 0) * (0 - 0))) with (- (2 * (e * e * e))) by ring.
    rewrite Rabs_Ropp, Rabs_right; unfold e; lra.
Qed.

(** rotate_point is a rotation: lengths, angles and orientation are kept; the axis is (0,1,1). *)
Theorem C55_rotation : exists rot : vec3 -> vec3,
  (forall v, rotate_point (lst v) the_rotation_matrix = Ok (lst (rot v))) /\
  (forall a b, dot (rot a) (rot b) = dot a b) /\
  (forall a b, norm (vminus (rot a) (rot b)) = norm (vminus a b)) /\
  (forall a b, cross (rot a) (rot b) = rot (cross a b)) /\
  (forall k, rot (0, k, k) = (0, k, k)) /\
  (forall v, dot v (0, 1, 1) = 0 -> dot (rot v) v = 0).
Proof.
  pose proof sqrt_half as S. set (s := sqrt (1 / 2)) in *.
  exists (fun '(x, y, z) => (- s * y + s * z, s * x + 1 / 2 * y + 1 / 2 * z, - s * x + 1 / 2 * y + 1 / 2 * z)).
  assert (D : forall x y z x' y' z', (- s * y + s * z) * (- s * y' + s * z') + (s * x + 1 / 2 * y + 1 / 2 * z) * (s * x' + 1 / 2 * y' + 1 / 2 * z') + (- s * x + 1 / 2 * y + 1 / 2 * z) * (- s * x' + 1 / 2 * y' + 1 / 2 * z') = x * x' + y * y' + z * z').
  { intros. transitivity ((s * s) * (y - z) * (y' - z') + 2 * (s * s) * x * x' + 1 / 2 * (y + z) * (y' + z')); [field|]. rewrite S. field. }
  split; [|split; [|split; [|split; [|split]]]].
  - intros [[x y] z]. apply rotate_eq.
  - intros [[x y] z] [[x' y'] z']. apply D.
  - intros [[x y] z] [[x' y'] z']. unfold norm. f_equal. cbn. rewrite <- (D (x - x') (y - y') (z - z') (x - x') (y - y') (z - z')). field.
  - intros [[x y] z] [[x' y'] z']. cbn. apply f_equal2; [apply f_equal2|].
    + transitivity (s * (x * (y' + z') - x' * (y + z))); field.
    + transitivity (s * (y' * z - y * z') * (-1) + (s * s) * (- x' * y + x' * z + x * y' - x * z')); [|rewrite S; field].
      transitivity ((1 / 2 * y' + 1 / 2 * z') * (- s * y + s * z) * (-1) + (1 / 2 * y + 1 / 2 * z) * (- s * y' + s * z') + (s * s) * (- x' * y + x' * z + x * y' - x * z') + 0); [field|].
      transitivity (s * (y * z' - y' * z) + (s * s) * (- x' * y + x' * z + x * y' - x * z')); field.
    + transitivity (s * (- y) * z' + s * z * y' + (s * s) * (- y * x' + z * x' + y' * x - z' * x)); [field|]. rewrite S. field.
  - intros k. apply f_equal2; [apply f_equal2|]; field.
  - intros [[x y] z] H. cbn in *. assert (z = - y) by lra. subst z. ring.
Qed.

(** ** C56 *)
Lemma firstn_succ {A} (l : list A) i v : zget l i = Some v -> firstn (Z.to_nat (i + 1)) l = firstn (Z.to_nat i) l ++ [v].
Proof.
  unfold zget. destruct (Z.ltb_spec i 0); [discriminate|]. intros E. replace (Z.to_nat (i + 1)) with (S (Z.to_nat i)) by lia. revert E. generalize (Z.to_nat i). clear. intros n. revert l.
  induction n as [|n IH]; intros [|a l]; cbn; try discriminate; intros E; [congruence|]. f_equal. now apply IH.
Qed.

(** Every vector other than zero has a longitude in [0, 2 pi) and a latitude in
    [-pi/2, pi/2]; they give back its direction, unless it is within 1e-10 of the polar axis,
    when the longitude is 0 and the latitude still is right. *)
Theorem C56_from_xyz : forall v, v <> (0, 0, 0) -> exists lon lat, xyz2latlon (lst v) = Ok (lon, lat) /\
  0 <= lon < 2 * PI /\ - (PI / 2) <= lat <= PI / 2 /\
  let '(x, y, z) := v in z = norm v * sin lat /\
  (1 / 10000000000 * norm v <= Rabs x + Rabs y -> v = vscale (norm v) (sphere lon lat)) /\
  (Rabs x + Rabs y < 1 / 10000000000 * norm v -> lon = 0).
Proof.
  intros [[x y] z] H. apply dot_pos in H. destruct (xyz_spec x y z H) as (lon & lat & E & A & B & C & D & F). exists lon, lat. split; auto. split; auto. split; auto. cbv zeta in *.
  change (norm (x, y, z)) with (sqrt (x * x + y * y + z * z)). split; auto. split; auto. intros G. destruct (D G) as [D1 D2]. cbn. apply f_equal2; [apply f_equal2|]; auto.
Qed.

Lemma on_sphere lon lat : dot (sphere lon lat) (sphere lon lat) = 1.
Proof. cbn. pose proof (sin2_cos2 lon) as E. pose proof (sin2_cos2 lat) as E'. unfold Rsqr in *. transitivity (cos lat * cos lat * (sin lon * sin lon + cos lon * cos lon) + sin lat * sin lat); [ring|]. rewrite E. lra. Qed.

(** There and back: the same longitude and latitude, unless the point is within 1e-10 of a
    pole. *)
Theorem C56_round_trip : forall lon lat, 0 <= lon < 2 * PI -> - (PI / 2) <= lat <= PI / 2 ->
  1 / 10000000000 <= cos lat * (Rabs (cos lon) + Rabs (sin lon)) -> xyz2latlon (latlon2xyz lon lat) = Ok (lon, lat).
Proof.
  intros lon lat Hl Ha H. assert (Hc : 0 <= cos lat) by (apply cos_ge_0; lra). pose proof (on_sphere lon lat) as N. cbn in N.
  destruct (xyz_spec (cos lat * cos lon) (cos lat * sin lon) (sin lat)) as (lo & la & E & A & B & C & D & _); [lra|]. cbv zeta in *. rewrite N, sqrt_1 in C, D.
  unfold latlon2xyz. rewrite E. assert (la = lat). { rewrite <- (asin_sin lat), <- (asin_sin la) by auto. f_equal. lra. } subst la.
  destruct D as [D1 D2]. { rewrite !Rabs_mult, (Rabs_right (cos lat)) by lra. unfold EPSLN10. lra. }
  assert (0 < cos lat). { destruct Hc as [Hc|Hc]; auto. rewrite <- Hc in H. lra. }
  assert (lo = lon). { apply angle_unique; auto; apply Rmult_eq_reg_l with (cos lat); lra. } subst. auto.
Qed.

(** The vectors to the east and to the north are a right-handed frame with the point. *)
Theorem C56_frame : forall lon lat, exists e n, unit_vect_latlon lon lat = (lst e, lst n) /\
  dot e e = 1 /\ dot n n = 1 /\ dot e n = 0 /\ dot e (sphere lon lat) = 0 /\ dot n (sphere lon lat) = 0 /\ cross e n = sphere lon lat.
Proof.
  intros lon lat. exists (- sin lon, cos lon, 0), (- sin lat * cos lon, - sin lat * sin lon, cos lat). split; auto.
  pose proof (sin2_cos2 lon) as E. pose proof (sin2_cos2 lat) as E'. unfold Rsqr in *. cbn. repeat split; try nra.
  - transitivity (- sin lat * cos lat * (sin lon * sin lon + cos lon * cos lon) + cos lat * sin lat); [ring|]. rewrite E. lra.
  - unfold sphere. apply f_equal2; [apply f_equal2|]; try ring. transitivity (sin lat * (sin lon * sin lon + cos lon * cos lon)); [ring|]. rewrite E. lra.
Qed.

(** rotate_poly moves all vertices by one rotation: great circle distances between vertices
    and the orientation of triples are kept, as long as no vertex lands within 1e-10 of a pole;
    [pre] is the point that lands on the north pole. *)
Theorem C56_rotate_poly : forall P : list (R * R),
  (forall p, In p P -> 1 / 10000000000 <= norm (cross (sphere (fst p) (snd p)) pre)) ->
  exists Q, rotate_poly P = Ok Q /\ length Q = length P /\
    forall i j p q p' q', nth_error P i = Some p -> nth_error P j = Some q -> nth_error Q i = Some p' -> nth_error Q j = Some q' ->
      dot (sphere (fst p') (snd p')) (sphere (fst q') (snd q')) = dot (sphere (fst p) (snd p)) (sphere (fst q) (snd q)) /\
      forall k r r', nth_error P k = Some r -> nth_error Q k = Some r' ->
        dot (sphere (fst p') (snd p')) (cross (sphere (fst q') (snd q')) (sphere (fst r') (snd r'))) = dot (sphere (fst p) (snd p)) (cross (sphere (fst q) (snd q)) (sphere (fst r) (snd r))).
Proof.
  intros P HP. destruct C55_rotation as (rot & R1 & R2 & _ & R4 & R5 & _).
  assert (K : forall p, In p P -> exists q, (do rv <- rotate_point (latlon2xyz (fst p) (snd p)) the_rotation_matrix ; do sv <- xyz2latlon rv ; Ok sv) = Ok q /\ sphere (fst q) (snd q) = rot (sphere (fst p) (snd p))).
  { intros p Hp. specialize (HP p Hp). change (latlon2xyz (fst p) (snd p)) with (lst (sphere (fst p) (snd p))). rewrite R1. cbn [bind].
    pose proof (on_sphere (fst p) (snd p)) as N. rewrite <- R2 in N.
    assert (PR : lst (rot pre) = [0; 0; 1]).
    { assert (E : rotate_point (lst pre) the_rotation_matrix = Ok (lst (rot pre))) by auto. change (lst pre) with [- sqrt (1 / 2); 1 / 2; 1 / 2] in E. rewrite rotate_eq in E. injection E as <-. pose proof sqrt_half as S. cbv zeta. apply f_equal2; [lra|]. apply f_equal2; [lra|]. apply f_equal2; [lra|]. auto. }
    assert (PR' : rot pre = (0, 0, 1)) by (destruct (rot pre) as [[? ?] ?]; cbn in PR; congruence).
    assert (NC : norm (cross (sphere (fst p) (snd p)) pre) = norm (cross (rot (sphere (fst p) (snd p))) (0, 0, 1))). { unfold norm. rewrite <- PR', R4, R2. auto. }
    rewrite NC in HP. destruct (rot (sphere (fst p) (snd p))) as [[x y] z] eqn:Er. unfold norm in HP. cbn in HP, N.
    replace ((y * 1 - z * 0) * (y * 1 - z * 0) + (z * 0 - x * 1) * (z * 0 - x * 1) + (x * 0 - y * 0) * (x * 0 - y * 0)) with (x * x + y * y) in HP by ring.
    destruct (xyz_spec x y z) as (lon & lat & E & A & B & C & D & _); [lra|]. cbv zeta in *. rewrite N, sqrt_1 in C, D.
    change (lst (x, y, z)) with [x; y; z]. rewrite E. cbn [bind]. eexists. split; [reflexivity|]. cbn [fst snd].
    destruct D as [D1 D2]. { unfold EPSLN10. assert (S : sqrt (x * x + y * y) <= Rabs x + Rabs y); [|lra]. apply Rsqr_incr_0_var; [|pose proof (Rabs_pos x); pose proof (Rabs_pos y); lra]. unfold Rsqr. rewrite sqrt_sqrt by nra.
      pose proof (Rabs_pos x). pose proof (Rabs_pos y). assert (x * x = Rabs x * Rabs x) by (rewrite <- Rabs_mult; rewrite Rabs_right; nra). assert (y * y = Rabs y * Rabs y) by (rewrite <- Rabs_mult; rewrite Rabs_right; nra). nra. }
    unfold sphere. apply f_equal2; [apply f_equal2|]; lra. }
  assert (L : exists Q, rotate_poly P = Ok Q /\ Forall2 (fun p q => sphere (fst q) (snd q) = rot (sphere (fst p) (snd p))) P Q).
  { unfold rotate_poly. destruct (ofor_inv (fun i Q => Forall2 (fun p q => sphere (fst q) (snd q) = rot (sphere (fst p) (snd p))) (firstn (Z.to_nat i) P) Q)
      (fun out i => do p <- oget P i ; do rv <- rotate_point (latlon2xyz (fst p) (snd p)) the_rotation_matrix ; do sv <- xyz2latlon rv ; Ok (out ++ [sv])) 0%Z (zlen P) []) as (Q & E & F).
    - apply zlen_nonneg.
    - constructor.
    - intros i Q Hi F. destruct (zget_in_range P i) as (p & Ep); [lia|]. destruct (K p) as (q & Eq & Hq); [eapply zget_In; eauto|].
      rewrite (proj2 (oget_Ok _ _ _) Ep). cbn [bind]. destruct (rotate_point (latlon2xyz (fst p) (snd p)) the_rotation_matrix) as [rv| |]; cbn [bind] in *; try discriminate.
      destruct (xyz2latlon rv) as [sv| |]; cbn [bind] in *; try discriminate. injection Eq as ->. eexists. split; [reflexivity|].
      rewrite (firstn_succ _ _ _ Ep). apply Forall2_app; auto.
    - exists Q. split; auto. replace (firstn (Z.to_nat (0 + zlen P)) P) with P in F; auto. symmetry. apply firstn_all2. unfold zlen. lia. }
  destruct L as (Q & E & F). exists Q. split; auto. split; [clear - F; induction F; cbn; congruence|].
  assert (W : forall i p q, nth_error P i = Some p -> nth_error Q i = Some q -> sphere (fst q) (snd q) = rot (sphere (fst p) (snd p))).
  { clear - F. induction F; intros [|i] p q; cbn; try discriminate; intros E1 E2; [congruence|eauto]. }
  intros i j p q p' q' Hp Hq Hp' Hq'. rewrite (W i p p'), (W j q q') by auto. split; auto. intros k r r' Hr Hr'. rewrite (W k r r') by auto. rewrite R4. auto.
Qed.

(** A vertex near a pole is moved away from the poles: the rotation does what it is for. *)
Theorem C56_away : forall lon lat p', Rabs (cos lat) <= 1 / 4 -> rotate_poly [(lon, lat)] = Ok [p'] -> Rabs (sin (snd p')) <= 3 / 4.
Proof.
  intros lon lat p' H E. unfold rotate_poly in E. change (zlen [(lon, lat)]) with 1%Z in E. unfold ofor in E. change (zseq 0 1) with [0%Z] in E. cbn [ofold] in E. change (oget [(lon, lat)] 0) with (Ok (lon, lat)) in E. cbn [bind fst snd app] in E.
  unfold latlon2xyz in E. rewrite rotate_eq in E. cbv zeta in E. cbn [bind] in E. pose proof sqrt_half as S. set (s := sqrt (1 / 2)) in *. assert (0 <= s) by apply sqrt_pos.
  set (x := cos lat * cos lon) in *. set (y := cos lat * sin lon) in *. set (z := sin lat) in *.
  assert (N : x * x + y * y + z * z = 1) by exact (on_sphere lon lat).
  assert (N' : (- s * y + s * z) * (- s * y + s * z) + (s * x + 1 / 2 * y + 1 / 2 * z) * (s * x + 1 / 2 * y + 1 / 2 * z) + (- s * x + 1 / 2 * y + 1 / 2 * z) * (- s * x + 1 / 2 * y + 1 / 2 * z) = 1).
  { transitivity (x * x + y * y + z * z); [|exact N]. transitivity ((s * s) * (y - z) * (y - z) + 2 * (s * s) * x * x + 1 / 2 * (y + z) * (y + z)); [field|]. rewrite S. field. }
  destruct (xyz_spec (- s * y + s * z) (s * x + 1 / 2 * y + 1 / 2 * z) (- s * x + 1 / 2 * y + 1 / 2 * z)) as (lo & la & E1 & _ & _ & C & _); [lra|].
  rewrite E1 in E. cbn [bind] in E. injection E as <-. cbn [snd]. cbv zeta in C. rewrite N', sqrt_1, Rmult_1_l in C. rewrite <- C.
  assert (XY : x * x + y * y <= 1 / 16).
  { assert (x * x + y * y = cos lat * cos lat). { pose proof (sin2_cos2 lon) as Q. unfold Rsqr in Q. unfold x, y. transitivity (cos lat * cos lat * (sin lon * sin lon + cos lon * cos lon)); [ring|]. rewrite Q. ring. }
    rewrite H1. assert (cos lat * cos lat = Rabs (cos lat) * Rabs (cos lat)) by (rewrite <- Rabs_mult, Rabs_right; nra). pose proof (Rabs_pos (cos lat)). nra. }
  assert (Hz : -1 <= z <= 1) by nra.
  assert (B : (- s * x + 1 / 2 * y) * (- s * x + 1 / 2 * y) <= 3 / 64). { assert (0 <= (1 / 2 * x + s * y) * (1 / 2 * x + s * y)) by apply Rle_0_sqr.
    assert ((- s * x + 1 / 2 * y) * (- s * x + 1 / 2 * y) + (1 / 2 * x + s * y) * (1 / 2 * x + s * y) = 3 / 4 * (x * x + y * y)); [|lra].
    transitivity ((s * s + 1 / 4) * (x * x + y * y)); [field|rewrite S; field]. }
  assert (-1 / 4 <= - s * x + 1 / 2 * y <= 1 / 4) by nra. apply Rabs_le. lra.
Qed.

(** ** Examples *)
Example C55_example : exists I, invert_matrix_3x3 [2; 0; 0; 0; 1; 1; 0; 0; 1] = Ok (Some I) /\ I = [1 / 2; 0; 0; 0; 1; -1; 0; 0; 1].
Proof.
  eexists. split; [|reflexivity]. unfold invert_matrix_3x3. gets. rewrite rlt_f.
  - f_equal. f_equal. repeat (apply f_equal2; [field|]). reflexivity.
  - unfold EPSLN15. rewrite Rabs_right; lra.
Qed.
Example C56_example : xyz2latlon (latlon2xyz (3 * (PI / 2)) (- (PI / 6))) = Ok (3 * (PI / 2), - (PI / 6)) /\
  exists q, rotate_poly [(0, PI / 2)] = Ok [q] /\ sin (snd q) = 1 / 2.
Proof.
  pose proof PI_RGT_0. split.
  - apply C56_round_trip; try lra. rewrite cos_neg, cos_PI6, cos_3PI2, sin_3PI2, Rabs_R0. replace (Rabs (-1)) with 1 by (rewrite Rabs_left; lra). assert (1 <= sqrt 3); [|lra]. rewrite <- sqrt_1 at 1. apply sqrt_le_1; lra.
  - destruct (C56_rotate_poly [(0, PI / 2)]) as (Q & E & L & D).
    + intros p [<-|[]]. unfold norm, pre. cbn. rewrite cos_PI2, sin_PI2, sin_0, cos_0. pose proof sqrt_half as S. set (s := sqrt (1 / 2)) in *.
      replace ((0 * 0 * (1 / 2) - 1 * (1 / 2)) * (0 * 0 * (1 / 2) - 1 * (1 / 2)) + (1 * - s - 0 * 1 * (1 / 2)) * (1 * - s - 0 * 1 * (1 / 2)) + (0 * 1 * (1 / 2) - 0 * 0 * - s) * (0 * 1 * (1 / 2) - 0 * 0 * - s)) with (1 / 4 + s * s) by field.
      rewrite S. assert (1 / 10000000000 = sqrt (1 / 10000000000 * (1 / 10000000000))) as -> by (symmetry; apply sqrt_square; lra). apply sqrt_le_1; lra.
    + destruct Q as [|q [|]]; try discriminate. exists q. split; auto.
      unfold rotate_poly in E. change (zlen [(0, PI / 2)]) with 1%Z in E. unfold ofor in E. change (zseq 0 1) with [0%Z] in E. cbn [ofold] in E. change (oget [(0, PI / 2)] 0) with (Ok (0, PI / 2)) in E. cbn [bind fst snd app] in E.
      unfold latlon2xyz in E. rewrite rotate_eq in E. cbv zeta in E. cbn [bind] in E. rewrite cos_PI2, sin_PI2 in E. rewrite !Rmult_0_l, !Rmult_0_r, !Rmult_1_r, !Rplus_0_l in E. pose proof sqrt_half as S. set (s := sqrt (1 / 2)) in *.
      destruct (xyz_spec s (1 / 2) (1 / 2)) as (lo & la & E1 & _ & _ & C & _); [lra|]. rewrite E1 in E. cbn [bind] in E. injection E as <-. cbv zeta in C. replace (s * s + 1 / 2 * (1 / 2) + 1 / 2 * (1 / 2)) with 1 in C by lra. rewrite sqrt_1 in C. cbn. lra.
Qed.

Print Assumptions C55_inverse.
Print Assumptions C55_mult.
Print Assumptions C55_intersect.
Print Assumptions C55_small_refuted.
Print Assumptions C55_rotation.
Print Assumptions C56_from_xyz.
Print Assumptions C56_round_trip.
Print Assumptions C56_frame.
Print Assumptions C56_rotate_poly.
Print Assumptions C56_away.
