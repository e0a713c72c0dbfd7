(** Proofs for M_Bilinear: distances and weights. *)
From Coq Require Import Reals ZArith List Bool Lia Lra Psatz Nsatz.
From Verif Require Import Base Loops M_Interp P_Longitude M_Matrix P_Matrix P_Gnomonic2 Spec_Gnomonic Spec_Schmidt P_Schmidt Spec_Bilinear M_Bilinear.
Import ListNotations.
Open Scope R_scope.

Lemma acos_range x : 0 <= acos x <= PI. Proof. apply acos_bound. Qed.
Lemma gc_range u v : 0 <= gc_distance u v <= PI.
Proof. unfold gc_distance. destruct u as [[? ?] ?], v as [[? ?] ?]. apply acos_range. Qed.
Lemma angle_range u v w : 0 <= spherical_angle u v w <= PI.
Proof.
  unfold spherical_angle. destruct u as [[? ?] ?], v as [[? ?] ?], w as [[? ?] ?]. pose proof PI_RGT_0.
  destruct (negb _); [lra|]. match goal with |- context [if ?a || ?b then _ else _] => destruct (a || b) end.
  - match goal with |- context [if ?a then PI else 0] => destruct a end; lra.
  - apply acos_range.
Qed.
Lemma dist_nonneg u v p : 0 <= dist2side u v p.
Proof.
  unfold dist2side. pose proof (gc_range u p). pose proof (angle_range u v p).
  pose proof (sin_ge_0 (gc_distance u p) ltac:(lra) ltac:(lra)). pose proof (sin_ge_0 (spherical_angle u v p) ltac:(lra) ltac:(lra)).
  pose proof (sin_bd (gc_distance u p)). pose proof (sin_bd (spherical_angle u v p)).
  set (x := sin (gc_distance u p) * sin (spherical_angle u v p)). assert (0 <= x <= 1) by (unfold x; nra).
  pose proof (asin_bound x). pose proof PI_RGT_0. destruct (Rle_lt_dec 0 (asin x)) as [|L]; auto. exfalso.
  pose proof (sin_lt_0_var (asin x) ltac:(lra) L) as S. rewrite sin_asin in S; lra.
Qed.

(** ** What dist2side measures *)
Lemma lagrange u v : dot (cross u v) (cross u v) = dot u u * dot v v - dot u v * dot u v.
Proof. destruct u as [[? ?] ?], v as [[? ?] ?]. unfold dot, cross. ring. Qed.
Lemma cross_cross u v w : cross (cross u v) (cross u w) = scale (dot (cross u v) w) u.
Proof. destruct u as [[? ?] ?], v as [[? ?] ?], w as [[? ?] ?]. unfold dot, cross, scale. apply v3; ring. Qed.
Lemma dot_nonneg u : 0 <= dot u u. Proof. destruct u as [[? ?] ?]. unfold dot. nra. Qed.
Lemma dot_zero u : dot u u = 0 -> u = (0, 0, 0).
Proof. destruct u as [[x y] z]. unfold dot. intros. apply v3; nra. Qed.

Lemma gc_unit u p : dot u u = 1 -> dot p p = 1 -> gc_distance u p = acos (dot u p) /\ -1 <= dot u p <= 1.
Proof.
  intros Hu Hp. pose proof (dot_nonneg (cross u p)) as L. rewrite lagrange, Hu, Hp in L. assert (C : -1 <= dot u p <= 1) by nra. split; auto.
  destruct u as [[a b] c], p as [[x y] z]. unfold gc_distance. unfold dot in *. rewrite Hu, Hp. rewrite Rmult_1_r, sqrt_1. unfold Rdiv. rewrite Rinv_1, Rmult_1_r.
  set (d := a * x + b * y + c * z) in *. f_equal.
  rewrite (rlt_f 1 (Rabs d)) by (apply Rabs_le; lra). rewrite Rabs_Rabsolu. destruct (rlt_cases d 0) as [[-> H]|[-> H]].
  - rewrite Rabs_left by auto. ring.
  - apply Rabs_pos_eq; auto.
Qed.

Lemma sin_acos2 x : -1 <= x <= 1 -> 0 <= sin (acos x) /\ sin (acos x) * sin (acos x) = 1 - x * x.
Proof. intros H. rewrite sin_acos by auto. split; [apply sqrt_pos|]. rewrite sqrt_sqrt; unfold Rsqr; nra. Qed.

Lemma angle_eq u v p : let P := cross u v in let Q := cross u p in
  spherical_angle u v p =
  let ddd := dot P P * dot Q Q in
  if negb (rlt 0 ddd) then 0 else
  let ddd := dot P Q / sqrt ddd in
  let ddd := if rlt (Rabs (ddd - 1)) EPSLN30 then 1 else ddd in
  let ddd := if rlt (Rabs (ddd + 1)) EPSLN30 then -1 else ddd in
  if rlt 1 ddd || rlt ddd (-1) then (if rlt ddd 0 then PI else 0) else acos ddd.
Proof. destruct u as [[? ?] ?], v as [[? ?] ?], p as [[? ?] ?]. reflexivity. Qed.

Lemma e30 : 0 < EPSLN30 < / 100000000000000 * / 100000000000000 / 10.
Proof. unfold EPSLN30. split; [apply Rinv_0_lt_compat; lra|]. assert (E : 10 ^ 30 = 1000000000000000000000000000000) by ring. rewrite E. lra. Qed.

(** sin of the angle *)
Lemma sin_angle u v p : let P := cross u v in let Q := cross u p in
  let s := sin (spherical_angle u v p) in
  0 < dot P P * dot Q Q ->
  let k := dot P Q / sqrt (dot P P * dot Q Q) in
  -1 <= k <= 1 /\ k * k * (dot P P * dot Q Q) = dot P Q * dot P Q /\ 0 <= s
  /\ (s * s = 1 - k * k \/ (s = 0 /\ 1 - k * k <= 2 * EPSLN30)).
Proof.
  intros P Q s HD k. set (D := dot P P * dot Q Q) in *. pose proof (sqrt_lt_R0 D HD) as Hs. pose proof (sqrt_sqrt D ltac:(lra)) as Es.
  assert (K : k * k * D = dot P Q * dot P Q). { unfold k. rewrite <- Es at 3. field. lra. }
  pose proof (dot_nonneg (cross P Q)) as L. rewrite lagrange in L. fold D in L.
  assert (KK : k * k <= 1) by (apply (Rmult_le_reg_r D); lra). assert (KB : -1 <= k <= 1) by (clear - KK; split; nra).
  split; auto. split; auto. pose proof e30 as [E0 E1]. pose proof (angle_range u v p) as AR. split; [apply sin_ge_0; lra|].
  unfold s. rewrite (angle_eq u v p). cbv zeta. fold P Q. fold D. rewrite (rlt_t 0 D) by auto. cbn [negb]. fold k.
  destruct (rlt_cases (Rabs (k - 1)) EPSLN30) as [[-> H1]|[-> H1]].
  - apply Rabs_def2 in H1. rewrite (rlt_f (Rabs (1 + 1)) EPSLN30) by (rewrite Rabs_pos_eq; lra).
    rewrite (rlt_f 1 1), (rlt_f 1 (-1)) by lra. cbn [orb]. rewrite acos_1, sin_0. right. split; auto. nra.
  - destruct (rlt_cases (Rabs (k + 1)) EPSLN30) as [[-> H2]|[-> H2]].
    + apply Rabs_def2 in H2. rewrite (rlt_f 1 (-1)), (rlt_f (-1) (-1)) by lra. cbn [orb].
      replace (-1) with (- (1)) by ring. rewrite acos_opp, acos_1, Rminus_0_r, sin_PI. right. split; auto. nra.
    + rewrite (rlt_f 1 k), (rlt_f k (-1)) by lra. cbn [orb]. left. apply (sin_acos2 k KB).
Qed.

Lemma sq_eq a b : 0 <= a -> 0 <= b -> a * a = b * b -> a = b.
Proof. intros. nra. Qed.
Lemma sq_le a b : 0 <= a -> 0 <= b -> a * a <= b * b -> a <= b.
Proof. intros. nra. Qed.

Lemma distance_spec u v p : dot u u = 1 -> dot p p = 1 -> cross u v <> (0, 0, 0) ->
  0 <= dist2side u v p <= PI / 2
  /\ Rabs (sin (dist2side u v p) - Rabs (dot (cross u v) p) / norm (cross u v)) <= 1 / 100000000000000.
Proof.
  intros Hu Hp NZ. set (P := cross u v). set (Q := cross u p).
  assert (HP : 0 < dot P P). { pose proof (dot_nonneg P). destruct (Req_dec (dot P P) 0) as [E|]; [|lra]. apply dot_zero in E. contradiction. }
  destruct (gc_unit u p Hu Hp) as [EG CB]. set (c := dot u p) in *. destruct (sin_acos2 c CB) as [G0 G1].
  assert (QQ : dot Q Q = 1 - c * c). { unfold Q. rewrite lagrange, Hu, Hp. fold c. ring. }
  pose proof (angle_range u v p) as AR. pose proof (sin_ge_0 _ (proj1 AR) (proj2 AR)) as A0. pose proof (sin_bd (spherical_angle u v p)) as A1.
  pose proof (sin_bd (acos c)) as G2.
  assert (RX : 0 <= sin (gc_distance u p) * sin (spherical_angle u v p) <= 1) by (rewrite EG; nra).
  assert (ES : sin (dist2side u v p) = sin (acos c) * sin (spherical_angle u v p)). { unfold dist2side. rewrite sin_asin by lra. now rewrite EG. }
  split. { pose proof (dist_nonneg u v p). split; auto. unfold dist2side. apply asin_bound. }
  rewrite ES. set (nP := norm P). assert (NP : 0 < nP) by (apply sqrt_lt_R0; auto). assert (NN : nP * nP = dot P P) by (apply sqrt_sqrt; lra).
  set (dt := dot P p). set (t := Rabs dt / nP). assert (T0 : 0 <= t) by (unfold t; apply Rmult_le_pos; [apply Rabs_pos|left; apply Rinv_0_lt_compat; auto]).
  assert (TT : t * t * dot P P = dt * dt). { unfold t. rewrite <- NN. replace (Rabs dt / nP * (Rabs dt / nP) * (nP * nP)) with (Rabs dt * Rabs dt) by (field; lra). rewrite <- Rabs_mult. apply Rabs_pos_eq. nra. }
  assert (DD : dot P P * dot Q Q - dot P Q * dot P Q = dt * dt). { rewrite <- lagrange. unfold P, Q. rewrite cross_cross. fold P dt. transitivity (dt * dt * dot u u); [destruct u as [[? ?] ?]; unfold dot, scale; ring|rewrite Hu; ring]. }
  set (g := sin (acos c)) in *. set (s := sin (spherical_angle u v p)) in *.
  destruct (Req_dec (dot Q Q) 0) as [Q0|Q0].
  - assert (g = 0) by (assert (g * g = 0) by lra; clear - H; nra). assert (dt * dt = 0). { assert (DQ : dot P Q = 0) by (apply dot_zero in Q0; rewrite Q0; destruct P as [[? ?] ?]; unfold dot; ring). rewrite Q0, DQ in DD. lra. }
    assert (T : t * t = 0) by (apply (Rmult_eq_reg_r (dot P P)); lra). assert (T' : t = 0) by nra. rewrite H, T'. rewrite Rmult_0_l, Rminus_0_r, Rabs_R0. lra.
  - assert (HD : 0 < dot P P * dot Q Q) by (apply Rmult_lt_0_compat; [auto|pose proof (dot_nonneg Q); lra]).
    pose proof (sin_angle u v p HD) as SA. cbv zeta in SA. fold P Q s in SA. set (k := dot P Q / sqrt (dot P P * dot Q Q)) in *.
    destruct SA as (KB & K & S0 & [S|[S S']]).
    + assert (E : (g * s) * (g * s) = t * t). { apply (Rmult_eq_reg_r (dot P P)); [|lra]. rewrite TT, <- DD, <- K.
        replace (g * s * (g * s)) with ((g * g) * (s * s)) by ring. rewrite G1, S, <- QQ. ring. }
      assert (g * s = t) by (apply sq_eq; [apply Rmult_le_pos; auto|auto|auto]). rewrite H. rewrite Rminus_diag_eq by reflexivity. rewrite Rabs_R0. lra.
    + rewrite S, Rmult_0_r. assert (E : t * t <= 2 * EPSLN30). { apply (Rmult_le_reg_r (dot P P)); auto. rewrite TT, <- DD, <- K.
        replace (dot P P * dot Q Q - k * k * (dot P P * dot Q Q)) with ((dot Q Q * (1 - k * k)) * dot P P) by ring.
        apply Rmult_le_compat_r; [lra|]. assert (dot Q Q <= 1) by nra. assert (0 <= 1 - k * k) by nra. nra. }
      pose proof e30 as [E0 E1]. rewrite Rabs_minus_sym, Rminus_0_r, Rabs_pos_eq by auto. apply sq_le; [auto|lra|]. lra.
Qed.

(** ** The point is one of the corners *)
Lemma dist_first v p : dot p p <> 0 -> dist2side p v p = 0.
Proof.
  intros H. unfold dist2side. replace (gc_distance p p) with 0; [rewrite sin_0, Rmult_0_l; apply asin_0|].
  pose proof (dot_nonneg p). destruct p as [[x y] z]. unfold gc_distance. unfold dot in *. set (n := x * x + y * y + z * z) in *.
  rewrite (sqrt_square n) by lra. replace (n / n) with 1 by (field; auto). rewrite Rabs_R1, (rlt_f 1 1), (rlt_f 1 0) by lra. rewrite Rabs_R1. symmetry. apply acos_1.
Qed.
Lemma dist_second v p : dist2side v p p = 0.
Proof.
  unfold dist2side. replace (spherical_angle v p p) with 0; [rewrite sin_0, Rmult_0_r; apply asin_0|].
  rewrite angle_eq. cbv zeta. set (P := cross v p). destruct (rlt_cases 0 (dot P P * dot P P)) as [[-> H]|[-> H]]; cbn [negb]; auto.
  pose proof (dot_nonneg P). rewrite (sqrt_square (dot P P)) by auto. assert (dot P P <> 0) by nra.
  replace (dot P P / dot P P) with 1 by (field; auto). pose proof e30.
  rewrite (rlt_t (Rabs (1 - 1)) EPSLN30) by (rewrite Rminus_diag_eq, Rabs_R0 by reflexivity; lra).
  rewrite (rlt_f (Rabs (1 + 1)) EPSLN30) by (rewrite Rabs_pos_eq; lra). rewrite (rlt_f 1 1), (rlt_f 1 (-1)) by lra. cbn [orb]. symmetry. apply acos_1.
Qed.

(** ** The weights *)
Lemma div_sum_ok sum w ws : div_sum sum w = Ok ws -> sum <> 0 /\ ws = map (fun x => x / sum) w.
Proof. unfold div_sum. destruct (Req_EM_T sum 0); [discriminate|]. now intros [= <-]. Qed.
Lemma bind_ok {A B} (x : outcome A) (f : A -> outcome B) b : bind x f = Ok b -> exists a, x = Ok a /\ f a = Ok b.
Proof. destruct x; cbn; try discriminate. eauto. Qed.
Lemma four m : (0 <= m < 4)%Z -> m = 0%Z \/ m = 1%Z \/ m = 2%Z \/ m = 3%Z. Proof. lia. Qed.

Definition of4 (a b c d : R) (m : Z) : R := match m with 0%Z => a | 1%Z => b | 2%Z => c | _ => d end.
Lemma mean4 a b c d s : 0 <= a -> 0 <= b -> 0 <= c -> 0 <= d -> a + b + c + d = s -> s <> 0 -> mean_weights (of4 (a / s) (b / s) (c / s) (d / s)).
Proof.
  intros A B C D E S. assert (P : 0 < s) by lra. assert (I : 0 < / s) by now apply Rinv_0_lt_compat. split.
  - intros m Hm. destruct (four m Hm) as [->|[->|[->| ->]]]; cbn [of4]; apply Rmult_le_pos; lra.
  - cbn [of4]. rewrite <- E. field. lra.
Qed.

Section W.
  Variables (nx ny ic jc : Z) (g : Z -> outcome vec3) (v0 : vec3).
  Hypothesis (Hx : (0 <= ic <= nx)%Z) (Hy : (0 <= jc <= ny)%Z) (Nx : (1 <= nx)%Z) (Ny : (1 <= ny)%Z).
  Definition weights_ok (ws : list R) (w : Z -> R) : Prop :=
    ws = [w 0%Z; w 1%Z; w 2%Z; w 3%Z] /\ mean_weights w
    /\ (forall m, (0 <= m < 4)%Z -> no_cell nx ny (ic + fst (corner m)) (jc + snd (corner m)) -> (ic, jc) <> (0, 0)%Z -> w m = 0)
    /\ (forall m, (0 <= m < 4)%Z -> ~ no_cell nx ny (ic + fst (corner m)) (jc + snd (corner m)) ->
          g (pos nx (ic + fst (corner m)) (jc + snd (corner m))) = Ok v0 -> dot v0 v0 <> 0 -> w m = 1).

  Lemma weights_spec ws : cell_weights nx ny ic jc g v0 = Ok ws -> exists w, weights_ok ws w.
  Proof.
    unfold cell_weights. set (nxd := (nx + 2)%Z).
    destruct (Z.eqb_spec ic nx) as [E1|E1], (Z.eqb_spec jc ny) as [E2|E2], (Z.eqb_spec ic 0) as [E3|E3], (Z.eqb_spec jc 0) as [E4|E4]; cbn [andb]; try lia; intros H.
    all: repeat match goal with H : bind _ _ = Ok _ |- _ => apply bind_ok in H; let v := fresh "v" in let G := fresh "G" in destruct H as (v & G & H) end.
    all: apply div_sum_ok in H; destruct H as [NZ ->]; cbn [map].
    all: repeat match type of NZ with context [dist2side ?a ?b ?c] => let d := fresh "d" in let D := fresh "D" in
           set (d := dist2side a b c) in *; assert (D : 0 <= d) by apply dist_nonneg end.
    all: match goal with |- exists w, weights_ok [?a; ?b; ?c; ?d] w => exists (of4 a b c d) end.
    all: split; [reflexivity|]; split; [apply mean4; try lra; try (apply Rmult_le_pos; auto); try lra|].
    all: split; intros m Hm; destruct (four m Hm) as [->|[->|[->| ->]]]; unfold no_cell; cbn [corner fst snd of4].
    all: first
      [ solve [intros; unfold Rdiv; ring]
      | solve [intros NC NE; exfalso; try (apply NE; f_equal); lia]
      | solve [intros NC; exfalso; lia]
      | solve [intros NC GQ NZ0;
          match goal with G : g ?e = Ok ?v, GQ : g ?q = Ok v0 |- _ =>
            lazymatch v with v0 => fail | _ => idtac end;
            let E := fresh "E" in assert (E : q = e) by (clear; unfold pos, nxd; ring);
            rewrite E, G in GQ; injection GQ as -> end;
          repeat match goal with d := dist2side _ _ _ |- _ => first
            [ assert (d = 0) by (apply dist_first; auto); clearbody d; subst d
            | assert (d = 0) by apply dist_second; clearbody d; subst d
            | clearbody d ] end;
          match goal with |- ?a / ?s = 1 => let E := fresh "E" in assert (E : s = a) by ring; rewrite E in *; unfold Rdiv; apply Rinv_r; auto end]
      | idtac ].
  Qed.
End W.
