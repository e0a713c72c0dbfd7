(** Proofs about nested grids. *)
From Coq Require Import Reals ZArith List Bool Lia Lra Psatz.
From Verif Require Import Base Loops M_Interp M_Matrix P_Matrix P_Longitude P_Gnomonic2 P_Schmidt P_Bilinear P_Bilinear2 Spec_Gnomonic Spec_Schmidt Spec_Nest M_Nest.
Import ListNotations.
Open Scope R_scope.

Lemma Rdiv_1 x : x / 1 = x. Proof. field. Qed.
Lemma sum3 a b c : a * a + b * b + c * c = 0 -> a = 0 /\ b = 0 /\ c = 0.
Proof.
  intros H. pose proof (Rle_0_sqr a) as A. pose proof (Rle_0_sqr b) as B. pose proof (Rle_0_sqr c) as C. unfold Rsqr in *.
  repeat split; apply Rsqr_0_uniq; unfold Rsqr; lra.
Qed.
Lemma unit_one p : dot (at_ p) (at_ p) = 1.
Proof. unfold at_, unit, dot. pose proof (sin2_cos2 (fst p)). pose proof (sin2_cos2 (snd p)). unfold Rsqr in *. nra. Qed.

Lemma dot_le u v : dot u u = 1 -> dot v v = 1 -> -1 <= dot u v <= 1.
Proof.
  destruct u as [[a b] c], v as [[a' b'] c']. unfold dot. intros U V.
  pose proof (Rle_0_sqr (a - a')). pose proof (Rle_0_sqr (b - b')). pose proof (Rle_0_sqr (c - c')).
  pose proof (Rle_0_sqr (a + a')). pose proof (Rle_0_sqr (b + b')). pose proof (Rle_0_sqr (c + c')). unfold Rsqr in *. nra.
Qed.

Lemma close_dec p q : (rlt (Rabs (fst p - fst q)) EPSLN8 && rlt (Rabs (snd p - snd q)) EPSLN8 = true /\ close p q)
  \/ (rlt (Rabs (fst p - fst q)) EPSLN8 && rlt (Rabs (snd p - snd q)) EPSLN8 = false /\ ~ close p q).
Proof.
  unfold close, EPSLN8.
  destruct (rlt_cases (Rabs (fst p - fst q)) (1 / 100000000)) as [[-> H]|[-> H]]; [|right; split; [reflexivity|lra]].
  destruct (rlt_cases (Rabs (snd p - snd q)) (1 / 100000000)) as [[-> K]|[-> K]]; [left; auto|right; split; [reflexivity|lra]].
Qed.

(** The combination of the two vectors. *)
Lemma lerp_divides beta u v w0 w1 w2 : 0 <= beta <= 1 -> dot u u = 1 -> dot v v = 1 -> let om := acos (dot u v) in sin om <> 0 ->
  (let '(a0, a1, a2) := u in let '(b0, b1, b2) := v in
   w0 = (sin (beta * om) * b0 + sin ((1 - beta) * om) * a0) / sin om /\ w1 = (sin (beta * om) * b1 + sin ((1 - beta) * om) * a1) / sin om
   /\ w2 = (sin (beta * om) * b2 + sin ((1 - beta) * om) * a2) / sin om) ->
  divides beta u v (w0, w1, w2).
Proof.
  intros Hb U V om S W. assert (C : cos om = dot u v) by (apply cos_acos, dot_le; auto).
  pose proof (acos_bound (dot u v)) as OB. fold om in OB.
  assert (WU : dot u (w0, w1, w2) = (sin (beta * om) * dot u v + sin ((1 - beta) * om) * dot u u) / sin om).
  { destruct u as [[a0 a1] a2], v as [[b0 b1] b2]. destruct W as (-> & -> & ->). unfold dot. field. auto. }
  assert (WV : dot (w0, w1, w2) v = (sin (beta * om) * dot v v + sin ((1 - beta) * om) * dot u v) / sin om).
  { destruct u as [[a0 a1] a2], v as [[b0 b1] b2]. destruct W as (-> & -> & ->). unfold dot. field. auto. }
  assert (WW : dot (w0, w1, w2) (w0, w1, w2) = (sin (beta * om) * dot (w0, w1, w2) v + sin ((1 - beta) * om) * dot u (w0, w1, w2)) / sin om).
  { destruct u as [[a0 a1] a2], v as [[b0 b1] b2]. destruct W as (-> & -> & ->). unfold dot. field. auto. }
  rewrite U, <- C in WU. rewrite V, <- C in WV.
  assert (E1 : dot u (w0, w1, w2) = cos (beta * om)).
  { rewrite WU. replace ((1 - beta) * om) with (om - beta * om) by ring. rewrite sin_minus. field. auto. }
  assert (E2 : dot (w0, w1, w2) v = cos ((1 - beta) * om)).
  { rewrite WV. replace (beta * om) with (om - (1 - beta) * om) by ring. rewrite sin_minus. field. auto. }
  assert (E3 : dot (w0, w1, w2) (w0, w1, w2) = 1).
  { rewrite WW, E1, E2. replace (sin (beta * om) * cos ((1 - beta) * om) + sin ((1 - beta) * om) * cos (beta * om)) with (sin (beta * om + (1 - beta) * om)) by (rewrite sin_plus; ring). replace (beta * om + (1 - beta) * om) with om by ring. field. auto. }
  split; auto. unfold angle. fold om. rewrite E1, E2. split; apply acos_cos; nra.
Qed.

Lemma slerp_ok beta p q p' : 0 <= beta <= 1 -> slerp beta p q = Ok p' -> between beta p q p'.
Proof.
  intros Hb H. unfold slerp in H. destruct (close_dec p q) as [[E Cl]|[E Cl]]; rewrite E in H; clear E; [left; injection H as <-; auto|]. right. split; auto.
  assert (U := unit_one p). assert (V := unit_one q). unfold latlon2xyz in H.
  change (cos (snd p) * cos (fst p) * (cos (snd p) * cos (fst p)) + cos (snd p) * sin (fst p) * (cos (snd p) * sin (fst p)) + sin (snd p) * sin (snd p)) with (dot (at_ p) (at_ p)) in H.
  change (cos (snd q) * cos (fst q) * (cos (snd q) * cos (fst q)) + cos (snd q) * sin (fst q) * (cos (snd q) * sin (fst q)) + sin (snd q) * sin (snd q)) with (dot (at_ q) (at_ q)) in H.
  rewrite U, V, sqrt_1 in H. cbv zeta in H. rewrite !Rdiv_1 in H.
  change (cos (snd p) * cos (fst p) * (cos (snd q) * cos (fst q)) + cos (snd p) * sin (fst p) * (cos (snd q) * sin (fst q)) + sin (snd p) * sin (snd q)) with (dot (at_ p) (at_ q)) in H.
  set (om := acos (dot (at_ p) (at_ q))) in *.
  destruct (rlt (Rabs om) EPSLN5); [discriminate|]. destruct (Req_EM_T (sin om) 0) as [|S]; [discriminate|].
  match type of H with xyz2latlon [?a; ?b; ?c] = _ => set (w0 := a) in *; set (w1 := b) in *; set (w2 := c) in * end.
  assert (D : divides beta (at_ p) (at_ q) (w0, w1, w2)) by (apply lerp_divides; auto; unfold at_ at 1 2, unit; auto).
  exists (w0, w1, w2). split; auto. destruct D as (W & _). unfold dot in W.
  destruct (xyz_spec w0 w1 w2 ltac:(lra)) as (lon & lat & E & L1 & L2 & L3 & L4 & L5). rewrite E in H. injection H as <-.
  rewrite W, sqrt_1, ?Rmult_1_l, ?Rmult_1_r in *. unfold located. cbn [fst snd]. split; auto. split; auto. split; [lra|].
  unfold EPSLN10 in *. destruct (Rlt_dec (Rabs w0 + Rabs w1) (1 / 10000000000)) as [Q|Q]; [right; auto|].
  left. destruct L4 as [-> ->]; [lra|]. rewrite L3. unfold at_, unit. cbn [fst snd]. reflexivity.
Qed.

Lemma slerp_turn beta p q p' : 0 <= beta <= 1 -> 0 <= fst p <= 2 * PI -> slerp beta p q = Ok p' -> 0 <= fst p' <= 2 * PI.
Proof. intros Hb Hp H. destruct (slerp_ok _ _ _ _ Hb H) as [(_ & ->)|(_ & w & _ & (L & _))]; auto. lra. Qed.

(** When it is defined. *)
Lemma slerp_defined beta p q : 0 <= beta <= 1 -> (~ close p q -> 1 / 100000 <= angle (at_ p) (at_ q) < PI) -> exists p', slerp beta p q = Ok p'.
Proof.
  intros Hb A. unfold slerp. destruct (close_dec p q) as [[E Cl]|[E Cl]]; rewrite E; clear E; [eauto|]. specialize (A Cl).
  assert (U := unit_one p). assert (V := unit_one q). unfold latlon2xyz.
  change (cos (snd p) * cos (fst p) * (cos (snd p) * cos (fst p)) + cos (snd p) * sin (fst p) * (cos (snd p) * sin (fst p)) + sin (snd p) * sin (snd p)) with (dot (at_ p) (at_ p)).
  change (cos (snd q) * cos (fst q) * (cos (snd q) * cos (fst q)) + cos (snd q) * sin (fst q) * (cos (snd q) * sin (fst q)) + sin (snd q) * sin (snd q)) with (dot (at_ q) (at_ q)).
  rewrite U, V, sqrt_1. cbv zeta. rewrite !Rdiv_1.
  change (cos (snd p) * cos (fst p) * (cos (snd q) * cos (fst q)) + cos (snd p) * sin (fst p) * (cos (snd q) * sin (fst q)) + sin (snd p) * sin (snd q)) with (dot (at_ p) (at_ q)).
  unfold angle in A. set (om := acos (dot (at_ p) (at_ q))) in *.
  rewrite rlt_f by (unfold EPSLN5; rewrite Rabs_pos_eq; lra).
  assert (S : sin om <> 0) by (pose proof (sin_gt_0 om ltac:(lra) ltac:(lra)); lra).
  destruct (Req_EM_T (sin om) 0) as [|_]; [contradiction|].
  match goal with |- context [xyz2latlon [?a; ?b; ?c]] => set (w0 := a) in *; set (w1 := b) in *; set (w2 := c) in * end.
  assert (D : divides beta (at_ p) (at_ q) (w0, w1, w2)) by (apply lerp_divides; auto; unfold at_ at 1 2, unit; auto).
  destruct D as (W & _). unfold dot in W. destruct (xyz_spec w0 w1 w2 ltac:(lra)) as (lon & lat & E & _). eauto.
Qed.

(** The point that divides an arc is unique. *)
Lemma divides_unique beta u v w w' : dot u u = 1 -> dot v v = 1 -> 0 < angle u v < PI -> divides beta u v w -> divides beta u v w' -> w = w'.
Proof.
  intros U V A (W & A1 & A2) (W' & A1' & A2'). unfold angle in *. set (om := acos (dot u v)) in *.
  assert (C : cos om = dot u v) by (apply cos_acos, dot_le; auto). assert (S := sin_gt_0 om ltac:(lra) ltac:(lra)).
  assert (E1 : dot u w = cos (beta * om)) by (rewrite <- A1, cos_acos; auto using dot_le). assert (E1' : dot u w' = cos (beta * om)) by (rewrite <- A1', cos_acos; auto using dot_le).
  assert (E2 : dot w v = cos ((1 - beta) * om)) by (rewrite <- A2, cos_acos; auto using dot_le). assert (E2' : dot w' v = cos ((1 - beta) * om)) by (rewrite <- A2', cos_acos; auto using dot_le).
  pose proof (sin2_cos2 om) as SC. pose proof (sin2_cos2 (beta * om)) as SB. unfold Rsqr in SC, SB.
  assert (K : forall w, dot w w = 1 -> dot u w = cos (beta * om) -> dot w v = cos ((1 - beta) * om) ->
    w = let '(a0, a1, a2) := u in let '(b0, b1, b2) := v in
        (cos (beta * om) * a0 + sin (beta * om) * ((b0 - cos om * a0) / sin om), cos (beta * om) * a1 + sin (beta * om) * ((b1 - cos om * a1) / sin om), cos (beta * om) * a2 + sin (beta * om) * ((b2 - cos om * a2) / sin om))).
  { clear w w' W W' A1 A1' A2 A2' E1 E1' E2 E2'. intros w W E1 E2.
    replace ((1 - beta) * om) with (om - beta * om) in E2 by ring. rewrite cos_minus in E2.
    destruct u as [[a0 a1] a2], v as [[b0 b1] b2], w as [[x y] z]. unfold dot in *.
    set (cb := cos (beta * om)) in *. set (sb := sin (beta * om)) in *. set (c := cos om) in *. set (s := sin om) in *. clearbody cb sb c s om.
    set (e0 := (b0 - c * a0) / s). set (e1 := (b1 - c * a1) / s). set (e2 := (b2 - c * a2) / s).
    assert (B0 : b0 = c * a0 + s * e0) by (unfold e0; field; lra). assert (B1 : b1 = c * a1 + s * e1) by (unfold e1; field; lra). assert (B2 : b2 = c * a2 + s * e2) by (unfold e2; field; lra).
    clearbody e0 e1 e2. subst b0 b1 b2.
    assert (UE : a0 * e0 + a1 * e1 + a2 * e2 = 0) .
    { apply (Rmult_eq_reg_l s); [|lra].
      replace (s * (a0 * e0 + a1 * e1 + a2 * e2)) with (a0 * (c * a0 + s * e0) + a1 * (c * a1 + s * e1) + a2 * (c * a2 + s * e2) - c * (a0 * a0 + a1 * a1 + a2 * a2)) by ring. rewrite <- C, U. ring. }
    assert (EE : e0 * e0 + e1 * e1 + e2 * e2 = 1).
    { apply (Rmult_eq_reg_l (s * s)); [|apply Rgt_not_eq; apply Rmult_lt_0_compat; lra].
      replace (s * s * (e0 * e0 + e1 * e1 + e2 * e2)) with ((c * a0 + s * e0) * (c * a0 + s * e0) + (c * a1 + s * e1) * (c * a1 + s * e1) + (c * a2 + s * e2) * (c * a2 + s * e2)
        - c * c * (a0 * a0 + a1 * a1 + a2 * a2) - 2 * c * s * (a0 * e0 + a1 * e1 + a2 * e2)) by ring. rewrite V, U, UE. lra. }
    assert (WE : x * e0 + y * e1 + z * e2 = sb).
    { apply (Rmult_eq_reg_l s); [|lra].
      replace (s * (x * e0 + y * e1 + z * e2)) with (x * (c * a0 + s * e0) + y * (c * a1 + s * e1) + z * (c * a2 + s * e2) - c * (a0 * x + a1 * y + a2 * z)) by ring. rewrite E2, E1. ring. }
    assert (Q : (x - (cb * a0 + sb * e0)) * (x - (cb * a0 + sb * e0)) + (y - (cb * a1 + sb * e1)) * (y - (cb * a1 + sb * e1)) + (z - (cb * a2 + sb * e2)) * (z - (cb * a2 + sb * e2)) = 0).
    { match goal with |- ?l = 0 => replace l with ((x * x + y * y + z * z) - 2 * cb * (a0 * x + a1 * y + a2 * z) - 2 * sb * (x * e0 + y * e1 + z * e2)
        + cb * cb * (a0 * a0 + a1 * a1 + a2 * a2) + sb * sb * (e0 * e0 + e1 * e1 + e2 * e2) + 2 * cb * sb * (a0 * e0 + a1 * e1 + a2 * e2)) by ring end.
      rewrite W, E1, WE, U, EE, UE. lra. }
    replace ((c * a0 + s * e0 - c * a0) / s) with e0 by (field; lra). replace ((c * a1 + s * e1 - c * a1) / s) with e1 by (field; lra). replace ((c * a2 + s * e2 - c * a2) / s) with e2 by (field; lra).
    apply sum3 in Q as (Z0 & Z1 & Z2).
    f_equal; [f_equal|]; lra. }
  rewrite (K w W E1 E2), (K w' W' E1' E2'). reflexivity.
Qed.

(** ** The loops *)
Definition line_pt (f : Z -> Z -> R * R) (r jj c : Z) : outcome (R * R) :=
  if (jj mod r =? 0)%Z then Ok (f (jj / r)%Z c) else slerp (IZR (jj mod r) / IZR r) (f (jj / r)%Z c) (f (jj / r + 1)%Z c).
Definition fine_pt (f : Z -> Z -> R * R) (r jj ii : Z) : outcome (R * R) :=
  if (ii mod r =? 0)%Z then line_pt f r jj (ii / r) else
  do q1 <- line_pt f r jj (ii / r) ; do q2 <- line_pt f r jj (ii / r + 1) ; slerp (IZR (ii mod r) / IZR r) q1 q2.
Definition wrap (t : R * R) : R * R :=
  let x := fst t in let x := if rlt (2 * PI) x then x - 2 * PI else x in ((if rlt x 0 then x + 2 * PI else x), snd t).

Lemma frac a r : (1 <= r)%Z -> 0 <= IZR (a mod r) / IZR r <= 1.
Proof.
  intros H. pose proof (Z.mod_pos_bound a r ltac:(lia)) as B. assert (0 < IZR r) by (apply IZR_lt; lia).
  assert (0 <= IZR (a mod r) <= IZR r) by (split; apply IZR_le; lia).
  split; [apply Rmult_le_pos; [lra|]; left; apply Rinv_0_lt_compat; auto|]. apply (Rmult_le_reg_r (IZR r)); auto. unfold Rdiv. rewrite Rmult_assoc, Rinv_l by lra. lra.
Qed.

Lemma line_ok f r jj c q : (1 <= r)%Z -> line_pt f r jj c = Ok q -> on_line f r jj c q.
Proof. intros Hr. unfold line_pt, on_line. destruct (jj mod r =? 0)%Z; [intros [= <-]; auto|]. apply slerp_ok, frac; auto. Qed.
Lemma fine_ok f r jj ii p : (1 <= r)%Z -> fine_pt f r jj ii = Ok p -> refined f r jj ii p.
Proof.
  intros Hr. unfold fine_pt, refined. destruct (ii mod r =? 0)%Z; [apply line_ok; auto|]. intros H. bind_inv H.
  exists v, v0. split; [apply line_ok; auto|]. split; [apply line_ok; auto|]. apply slerp_ok; auto. apply frac; auto.
Qed.
Lemma fine_turn f r jj ii p nj ni : (1 <= r)%Z -> in_turn nj ni f -> (0 <= jj / r <= nj)%Z -> (0 <= ii / r <= ni)%Z -> fine_pt f r jj ii = Ok p -> 0 <= fst p <= 2 * PI.
Proof.
  intros Hr T Hj Hi. assert (L : forall q, line_pt f r jj (ii / r) = Ok q -> 0 <= fst q <= 2 * PI).
  { intros q. unfold line_pt. destruct (jj mod r =? 0)%Z; [intros [= <-]; apply T; auto|]. apply slerp_turn; [apply frac; auto|apply T; auto]. }
  unfold fine_pt. destruct (ii mod r =? 0)%Z; [apply L|]. intros H. bind_inv H. refine (slerp_turn _ _ _ _ _ _ H); [apply frac; auto|apply L; auto].
Qed.
Lemma wrap_id t : 0 <= fst t <= 2 * PI -> wrap t = t.
Proof. intros H. unfold wrap. rewrite (rlt_f (2 * PI)) by lra. rewrite rlt_f by lra. destruct t; auto. Qed.

Lemma index_in j npi i mi mj gr : (j <= mj)%Z -> (i <= mi)%Z -> index_an_gr j npi i mi mj gr = Ok (j * npi + i)%Z.
Proof. intros Hj Hi. unfold index_an_gr. rewrite (proj2 (Z.ltb_ge mj j)), (proj2 (Z.ltb_ge mi i)) by auto. reflexivity. Qed.

Lemma shift_div s j r : (1 <= r)%Z -> (((s - 1) * r + j) / r = s - 1 + j / r)%Z /\ (((s - 1) * r + j) mod r = j mod r)%Z.
Proof. intros H. rewrite Z.div_add_l by lia. split; auto. rewrite Z.add_comm, Z.mod_add by lia. auto. Qed.

Section Point.
  Context (get : Z -> outcome (R * R)) (f : Z -> Z -> R * R) (pni pnj r is ie js je : Z) (gr : bool).
  Context (Hr : (1 <= r)%Z) (His : (1 <= is)%Z) (Hjs : (1 <= js)%Z) (Hie : (ie <= pni)%Z) (Hje : (je <= pnj)%Z).
  Context (G : forall j i, (0 <= j <= pnj)%Z -> (0 <= i <= pni)%Z -> get (j * (pni + 1) + i)%Z = Ok (f j i)).

  Lemma np_ok j i p : (0 <= j <= (je - js + 1) * r)%Z -> (0 <= i <= (ie - is + 1) * r)%Z ->
    nest_point get pni pnj r is js gr j i = Ok p ->
    exists t, fine_pt f r ((js - 1) * r + j) ((is - 1) * r + i) = Ok t /\ p = wrap t.
  Proof using Hr His Hjs Hie Hje G.
    intros Hj Hi H. unfold nest_point in H. cbv zeta in H. unfold fine_pt, line_pt.
    destruct (shift_div js j r Hr) as [-> ->]. destruct (shift_div is i r Hr) as [-> ->].
    set (jc := (js - 1 + j / r)%Z) in *. set (ic := (is - 1 + i / r)%Z) in *.
    assert (Ij : (0 <= j / r <= je - js + 1)%Z) by (split; [apply Z.div_pos; lia|apply Z.div_le_upper_bound; lia]).
    assert (Ii : (0 <= i / r <= ie - is + 1)%Z) by (split; [apply Z.div_pos; lia|apply Z.div_le_upper_bound; lia]).
    assert (Mj : (j mod r <> 0 -> j / r < je - js + 1)%Z). { intros N. pose proof (Z.div_mod j r ltac:(lia)). pose proof (Z.mod_pos_bound j r ltac:(lia)). nia. }
    assert (Mi : (i mod r <> 0 -> i / r < ie - is + 1)%Z). { intros N. pose proof (Z.div_mod i r ltac:(lia)). pose proof (Z.mod_pos_bound i r ltac:(lia)). nia. }
    apply bind_ok in H as ([q1 q2] & Q & H).
    assert (K : line_pt f r ((js - 1) * r + j) ic = Ok q1 /\ ((i mod r)%Z <> 0%Z -> line_pt f r ((js - 1) * r + j) (ic + 1) = Ok q2)).
    { unfold line_pt. destruct (shift_div js j r Hr) as [-> ->]. fold jc.
      destruct (Z.eqb_spec (j mod r) 0) as [E|N].
      - rewrite (index_in jc _ ic) in Q by lia. cbn [bind] in Q. bind_inv Q. injection Q as <- <-.
        rewrite G in G1 by lia. split; auto. intros N. rewrite (index_in jc _ (ic + 1)) in G0 by lia. injection G0 as <-. rewrite G in G2 by lia. auto.
      - specialize (Mj N). rewrite (index_in jc _ ic), (index_in (jc + 1) _ ic) in Q by lia. cbn [bind] in Q. bind_inv Q. injection Q as <- <-.
        rewrite G in G2, G3 by lia. injection G2 as <-. injection G3 as <-. split; auto. intros N'.
        rewrite (index_in jc _ (ic + 1)) in G0 by lia. rewrite (index_in (jc + 1) _ (ic + 1)) in G1 by lia. injection G0 as <-. injection G1 as <-.
        rewrite G in G5, G6 by lia. injection G5 as <-. injection G6 as <-. auto. }
    destruct K as [K1 K2]. unfold line_pt in K1, K2. destruct (shift_div js j r Hr) as [Ed Em]. rewrite Ed, Em in K1, K2. fold jc in K1, K2.
    apply bind_ok in H as (t & T & H). exists t. injection H as <-. split; [|reflexivity].
    destruct (Z.eqb_spec (i mod r) 0) as [E|N]; [injection T as <-; exact K1|]. rewrite K1, (K2 N). exact T.
  Qed.

  (** Defined, if the arcs are. *)
  Lemma np_defined j i : (0 <= j <= (je - js + 1) * r)%Z -> (0 <= i <= (ie - is + 1) * r)%Z -> (gr = true \/ ie < pni)%Z ->
    (forall c, (0 <= c <= pni)%Z -> exists q, line_pt f r ((js - 1) * r + j) c = Ok q) ->
    (exists t, fine_pt f r ((js - 1) * r + j) ((is - 1) * r + i) = Ok t) ->
    exists p, nest_point get pni pnj r is js gr j i = Ok p.
  Proof using Hr His Hjs Hie Hje G.
    intros Hj Hi Hg HL (t & T). unfold nest_point. cbv zeta. unfold fine_pt, line_pt in HL, T.
    destruct (shift_div js j r Hr) as [Ed Em]. destruct (shift_div is i r Hr) as [Ed' Em']. unfold line_pt in T. rewrite Ed, Em, Ed', Em' in T. rewrite Ed, Em in HL.
    set (jc := (js - 1 + j / r)%Z) in *. set (ic := (is - 1 + i / r)%Z) in *.
    assert (Ij : (0 <= j / r <= je - js + 1)%Z) by (split; [apply Z.div_pos; lia|apply Z.div_le_upper_bound; lia]).
    assert (Ii : (0 <= i / r <= ie - is + 1)%Z) by (split; [apply Z.div_pos; lia|apply Z.div_le_upper_bound; lia]).
    assert (Mj : (j mod r <> 0 -> j / r < je - js + 1)%Z). { intros N. pose proof (Z.div_mod j r ltac:(lia)). pose proof (Z.mod_pos_bound j r ltac:(lia)). nia. }
    assert (Mi : (i mod r <> 0 -> i / r < ie - is + 1)%Z). { intros N. pose proof (Z.div_mod i r ltac:(lia)). pose proof (Z.mod_pos_bound i r ltac:(lia)). nia. }
    assert (C : exists c, (0 <= c <= pni)%Z /\ ((i mod r)%Z <> 0%Z -> c = (ic + 1)%Z) /\ forall j, (j <= pnj)%Z -> index_an_gr j (pni + 1) (ic + 1) pni pnj gr = Ok (j * (pni + 1) + c)%Z).
    { destruct (Z_le_gt_dec (ic + 1) pni) as [L|L].
      - exists (ic + 1)%Z. split; [lia|]. split; auto. intros j0 H0. apply index_in; lia.
      - exists pni. split; [lia|]. split; [intros N; specialize (Mi N); lia|]. destruct Hg as [->|]; [|lia]. intros j0 H0. unfold index_an_gr.
        rewrite (proj2 (Z.ltb_ge pnj j0)) by lia. cbn [bind]. rewrite (proj2 (Z.ltb_lt pni (ic + 1))) by lia. reflexivity. }
    destruct C as (c & Hc & Ec & IC).
    destruct (HL ic ltac:(lia)) as (q1 & Q1). destruct (HL c Hc) as (q2 & Q2).
    assert (K : (if (j mod r =? 0)%Z then
        do idx <- index_an_gr jc (pni + 1) ic pni pnj gr ; do idx_pi <- index_an_gr jc (pni + 1) (ic + 1) pni pnj gr ; do q1 <- get idx ; do q2 <- get idx_pi ; Ok (q1, q2)
      else do idx <- index_an_gr jc (pni + 1) ic pni pnj gr ; do idx_pi <- index_an_gr jc (pni + 1) (ic + 1) pni pnj gr ;
        do idx_pj <- index_an_gr (jc + 1) (pni + 1) ic pni pnj gr ; do idx_pjpi <- index_an_gr (jc + 1) (pni + 1) (ic + 1) pni pnj gr ;
        do t1 <- get idx ; do t2 <- get idx_pj ; do q1 <- slerp (IZR (j mod r) / IZR r) t1 t2 ;
        do t1 <- get idx_pi ; do t2 <- get idx_pjpi ; do q2 <- slerp (IZR (j mod r) / IZR r) t1 t2 ; Ok (q1, q2)) = Ok (q1, q2)).
    { destruct (Z.eqb_spec (j mod r) 0) as [E|N].
      - injection Q1 as <-. injection Q2 as <-. rewrite (index_in jc _ ic) by lia. rewrite IC by lia. cbn [bind]. rewrite !G by lia. reflexivity.
      - specialize (Mj N). rewrite (index_in jc _ ic), (index_in (jc + 1) _ ic) by lia. rewrite !IC by lia. cbn [bind]. rewrite !G by lia. cbn [bind]. rewrite Q1. cbn [bind]. rewrite Q2. reflexivity. }
    rewrite K. cbn [bind]. clear K.
    destruct (Z.eqb_spec (i mod r) 0) as [E|N]; [cbn [bind]; eauto|]. rewrite <- (Ec N), Q1, Q2 in T. cbn [bind] in T. rewrite T. cbn [bind]. eauto.
  Qed.
End Point.

Definition source (other : option (list R * list R)) (xy : list R * list R) : list R * list R := match other with Some p => p | None => xy end.
(** Same lengths, same values outside [o, o + n). *)
Definition only (xy xy' : list R * list R) (o n : Z) : Prop :=
  zlen (fst xy') = zlen (fst xy) /\ zlen (snd xy') = zlen (snd xy)
  /\ forall k, ~ (o <= k < o + n)%Z -> zget (fst xy') k = zget (fst xy) k /\ zget (snd xy') k = zget (snd xy) k.

Lemma get_tile xy po ni nj f j i : is_tile xy po ni nj f -> (0 <= j <= nj)%Z -> (0 <= i <= ni)%Z -> pair_at xy (po + (j * (ni + 1) + i)) = Ok (f j i).
Proof. intros T Hj Hi. destruct (T j i Hj Hi) as [A B]. unfold pair_at. rewrite (oget_some _ _ _ A), (oget_some _ _ _ B). cbn [bind]. destruct (f j i); auto. Qed.

Lemma only_tile xy xy' o n po ni nj f : only xy xy' o n -> (0 <= ni)%Z -> (0 <= nj)%Z -> (po + (nj + 1) * (ni + 1) <= o \/ o + n <= po)%Z -> is_tile xy po ni nj f -> is_tile xy' po ni nj f.
Proof.
  intros (_ & _ & K) Hi Hj D T j i Hj' Hi'. destruct (K (po + (j * (ni + 1) + i))%Z ltac:(nia)) as [A B]. unfold stored. rewrite A, B. apply T; auto.
Qed.

Section Setup.
  Context (pni pnj : Z) (other : option (list R * list R)) (po halo r is ie js je : Z) (xy : list R * list R) (o : Z) (gr : bool) (f : Z -> Z -> R * R).
  Let npi := ((ie - is + 1) * r + 1)%Z. Let npj := ((je - js + 1) * r + 1)%Z.
  Context (Hr : (1 <= r)%Z) (Hh : (0 <= halo)%Z) (Hi : (is <= ie + 1)%Z) (Hj : (js <= je + 1)%Z).
  Context (HT : is_tile (source other xy) po pni pnj f) (Hpi : (0 <= pni)%Z) (Hpj : (0 <= pnj)%Z).
  Context (HD : other = None -> (po + (pnj + 1) * (pni + 1) <= o \/ o + npj * npi <= po)%Z).

  Let body (xy : list R * list R) (j i : Z) : outcome (list R * list R) :=
    do '(x, y) <- nest_point (fun n => pair_at (source other xy) (po + n)) pni pnj r is js gr j i ;
    do xc <- oset (fst xy) (o + (j * npi + i)) x ; do yc <- oset (snd xy) (o + (j * npi + i)) y ; Ok (xc, yc).

  Lemma setup_flat : setup_aligned_nest pni pnj other po halo r is ie js je xy o gr =
    if ((js - halo <? 1) || (is - halo <? 1) || (pnj <? je + halo) || (pni <? ie + halo))%Z then Err 4 else
    ofor 0 (npj * npi) (fun xy n => body xy (n / npi) (n mod npi)) xy.
  Proof using Hr Hi Hj.
    unfold setup_aligned_nest. destruct (_ || _); auto. rewrite (proj2 (Z.eqb_neq r 0)) by lia. fold npi npj.
    rewrite <- (ofor_nest npj npi body) by (unfold npi, npj; nia). reflexivity.
  Qed.

  Lemma tile_kept xy1 : only xy xy1 o (npj * npi) -> is_tile (source other xy1) po pni pnj f.
  Proof using HT Hpi Hpj HD.
    clear body. intros O. destruct other as [p|]; [exact HT|]. apply (only_tile xy xy1 o (npj * npi) po pni pnj f O Hpi Hpj); [apply HD; auto|exact HT].
  Qed.

  Lemma setup_ok xy' : setup_aligned_nest pni pnj other po halo r is ie js je xy o gr = Ok xy' ->
    (1 <= is - halo)%Z /\ (1 <= js - halo)%Z /\ (ie + halo <= pni)%Z /\ (je + halo <= pnj)%Z /\ only xy xy' o (npj * npi)
    /\ forall j i, (0 <= j < npj)%Z -> (0 <= i < npi)%Z -> exists t, fine_pt f r ((js - 1) * r + j) ((is - 1) * r + i) = Ok t /\ stored xy' o (npi - 1) j i (wrap t).
  Proof using Hr Hh Hi Hj HT Hpi Hpj HD.
    rewrite setup_flat. destruct (_ || _) eqn:EC; [discriminate|]. apply orb_false_iff in EC as [EC E4]. apply orb_false_iff in EC as [EC E3]. apply orb_false_iff in EC as [E1 E2].
    apply Z.ltb_ge in E1, E2, E3, E4. intros H. repeat (split; [assumption|]).
    assert (Np : (0 < npi)%Z) by (unfold npi; nia). assert (Nq : (0 < npj)%Z) by (unfold npj; nia).
    assert (K : only xy xy' o (npj * npi) /\ forall n, (0 <= n < npj * npi)%Z -> exists t, fine_pt f r ((js - 1) * r + n / npi) ((is - 1) * r + n mod npi) = Ok t
      /\ zget (fst xy') (o + n) = Some (fst (wrap t)) /\ zget (snd xy') (o + n) = Some (snd (wrap t))).
    { refine (ofor_ok_inv (fun k s => only xy s o (npj * npi) /\ forall n, (0 <= n < k)%Z -> exists t, fine_pt f r ((js - 1) * r + n / npi) ((is - 1) * r + n mod npi) = Ok t
        /\ zget (fst s) (o + n) = Some (fst (wrap t)) /\ zget (snd s) (o + n) = Some (snd (wrap t))) (npj * npi) _ xy xy' ltac:(nia) H _ _).
      - split; [repeat split; auto|intros; lia].
      - intros k s s1 Hk [O D] B. unfold body in B. apply bind_ok in B as ([x y] & NP & B). bind_inv B. injection B as <-. cbn [fst snd].
        destruct (divmod_range npj npi k ltac:(lia) Hk) as (_ & Kj & Ki & Ek).
        destruct (np_ok (fun n => pair_at (source other s) (po + n)) f pni pnj r is ie js je gr Hr ltac:(lia) ltac:(lia) ltac:(lia) ltac:(lia)
          (fun j i Hj Hi => get_tile _ _ _ _ _ j i (tile_kept s O) Hj Hi) (k / npi) (k mod npi) (x, y) ltac:(unfold npj in Kj; lia) ltac:(unfold npi in Ki; lia) NP) as (t & FT & ET).
        rewrite <- Ek in G, G0. apply oset_Ok in G. apply oset_Ok in G0.
        destruct O as (L1 & L2 & O). split; [split; [|split]|].
        + rewrite <- L1. eapply zset_len; eauto. + rewrite <- L2. eapply zset_len; eauto.
        + intros m Hm. rewrite <- (proj1 (O m Hm)), <- (proj2 (O m Hm)). split; eapply zget_zset_ne; eauto; lia.
        + intros n Hn. destruct (Z.eq_dec n k) as [->|Ne].
          * exists t. split; auto. rewrite <- ET. split; eapply zget_zset_eq; eauto.
          * destruct (D n ltac:(lia)) as (t' & F' & A' & B'). exists t'. split; auto. rewrite <- A', <- B'. split; eapply zget_zset_ne; eauto; lia. }
    destruct K as [O K]. split; auto. intros j i Hj' Hi'. destruct (K (j * npi + i)%Z ltac:(nia)) as (t & FT & A & B).
    rewrite rowmajor_div, rowmajor_mod in FT by lia. exists t. split; auto. unfold stored. replace (npi - 1 + 1)%Z with npi by lia. auto.
  Qed.

  Lemma setup_defined : (1 <= is - halo)%Z -> (1 <= js - halo)%Z -> (ie + halo <= pni)%Z -> (je + halo <= pnj)%Z -> (gr = true \/ 0 < halo)%Z ->
    (0 <= o)%Z -> (o + npj * npi <= zlen (fst xy))%Z -> (o + npj * npi <= zlen (snd xy))%Z ->
    (forall j c, (0 <= j < npj)%Z -> (0 <= c <= pni)%Z -> exists q, line_pt f r ((js - 1) * r + j) c = Ok q) ->
    (forall j i, (0 <= j < npj)%Z -> (0 <= i < npi)%Z -> exists t, fine_pt f r ((js - 1) * r + j) ((is - 1) * r + i) = Ok t) ->
    exists xy', setup_aligned_nest pni pnj other po halo r is ie js je xy o gr = Ok xy'.
  Proof using Hr Hh Hi Hj HT Hpi Hpj HD.
    intros A1 A2 A3 A4 Hg. rewrite setup_flat.
    assert (C : ((js - halo <? 1) || (is - halo <? 1) || (pnj <? je + halo) || (pni <? ie + halo))%Z = false).
    { rewrite (proj2 (Z.ltb_ge (js - halo) 1)), (proj2 (Z.ltb_ge (is - halo) 1)), (proj2 (Z.ltb_ge pnj (je + halo))), (proj2 (Z.ltb_ge pni (ie + halo))) by assumption. reflexivity. }
    rewrite C. clear C.
    assert (Np : (0 < npi)%Z) by (unfold npi; nia). assert (Nq : (0 < npj)%Z) by (unfold npj; nia). assert (Nm : (0 <= npj * npi)%Z) by (apply Z.mul_nonneg_nonneg; lia).
    assert (B1 : (1 <= is)%Z) by lia. assert (B2 : (1 <= js)%Z) by lia. assert (B3 : (ie <= pni)%Z) by lia. assert (B4 : (je <= pnj)%Z) by lia.
    assert (B5 : (gr = true \/ ie < pni)%Z) by (destruct Hg; [left; auto|right; lia]).
    assert (Ex : forall i, (0 <= i < npi)%Z -> (0 <= i <= (ie - is + 1) * r)%Z) by (intros; unfold npi in *; lia).
    assert (Ey : forall i, (0 <= i < npj)%Z -> (0 <= i <= (je - js + 1) * r)%Z) by (intros; unfold npj in *; lia).
    intros Ho Lx Ly HL HF.
    pose proof (fun s (O : only xy s o (npj * npi)) => np_defined (fun n => pair_at (source other s) (po + n)) f pni pnj r is ie js je gr Hr B1 B2 B3 B4
        (fun j i Hj Hi => get_tile _ _ _ _ _ j i (tile_kept s O) Hj Hi)) as ND.
    pose proof (fun k => divmod_range npj npi k (Z.lt_le_incl _ _ Np)) as DM.
    remember (npj * npi)%Z as N eqn:EN.
    destruct (ofor_inv (fun _ s => only xy s o N) (fun xy n => body xy (n / npi) (n mod npi)) 0 N xy) as (s & E & _).
    - exact Nm. - repeat split; auto.
    - intros k s Hk O. destruct (DM k Hk) as (_ & Kj & Ki & Ek). unfold body.
      destruct (ND s O (k / npi)%Z (k mod npi)%Z (Ey _ Kj) (Ex _ Ki) B5) as ([x y] & ->).
      { intros c Hc. apply HL; auto. } { apply HF; auto. }
      clear ND DM HL HF Ex Ey HD HT EN.
      cbn [bind]. rewrite <- Ek. destruct O as (L1 & L2 & O).
      destruct (oset_run (fst s) (o + k) x) as (a & -> & La & Ga & Na); [lia|]. cbn [bind]. destruct (oset_run (snd s) (o + k) y) as (b & -> & Lb & Gb & Nb); [lia|]. cbn [bind].
      eexists. split; [reflexivity|]. split; [cbn; lia|]. split; [cbn; lia|]. intros m Hm. cbn [fst snd]. rewrite Na, Nb by lia. auto.
    - eauto.
  Qed.
End Setup.

(** ** Sides of a refined tile *)
Lemma slerp_sym beta p q : ~ close p q -> slerp (1 - beta) q p = slerp beta p q.
Proof.
  intros N. unfold slerp. destruct (close_dec p q) as [[_ C]|[E _]]; [contradiction|]. rewrite E; clear E.
  destruct (close_dec q p) as [[_ C]|[E _]]; [exfalso; apply N; unfold close in *; rewrite (Rabs_minus_sym (fst p)), (Rabs_minus_sym (snd p)); auto|]. rewrite E; clear E.
  unfold latlon2xyz. cbv zeta.
  match goal with |- (if rlt (Rabs (acos ?a)) _ then _ else _) = (if rlt (Rabs (acos ?b)) _ then _ else _) => assert (E : a = b) by ring; rewrite E; clear E; set (om := acos b) end.
  destruct (rlt (Rabs om) EPSLN5); auto. destruct (Req_EM_T (sin om) 0); auto.
  replace (1 - (1 - beta)) with beta by ring. f_equal. f_equal; [|f_equal; [|f_equal]]; f_equal; ring.
Qed.

Definition edge_pt (e : Z -> R * R) (r k : Z) : outcome (R * R) :=
  if (k mod r =? 0)%Z then Ok (e (k / r)%Z) else slerp (IZR (k mod r) / IZR r) (e (k / r)%Z) (e (k / r + 1)%Z).

Lemma side_edge f n r s k : (1 <= r)%Z -> (match s with West => fine_pt f r k 0 | East => fine_pt f r k (n * r) | South => fine_pt f r 0 k | North => fine_pt f r (n * r) k end)
  = edge_pt (on_side n s f) r k.
Proof.
  intros Hr. destruct s; unfold fine_pt, line_pt, edge_pt, on_side; rewrite ?Z.mod_mul, ?Z.div_mul, ?Z.mod_0_l, ?Z.div_0_l by lia; cbn; auto.
Qed.

Lemma edge_rev e n r k : (1 <= r)%Z -> (0 <= k <= n * r)%Z -> (forall m, (0 <= m < n)%Z -> ~ close (e m) (e (m + 1)%Z)) ->
  edge_pt (fun m => e (n - m)%Z) r k = edge_pt e r (n * r - k).
Proof.
  intros Hr Hk N. unfold edge_pt. pose proof (Z.div_mod k r ltac:(lia)) as E. pose proof (Z.mod_pos_bound k r ltac:(lia)) as B.
  assert (0 <= k / r)%Z by (apply Z.div_pos; lia).
  destruct (Z.eqb_spec (k mod r) 0) as [E0|N0].
  - replace (n * r - k)%Z with ((n - k / r) * r)%Z by lia. rewrite Z.mod_mul, Z.div_mul by lia. reflexivity.
  - assert (D : ((n * r - k) / r = n - k / r - 1)%Z) by (symmetry; apply Z.div_unique_pos with (r - k mod r)%Z; lia).
    assert (M : ((n * r - k) mod r = r - k mod r)%Z) by (symmetry; apply Z.mod_unique_pos with (n - k / r - 1)%Z; lia).
    rewrite D, M. rewrite (proj2 (Z.eqb_neq (r - k mod r) 0)) by lia. assert (R0 : IZR r <> 0) by (apply not_0_IZR; lia).
    assert (k / r < n)%Z by nia.
    replace (n - k / r - 1 + 1)%Z with (n - k / r)%Z by lia. replace (n - (k / r + 1))%Z with (n - k / r - 1)%Z by lia.
    rewrite minus_IZR. replace (IZR (k mod r) / IZR r) with (1 - (IZR r - IZR (k mod r)) / IZR r) by (field; auto).
    apply slerp_sym. replace (n - k / r)%Z with (n - k / r - 1 + 1)%Z at 2 by lia. apply N. lia.
Qed.
