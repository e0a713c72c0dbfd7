(** * Proofs about cubic_spline_sp *)
From Coq Require Import Lra Psatz.
From Verif Require Import Base Loops Vec M_Interp Spec_Interp P_Interp P_Interp2.
Local Open Scope R_scope.

(** ** The cubic in one interval *)
Definition hp (a b t : R) : R := t * a + t * t * (3 - 2 * a - b) + t * t * t * (a + b - 2).

Lemma cube_mono u v : u <= v -> u * u * u <= v * v * v.
Proof.
  intros H. assert (0 <= v * v + u * v + u * u) by (pose proof (Rle_0_sqr (u + v)); pose proof (Rle_0_sqr u); pose proof (Rle_0_sqr v); unfold Rsqr in *; lra).
  pose proof (Rmult_le_pos (v - u) _ ltac:(lra) H0). lra.
Qed.
Lemma hp_split a b t : hp a b t = (1 - a / 3) * (1 - b / 3) * (3 * (t * t) - 2 * (t * t * t)) + (a / 3) * (1 - b / 3) * (1 - (1 - t) * (1 - t) * (1 - t))
   + (1 - a / 3) * (b / 3) * (t * t * t) + (a / 3) * (b / 3) * ((1 + (2 * t - 1) * (2 * t - 1) * (2 * t - 1)) / 2).
Proof. unfold hp. field. Qed.
Lemma hp_mono a b t1 t2 : 0 <= a <= 3 -> 0 <= b <= 3 -> 0 <= t1 -> t1 <= t2 -> t2 <= 1 -> hp a b t1 <= hp a b t2.
Proof.
  intros Ha Hb H0 H1 H2. rewrite !hp_split.
  assert (A1 : 3 * (t1 * t1) - 2 * (t1 * t1 * t1) <= 3 * (t2 * t2) - 2 * (t2 * t2 * t2)).
  { assert (0 <= (t2 - t1) * (3 * (t1 + t2) - 2 * (t1 * t1 + t1 * t2 + t2 * t2))); [|lra]. apply Rmult_le_pos; [lra|].
    assert (t1 * t1 <= t1) by nra. assert (t2 * t2 <= t2) by nra. assert (t1 * t2 <= t1) by nra. assert (t1 * t2 <= t2) by nra. lra. }
  assert (A2 : 1 - (1 - t1) * (1 - t1) * (1 - t1) <= 1 - (1 - t2) * (1 - t2) * (1 - t2)). { pose proof (cube_mono (1 - t2) (1 - t1) ltac:(lra)). lra. }
  assert (A3 := cube_mono t1 t2 H1).
  assert (A4 : (1 + (2 * t1 - 1) * (2 * t1 - 1) * (2 * t1 - 1)) / 2 <= (1 + (2 * t2 - 1) * (2 * t2 - 1) * (2 * t2 - 1)) / 2). { pose proof (cube_mono (2 * t1 - 1) (2 * t2 - 1) ltac:(lra)). lra. }
  assert (W : 0 <= a / 3 <= 1 /\ 0 <= b / 3 <= 1) by lra. destruct W as [Wa Wb].
  assert (0 <= (1 - a / 3) * (1 - b / 3)) by (apply Rmult_le_pos; lra). assert (0 <= (a / 3) * (1 - b / 3)) by (apply Rmult_le_pos; lra).
  assert (0 <= (1 - a / 3) * (b / 3)) by (apply Rmult_le_pos; lra). assert (0 <= (a / 3) * (b / 3)) by (apply Rmult_le_pos; lra).
  repeat apply Rplus_le_compat; apply Rmult_le_compat_l; auto.
Qed.
Lemma hp_0 a b : hp a b 0 = 0. Proof. unfold hp. ring. Qed.
Lemma hp_1 a b : hp a b 1 = 1. Proof. unfold hp. ring. Qed.

(** ** Slopes *)
Definition limited (d e : R) : Prop := exists a, 0 <= a <= 3 /\ d = a * e.

Lemma interior_limited h0 h1 e0 e1 : 0 < h0 -> 0 < h1 -> limited (interior_slope h0 h1 e0 e1) e0 /\ limited (interior_slope h0 h1 e0 e1) e1.
Proof.
  intros H0 H1. unfold interior_slope. destruct (rlt_spec 0 (e1 * e0)) as [C|C].
  2:{ split; exists 0; lra. }
  cbn zeta. set (w1 := 2 * h1 + h0). set (w2 := h1 + 2 * h0). assert (W1 : 0 < w1) by (unfold w1; lra). assert (W2 : 0 < w2) by (unfold w2; lra).
  assert (N0 : e0 <> 0) by (intros ->; lra). assert (N1 : e1 <> 0) by (intros ->; lra).
  assert (R0 : 0 < e0 / e1). { replace (e0 / e1) with ((e1 * e0) / (e1 * e1)) by (field; auto). apply Rdiv_lt_0_compat; auto. nra. }
  assert (R1 : 0 < e1 / e0). { replace (e1 / e0) with ((e1 * e0) / (e0 * e0)) by (field; auto). apply Rdiv_lt_0_compat; auto. nra. }
  assert (P0 : 0 < w2 * (e0 / e1)) by (apply Rmult_lt_0_compat; auto). assert (P1 : 0 < w1 * (e1 / e0)) by (apply Rmult_lt_0_compat; auto).
  assert (NN : w1 * e1 + w2 * e0 <> 0). { intros Z. assert (e1 * (w1 * e1 + w2 * e0) = 0) by (rewrite Z; ring). nra. }
  split.
  - exists ((w1 + w2) / (w1 + w2 * (e0 / e1))). split.
    + split; [left; apply Rdiv_lt_0_compat; lra|]. apply Rmult_le_reg_r with (w1 + w2 * (e0 / e1)); [lra|]. unfold Rdiv at 1. rewrite Rmult_assoc, Rinv_l by lra. unfold w1, w2 in *. lra.
    + field. repeat split; auto; intros Z; apply NN; lra.
  - exists ((w1 + w2) / (w1 * (e1 / e0) + w2)). split.
    + split; [left; apply Rdiv_lt_0_compat; lra|]. apply Rmult_le_reg_r with (w1 * (e1 / e0) + w2); [lra|]. unfold Rdiv at 1. rewrite Rmult_assoc, Rinv_l by lra. unfold w1, w2 in *. lra.
    + field. repeat split; auto; intros Z; apply NN; lra.
Qed.

Lemma end_limited h0 h1 e0 e1 : 0 < h0 -> 0 < h1 -> (e0 = 0 -> e1 = 0) -> limited (end_slope h0 h1 e0 e1) e0.
Proof.
  intros H0 H1 HZ. unfold end_slope. cbn zeta. set (d := ((2 * h0 + h1) * e0 - h0 * e1) / (h0 + h1)).
  destruct (rlt_spec (d * e0) 0) as [C|C]. { exists 0. lra. }
  destruct (rlt_spec (e0 * e1) 0) as [D|D]; cbn [andb].
  - destruct (rlt_spec (Rabs (3 * e0)) (Rabs d)) as [F|F]. { exists 3. lra. }
    assert (N : e0 <> 0) by (intros ->; lra). exists (d / e0). split; [|field; auto].
    assert (S : 0 < e0 * e0) by (destruct (Rdichotomy _ _ N); nra).
    assert (E : d / e0 = (d * e0) / (e0 * e0)) by (field; auto). split.
    + rewrite E. apply Rmult_le_pos; [lra|]. left. now apply Rinv_0_lt_compat.
    + assert (Rabs d <= Rabs (3 * e0)) by lra. assert (d * e0 <= 3 * (e0 * e0)).
      { clear E. destruct (Rdichotomy _ _ N) as [L|L].
        - rewrite (Rabs_left (3 * e0)) in H by lra. pose proof (Rle_abs (- d)) as Q. rewrite Rabs_Ropp in Q. nra.
        - rewrite (Rabs_right (3 * e0)) in H by lra. pose proof (Rle_abs d) as Q. nra. }
      rewrite E. apply Rmult_le_reg_r with (e0 * e0); auto. unfold Rdiv. rewrite Rmult_assoc, Rinv_l by lra. lra.
  - destruct (Req_dec e0 0) as [Z|N]. { exists 0. split; [lra|]. unfold d. rewrite Z, (HZ Z). field. lra. }
    exists (d / e0). split; [|field; auto]. assert (S : 0 < e0 * e0) by (destruct (Rdichotomy _ _ N); nra).
    assert (E : d / e0 = (d * e0) / (e0 * e0)) by (field; auto). split.
    + rewrite E. apply Rmult_le_pos; [lra|]. left. now apply Rinv_0_lt_compat.
    + assert (Q : d * e0 * (h0 + h1) = (2 * h0 + h1) * (e0 * e0) - h0 * (e0 * e1)) by (unfold d; field; lra).
      assert (d * e0 * (h0 + h1) <= (3 * (e0 * e0)) * (h0 + h1)) by nra. assert (d * e0 <= 3 * (e0 * e0)) by (eapply Rmult_le_reg_r; [|exact H]; lra).
      rewrite E. apply Rmult_le_reg_r with (e0 * e0); auto. unfold Rdiv. rewrite Rmult_assoc, Rinv_l by lra. lra.
Qed.

(** ** The run of the program *)
Section Run.
Variables (n : Z) (g y : list R).
Hypotheses (Hn : (2 < n)%Z) (Lg : zlen g = n) (Ly : zlen y = n) (Ig : increasing g).

Definition hh i := at_ g (i + 1) - at_ g i.
Definition ee i := (at_ y (i + 1) - at_ y i) / hh i.
Definition DD i := if (i =? n - 1)%Z then end_slope (hh (n - 2)) (hh (n - 3)) (ee (n - 2)) (ee (n - 3))
  else if (i =? 0)%Z then end_slope (hh 0) (hh 1) (ee 0) (ee 1)
  else interior_slope (hh (i - 1)) (hh i) (ee (i - 1)) (ee i).
Definition herm k z := let s := z - at_ g k in
  at_ y k + s * (DD k + s * ((3 * ee k - 2 * DD k - DD (k + 1)) / hh k + s * ((DD k - 2 * ee k + DD (k + 1)) / (hh k * hh k)))).

Lemma hh_pos i : (0 <= i < n - 1)%Z -> 0 < hh i.
Proof. intros Hi. unfold hh. pose proof (Ig i (i + 1)%Z ltac:(lia) ltac:(lia)). lra. Qed.

Lemma ofor_fill2 (f : list R * list R -> Z -> outcome (list R * list R)) m (V W : Z -> R) a b F G : (0 <= m)%Z -> vec a m F -> vec b m G ->
  (forall i a b, (0 <= i < m)%Z -> zlen a = m -> zlen b = m -> exists a' b', f (a, b) i = Ok (a', b') /\ oset a i (V i) = Ok a' /\ oset b i (W i) = Ok b') ->
  exists a' b', ofor 0 m f (a, b) = Ok (a', b') /\ vec a' m V /\ vec b' m W.
Proof.
  clear. intros Hm Va Vb Hf.
  destruct (ofor_inv (fun i (s : list R * list R) => vec (fst s) m (fun j => if (j <? i)%Z then V j else F j) /\ vec (snd s) m (fun j => if (j <? i)%Z then W j else G j)) f 0 m (a, b)) as ([a' b'] & E & H1 & H2); auto.
  - cbn [fst snd]. split; eapply vec_ext; eauto; intros i Hi; destruct (Z.ltb_spec i 0); auto; lia.
  - intros i [a1 b1] Hi [H1 H2]. cbn [fst snd] in *. destruct (Hf i a1 b1) as (a2 & b2 & E & Ea & Eb); [lia|apply H1|apply H2|]. exists (a2, b2). split; auto. cbn [fst snd].
    destruct (vec_set a1 m _ (fun j => if (j <? i + 1)%Z then V j else F j) i (V i) H1) as (a3 & E3 & V3); [lia| |].
    { intros j Hj. destruct (Z.ltb_spec j (i + 1)), (Z.ltb_spec j i), (Z.eqb_spec j i); subst; auto; lia. }
    destruct (vec_set b1 m _ (fun j => if (j <? i + 1)%Z then W j else G j) i (W i) H2) as (b3 & E4 & V4); [lia| |].
    { intros j Hj. destruct (Z.ltb_spec j (i + 1)), (Z.ltb_spec j i), (Z.eqb_spec j i); subst; auto; lia. }
    rewrite Ea in E3. rewrite Eb in E4. inversion E3; inversion E4; subst. auto.
  - exists a', b'. split; auto. cbn [fst snd] in *. split; [eapply vec_ext; [|exact H1]|eapply vec_ext; [|exact H2]]; intros i Hi; cbv beta; destruct (Z.ltb_spec i (0 + m)); auto; lia.
Qed.

Lemma check_inside_spec grid2 m : (0 <= m)%Z -> zlen grid2 = m ->
  (check_inside g grid2 n m = Ok tt /\ forall k, (0 <= k < m)%Z -> at_ g 0 <= at_ grid2 k <= at_ g (n - 1))
  \/ (check_inside g grid2 n m = Err 2 /\ exists k, (0 <= k < m)%Z /\ (at_ grid2 k < at_ g 0 \/ at_ g (n - 1) < at_ grid2 k)).
Proof.
  intros Hm L. unfold check_inside.
  match goal with |- context [ofor 0 m ?f tt] => destruct (check_loop (fun k => at_ grid2 k < at_ g 0 \/ at_ g (n - 1) < at_ grid2 k) (fun k => rlt (at_ grid2 k) (at_ g 0) || rlt (at_ g (n - 1)) (at_ grid2 k)) 2%Z 0 m f) as [(E & H)|(E & i & Hi & H)] end; auto.
  - intros i Hi. rewrite !get_at by lia. cbn [bind]. destruct (rlt_spec (at_ grid2 i) (at_ g 0)); cbn [orb]; auto.
  - intros i Hi. destruct (rlt_spec (at_ grid2 i) (at_ g 0)); cbn [orb]; [constructor; auto|]. destruct (rlt_spec (at_ g (n - 1)) (at_ grid2 i)); constructor; [now right|]. intros [|]; contradiction.
  - left. split; [exact E|]. intros k Hk. specialize (H k ltac:(lia)). split; apply Rnot_lt_le; intros C; apply H; auto.
  - right. split; [exact E|]. exists i. split; auto; lia.
Qed.

Lemma spline_run m grid2 data2 : (0 <= m)%Z -> zlen grid2 = m -> zlen data2 = m ->
  (forall k, (0 <= k < m)%Z -> at_ g 0 <= at_ grid2 k <= at_ g (n - 1)) ->
  exists out, cubic_spline_sp n m g grid2 y data2 = Ok out /\ zlen out = m
    /\ forall k, (0 <= k < m)%Z -> exists i, (0 <= i < n - 1)%Z /\ at_ g i <= at_ grid2 k <= at_ g (i + 1) /\ at_ out k = herm i (at_ grid2 k).
Proof.
  intros Hm L2 LO Hin. unfold cubic_spline_sp.
  destruct (check_increasing_spec g n) as [(E & _)|(_ & C)]; try lia; [|contradiction]. rewrite E. cbn [bind]. clear E.
  destruct (check_inside_spec grid2 m Hm L2) as [(E & _)|(_ & k & Hk & C)]. 2:{ specialize (Hin k Hk). lra. }
  rewrite E. cbn [bind]. clear E. destruct (Z.ltb_spec n 2); [lia|]. destruct (Z.eqb_spec n 2); [lia|].
  match goal with |- context [ofor 0 (n - 1) ?f (alloc (n - 1), alloc (n - 1))] => destruct (ofor_fill2 f (n - 1) hh ee (alloc (n - 1)) (alloc (n - 1)) _ _ ltac:(lia) (vec_repeat 0 (n - 1) ltac:(lia)) (vec_repeat 0 (n - 1) ltac:(lia))) as (dh & delta & E & Vh & Ve) end.
  { intros i a b Hi La Lb. rewrite !get_at by lia. cbn [bind]. destruct (zset_Some a i (hh i)) as (a' & Ea); [lia|]. destruct (zset_Some b i (ee i)) as (b' & Eb); [lia|].
    fold (hh i). rewrite (proj2 (oset_Ok _ _ _ _) Ea). cbn [bind]. rewrite (proj2 (oget_Ok _ _ _) (zget_zset_eq _ _ _ _ Ea)). cbn [bind]. fold (ee i). rewrite (proj2 (oset_Ok _ _ _ _) Eb). cbn [bind]. eauto. }
  rewrite E. cbn [bind]. clear E.
  match goal with |- context [ofor 1 (n - 2) ?f (alloc n)] => destruct (ofor_fill f n 1 (n - 2) (fun _ => 0) (fun k => interior_slope (hh (k - 1)) (hh k) (ee (k - 1)) (ee k)) (alloc n)) as (d & E & Vd) end; try lia.
  { apply vec_repeat. lia. }
  { intros i a F Hi _ _ _. rewrite !(vec_get _ _ _ _ Ve), !(vec_get _ _ _ _ Vh) by lia. reflexivity. }
  rewrite E. cbn [bind]. clear E. rewrite !(vec_get _ _ _ _ Ve), !(vec_get _ _ _ _ Vh) by lia. cbn [bind].
  destruct (vec_set d n _ (fun i => if (i =? 0)%Z then end_slope (hh 0) (hh 1) (ee 0) (ee 1) else if (1 <=? i)%Z && (i <? 1 + (n - 2))%Z then interior_slope (hh (i - 1)) (hh i) (ee (i - 1)) (ee i) else 0) 0 (end_slope (hh 0) (hh 1) (ee 0) (ee 1)) Vd) as (d1 & E & Vd1); [lia| |].
  { intros i Hi. destruct (Z.eqb_spec i 0); auto. }
  rewrite E. cbn [bind]. clear E Vd d.
  destruct (vec_set d1 n _ DD (n - 1) (end_slope (hh (n - 1 - 1)) (hh (n - 1 - 2)) (ee (n - 1 - 1)) (ee (n - 1 - 2))) Vd1) as (d & E & Vd); [lia| |].
  { intros i Hi. unfold DD. replace (n - 1 - 1)%Z with (n - 2)%Z by lia. replace (n - 1 - 2)%Z with (n - 3)%Z by lia. destruct (Z.eqb_spec i (n - 1)); auto. destruct (Z.eqb_spec i 0); auto. destruct (Z.leb_spec 1 i), (Z.ltb_spec i (1 + (n - 2))); auto; lia. }
  rewrite E. cbn [bind]. clear E Vd1 d1.
  match goal with |- context [ofor 0 (n - 1) ?f (alloc (n - 1), alloc (n - 1))] => destruct (ofor_fill2 f (n - 1) (fun k => (DD k - 2 * ee k + DD (k + 1)) / (hh k * hh k)) (fun k => (3 * ee k - 2 * DD k - DD (k + 1)) / hh k) (alloc (n - 1)) (alloc (n - 1)) _ _ ltac:(lia) (vec_repeat 0 (n - 1) ltac:(lia)) (vec_repeat 0 (n - 1) ltac:(lia))) as (b & c & E & Vb & Vc) end.
  { intros i a b Hi La Lb. rewrite !(vec_get _ _ _ _ Ve), !(vec_get _ _ _ _ Vh), !(vec_get _ _ _ _ Vd) by lia. cbn [bind].
    destruct (zset_Some a i ((DD i - 2 * ee i + DD (i + 1)) / (hh i * hh i))) as (a' & Ea); [lia|]. destruct (zset_Some b i ((3 * ee i - 2 * DD i - DD (i + 1)) / hh i)) as (b' & Eb); [lia|].
    rewrite (proj2 (oset_Ok _ _ _ _) Eb). cbn [bind]. rewrite (proj2 (oset_Ok _ _ _ _) Ea). cbn [bind]. eauto. }
  rewrite E. cbn [bind]. clear E.
  match goal with |- context [ofor 0 m ?f data2] => destruct (ofor_inv (fun j o => zlen o = m /\ forall k, (0 <= k < j)%Z -> exists i, (0 <= i < n - 1)%Z /\ at_ g i <= at_ grid2 k <= at_ g (i + 1) /\ at_ o k = herm i (at_ grid2 k)) f 0 m data2) as (out & E & HL & Ho) end; auto.
  - split; auto. intros; lia.
  - intros j o Hj (HL & HI). rewrite get_at by lia. cbn [bind]. destruct (find_klo_spec (at_ grid2 j) g n Lg ltac:(lia) Ig) as (i & E & Hi & Bi). { apply Hin. lia. }
    rewrite E. cbn [bind]. rewrite !get_at by lia. cbn [bind]. rewrite (vec_get _ _ _ _ Vd), (vec_get _ _ _ _ Vb), (vec_get _ _ _ _ Vc) by lia. cbn [bind].
    destruct (vec_set o m (at_ o) (fun k => if (k =? j)%Z then herm i (at_ grid2 j) else at_ o k) j (herm i (at_ grid2 j)) (vec_self _ _ HL)) as (o' & Eo & Vo); [lia|auto|].
    exists o'. split; [exact Eo|]. split; [apply Vo|]. intros k Hk. rewrite (vec_at_ _ _ _ _ Vo) by lia. destruct (Z.eqb_spec k j) as [->|N]; [exists i; auto|]. apply HI. lia.
  - exists out. auto.
Qed.

(** ** Shape *)
Definition end_ok i := ((i = 0)%Z -> at_ y 0 = at_ y 1 -> at_ y 1 = at_ y 2) /\ ((i = n - 2)%Z -> at_ y (n - 2) = at_ y (n - 1) -> at_ y (n - 3) = at_ y (n - 2)).

Lemma ee_0 i : (0 <= i < n - 1)%Z -> ee i = 0 <-> at_ y i = at_ y (i + 1).
Proof.
  intros Hi. pose proof (hh_pos i Hi) as P. unfold ee. split.
  - intros E. assert (at_ y (i + 1) - at_ y i = 0); [|lra]. replace (at_ y (i + 1) - at_ y i) with ((at_ y (i + 1) - at_ y i) / hh i * hh i) by (field; lra). rewrite E. ring.
  - intros ->. unfold Rdiv. ring.
Qed.

Lemma slopes_limited i : (0 <= i < n - 1)%Z -> end_ok i -> limited (DD i) (ee i) /\ limited (DD (i + 1)) (ee i).
Proof.
  intros Hi [HB HE]. unfold DD. split.
  - destruct (Z.eqb_spec i (n - 1)); [lia|]. destruct (Z.eqb_spec i 0) as [->|N].
    + apply end_limited; try (apply hh_pos; lia). rewrite !ee_0 by lia. apply HB; auto.
    + pose proof (interior_limited (hh (i - 1)) (hh i) (ee (i - 1)) (ee i) (hh_pos (i - 1)%Z ltac:(lia)) (hh_pos i ltac:(lia))). tauto.
  - destruct (Z.eqb_spec (i + 1) (n - 1)) as [Q|Q].
    + replace i with (n - 2)%Z by lia. apply end_limited; try (apply hh_pos; lia). rewrite !ee_0 by lia. replace (n - 2 + 1)%Z with (n - 1)%Z by lia. replace (n - 3 + 1)%Z with (n - 2)%Z by lia. apply HE. lia.
    + destruct (Z.eqb_spec (i + 1) 0); [lia|]. replace (i + 1 - 1)%Z with i by lia.
      pose proof (interior_limited (hh i) (hh (i + 1)) (ee i) (ee (i + 1)) (hh_pos i ltac:(lia)) (hh_pos (i + 1)%Z ltac:(lia))). tauto.
Qed.

Lemma herm_hp i : (0 <= i < n - 1)%Z -> end_ok i -> exists a b, 0 <= a <= 3 /\ 0 <= b <= 3 /\
  forall z, herm i z = at_ y i + (at_ y (i + 1) - at_ y i) * hp a b ((z - at_ g i) / hh i).
Proof.
  intros Hi Hok. destruct (slopes_limited i Hi Hok) as [(a & Ha & Ea) (b & Hb & Eb)]. exists a, b. split; auto. split; auto. intros z. unfold herm. cbn zeta. rewrite Ea, Eb.
  pose proof (hh_pos i Hi). unfold hp, ee. field. lra.
Qed.

Lemma herm_left i : (0 <= i < n - 1)%Z -> herm i (at_ g i) = at_ y i.
Proof. intros Hi. unfold herm. cbn zeta. replace (at_ g i - at_ g i) with 0 by lra. ring. Qed.
Lemma herm_right i : (0 <= i < n - 1)%Z -> herm i (at_ g (i + 1)) = at_ y (i + 1).
Proof. intros Hi. unfold herm. cbn zeta. fold (hh i). pose proof (hh_pos i Hi). unfold ee. field. lra. Qed.

Lemma herm_shape i z1 z2 : (0 <= i < n - 1)%Z -> end_ok i -> at_ g i <= z1 -> z1 <= z2 -> z2 <= at_ g (i + 1) ->
  betw (at_ y i) (at_ y (i + 1)) (herm i z1) /\ betw (herm i z1) (at_ y (i + 1)) (herm i z2)
  /\ (at_ y i <= at_ y (i + 1) -> herm i z1 <= herm i z2) /\ (at_ y (i + 1) <= at_ y i -> herm i z2 <= herm i z1).
Proof.
  intros Hi Hok H1 H2 H3. destruct (herm_hp i Hi Hok) as (a & b & Ha & Hb & E). pose proof (hh_pos i Hi) as P. rewrite !E.
  set (t1 := (z1 - at_ g i) / hh i). set (t2 := (z2 - at_ g i) / hh i).
  assert (T1 : 0 <= t1) by (apply Rmult_le_pos; [lra|left; now apply Rinv_0_lt_compat]).
  assert (T12 : t1 <= t2) by (apply Rmult_le_compat_r; [left; now apply Rinv_0_lt_compat|lra]).
  assert (T2 : t2 <= 1). { apply Rmult_le_reg_r with (hh i); auto. unfold t2, Rdiv. rewrite Rmult_assoc, Rinv_l by lra. unfold hh. lra. }
  pose proof (hp_mono a b 0 t1 Ha Hb ltac:(lra) T1 ltac:(lra)) as M0. pose proof (hp_mono a b t1 t2 Ha Hb T1 T12 T2) as M1. pose proof (hp_mono a b t2 1 Ha Hb ltac:(lra) T2 ltac:(lra)) as M2.
  rewrite hp_0 in M0. rewrite hp_1 in M2. set (p1 := hp a b t1) in *. set (p2 := hp a b t2) in *. set (y0 := at_ y i). set (y1 := at_ y (i + 1)). unfold betw.
  destruct (Rle_lt_dec y0 y1); repeat split; intros; nra.
Qed.
End Run.
