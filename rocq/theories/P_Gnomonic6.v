(** Proofs for C83: the edges, the spacing, the covering of the sphere. *)
From Coq Require Import Reals ZArith List Bool Lia Lra Psatz.
From Verif Require Import Base Loops M_Interp P_Longitude M_Matrix P_Matrix Spec_Cubic Spec_Gnomonic P_Gnomonic M_Cubic P_Cubic P_Cubic2 P_Cubic3 M_Gnomonic P_Gnomonic2 P_Gnomonic3 P_Gnomonic4 P_Gnomonic5.
Import ListNotations.
Open Scope R_scope.

(** ** A direction determines longitude and latitude *)
Lemma sin_inj a b : - (PI / 2) <= a <= PI / 2 -> - (PI / 2) <= b <= PI / 2 -> sin a = sin b -> a = b.
Proof. intros Ha Hb E. rewrite <- (asin_sin a), <- (asin_sin b) by auto. now rewrite E. Qed.
Lemma wrap_inj a b : - PI < a <= PI -> - PI < b <= PI -> cos a = cos b -> sin a = sin b -> a = b.
Proof.
  intros Ha Hb C S. destruct (wrap_cs a) as [A1 A2], (wrap_cs b) as [B1 B2]. pose proof PI_RGT_0.
  assert (E : (if rlt a 0 then 2 * PI + a else a) = (if rlt b 0 then 2 * PI + b else b)).
  { apply angle_unique; try congruence.
    - destruct (rlt_cases a 0) as [[-> ?]|[-> ?]]; lra.
    - destruct (rlt_cases b 0) as [[-> ?]|[-> ?]]; lra. }
  destruct (rlt_cases a 0) as [[Ea ?]|[Ea ?]], (rlt_cases b 0) as [[Eb ?]|[Eb ?]]; rewrite Ea, Eb in E; lra.
Qed.
Lemma toward_unique lon lat lon' lat' X Y Z : X <> 0 \/ Y <> 0 -> in_range lon lat -> in_range lon' lat' ->
  toward lon lat (X, Y, Z) -> toward lon' lat' (X, Y, Z) -> lon = lon' /\ lat = lat'.
Proof.
  intros NZ [R1 R2] [R3 R4] (r & Hr & A & B & C) (r' & Hr' & A' & B' & C').
  assert (N : forall r lon lat, X = r * (cos lat * cos lon) -> Y = r * (cos lat * sin lon) -> Z = r * sin lat -> r * r = X * X + Y * Y + Z * Z).
  { clear. intros r lon lat -> -> ->. pose proof (sin2_cos2 lon) as E1. pose proof (sin2_cos2 lat) as E2. unfold Rsqr in *.
    replace (r * (cos lat * cos lon) * (r * (cos lat * cos lon)) + r * (cos lat * sin lon) * (r * (cos lat * sin lon)) + r * sin lat * (r * sin lat))
      with (r * r * (cos lat * cos lat * (sin lon * sin lon + cos lon * cos lon) + sin lat * sin lat)) by ring.
    rewrite E1. replace (cos lat * cos lat * 1 + sin lat * sin lat) with 1 by lra. ring. }
  assert (E : r = r'). { apply pos_root; auto. rewrite (N r lon lat), (N r' lon' lat'); auto. }
  subst r'. assert (EL : lat = lat'). { apply sin_inj; auto. apply Rmult_eq_reg_l with r; lra. }
  subst lat'. split; auto.
  assert (C0 : cos lat <> 0). { intros Hc. rewrite Hc in A, B. destruct NZ; [apply H; rewrite A; ring|apply H; rewrite B; ring]. }
  apply wrap_inj; auto; apply Rmult_eq_reg_l with (r * cos lat); try (apply Rmult_integral_contrapositive; split; lra); rewrite !Rmult_assoc; congruence.
Qed.

(** ** The sides of the tiles *)
Section edges.
  Context (ni : Z) (Hni : (1 <= ni <= 2147483647)%Z).
  Local Notation g := (grad ni).
  Local Notation nip := (ni + 1)%Z.
  Let Hn1 : (1 <= ni)%Z := proj1 Hni.

  Lemma edge_face t s t' s' r k : In (t, s, t', s', r) cube_edges -> (0 <= k <= ni)%Z ->
    let p := spoint ni s k in let p' := spoint ni s' (if r then ni - k else k)%Z in
    face t (g (snd p)) (g (fst p)) = face t' (g (snd p')) (g (fst p'))
    /\ (0 <= fst p <= ni)%Z /\ (0 <= snd p <= ni)%Z /\ (0 <= fst p' <= ni)%Z /\ (0 <= snd p' <= ni)%Z
    /\ (0 <= t < 6)%Z /\ (0 <= t' < 6)%Z
    /\ (let '(X, Y, _) := face t (g (snd p)) (g (fst p)) in X <> 0 \/ Y <> 0).
  Proof.
    intros I Hk. unfold cube_edges in I; cbn [In] in I. cbv zeta.
    repeat (destruct I as [I|I]; [injection I as <- <- <- <- <-; cbn [spoint fst snd face]; rewrite ?grad_opp, ?grad_0, ?grad_n by auto;
      split; [apply t3; lra|]; repeat (split; [lia|]); first [left; lra|right; lra]|]). destruct I.
  Qed.

  Lemma consistent x y : zlen x = (6 * (nip * nip))%Z -> zlen y = (6 * (nip * nip))%Z ->
    (forall t j i, (0 <= t < 6)%Z -> (0 <= j <= ni)%Z -> (0 <= i <= ni)%Z -> pt ni x y t j i) ->
    forall t s t' s' r k, In (t, s, t', s', r) cube_edges -> (0 <= k <= ni)%Z ->
    let p := spoint ni s k in let p' := spoint ni s' (if r then ni - k else k)%Z in
    zget x (at3 nip nip t (fst p) (snd p)) = zget x (at3 nip nip t' (fst p') (snd p'))
    /\ zget y (at3 nip nip t (fst p) (snd p)) = zget y (at3 nip nip t' (fst p') (snd p')).
  Proof.
    intros Lx Ly HP t s t' s' r k I Hk p p'. destruct (edge_face t s t' s' r k I Hk) as (F & B1 & B2 & B3 & B4 & T1 & T2 & NZ).
    fold p p' in F, B1, B2, B3, B4, NZ.
    destruct (HP t (fst p) (snd p) T1 B1 B2) as (lon & lat & G1 & G2 & W & Rg). destruct (HP t' (fst p') (snd p') T2 B3 B4) as (lon' & lat' & G1' & G2' & W' & Rg').
    rewrite <- F in W'. destruct (face t (g (snd p)) (g (fst p))) as [[X Y] Z].
    destruct (toward_unique lon lat lon' lat' X Y Z NZ Rg Rg' W W') as [-> ->]. rewrite G1, G2, G1', G2'. auto.
  Qed.
End edges.

(** ** Joining consistent tiles changes nothing *)
Lemma copy1_same {A} (a : list A) d s v : zget a s = Some v -> zget a d = Some v -> copy1 a d s = Ok a.
Proof. intros H1 H2. unfold copy1. rewrite (oget_some _ _ _ H1). cbn [bind]. apply oset_same; auto. Qed.
Lemma copy_loop_same {A} n l (a : list A) : (0 <= n)%Z ->
  (forall k d s, (0 <= k < n)%Z -> In (d, s) l -> exists v, zget a (s k) = Some v /\ zget a (d k) = Some v) -> copy_loop n l a = Ok a.
Proof.
  intros Hn H. unfold copy_loop. apply ofor_fix; auto. intros k Hk.
  assert (HH : forall d s, In (d, s) l -> exists v, zget a (s k) = Some v /\ zget a (d k) = Some v) by (intros; apply H; auto; lia).
  clear H. induction l as [|[d s] l IH]; [reflexivity|]. cbn [ofold].
  destruct (HH d s (or_introl eq_refl)) as (v & H1 & H2). rewrite (copy1_same a (d k) (s k) v H1 H2). cbn [bind].
  apply IH. intros; apply HH; right; auto.
Qed.
Lemma join_same {A} ni (a : list A) : (1 <= ni)%Z -> zlen a = (6 * ((ni + 1) * (ni + 1)))%Z ->
  (forall t s t' s' r k, In (t, s, t', s', r) cube_edges -> (0 <= k <= ni)%Z ->
    let p := spoint ni s k in let p' := spoint ni s' (if r then ni - k else k)%Z in
    zget a (at3 (ni + 1) (ni + 1) t (fst p) (snd p)) = zget a (at3 (ni + 1) (ni + 1) t' (fst p') (snd p'))) ->
  join_tiles ni a = Ok a.
Proof.
  intros Hn L H. unfold join_tiles. cbv zeta.
  assert (V : forall t s t' s' r k, In (t, s, t', s', r) cube_edges -> (0 <= k <= ni)%Z ->
    let p := spoint ni s k in let p' := spoint ni s' (if r then ni - k else k)%Z in
    exists v, zget a (at3 (ni + 1) (ni + 1) t (fst p) (snd p)) = Some v /\ zget a (at3 (ni + 1) (ni + 1) t' (fst p') (snd p')) = Some v).
  { intros t s t' s' r k I Hk p p'. pose proof (H t s t' s' r k I Hk) as E. cbv zeta in E. fold p p' in E.
    destruct (zget a (at3 (ni + 1) (ni + 1) t (fst p) (snd p))) as [v|] eqn:G; [exists v; auto|]. exfalso.
    revert G. unfold p. assert (RG : (0 <= at3 (ni + 1) (ni + 1) t (fst (spoint ni s k)) (snd (spoint ni s k)) < zlen a)%Z).
    { rewrite L. apply at3_range.
      - unfold cube_edges in I; cbn [In] in I. repeat (destruct I as [I|I]; [injection I as <- <- <- <- <-; lia|]). destruct I.
      - destruct s; cbn [spoint fst]; lia.
      - destruct s; cbn [spoint snd]; lia. }
    destruct (zget_in_range a _ RG) as [v ->]. discriminate. }
  clear H L.
  assert (U : forall t s t' s' k, In (t, s, t', s', false) cube_edges -> (0 <= k < ni + 1)%Z ->
    exists v, zget a (at3 (ni + 1) (ni + 1) t (fst (spoint ni s k)) (snd (spoint ni s k))) = Some v
      /\ zget a (at3 (ni + 1) (ni + 1) t' (fst (spoint ni s' k)) (snd (spoint ni s' k))) = Some v).
  { intros t s t' s' k I Hk. exact (V t s t' s' false k I ltac:(lia)). }
  assert (W : forall t s t' s' k, In (t, s, t', s', true) cube_edges -> (0 <= k < ni + 1)%Z ->
    exists v, zget a (at3 (ni + 1) (ni + 1) t (fst (spoint ni s (ni - k))) (snd (spoint ni s (ni - k)))) = Some v
      /\ zget a (at3 (ni + 1) (ni + 1) t' (fst (spoint ni s' k)) (snd (spoint ni s' k))) = Some v).
  { intros t s t' s' k I Hk. pose proof (V t s t' s' true (ni - k)%Z I ltac:(lia)) as E. cbv zeta in E.
    replace (ni - (ni - k))%Z with k in E by lia. exact E. }
  clear V.
  rewrite copy_loop_same; [cbn [bind]|lia|].
  2: { intros k d s Hk [E|[E|[]]]; injection E as <- <-; [apply (U 0 East 1 West k)%Z|apply (W 0 North 2 West k)%Z]; auto; cbn; tauto. }
  rewrite copy_loop_same; [cbn [bind]|lia|].
  2: { intros k d s Hk [E|[E|[E|[E|[]]]]]; injection E as <- <-;
       [apply (W 0 West 4 North k)%Z|apply (U 0 South 5 North k)%Z|apply (U 1 North 2 South k)%Z|apply (W 1 East 3 South k)%Z]; auto; cbn; tauto. }
  rewrite copy_loop_same; [cbn [bind]|lia|].
  2: { intros k d s Hk [E|[E|[E|[]]]]; injection E as <- <-;
       [apply (W 1 South 5 East k)%Z|apply (U 2 East 3 West k)%Z|apply (W 2 North 4 West k)%Z]; auto; cbn; tauto. }
  rewrite copy_loop_same; [cbn [bind]|lia|].
  2: { intros k d s Hk [E|[E|[]]]; injection E as <- <-; [apply (U 3 North 4 South k)%Z|apply (W 3 East 5 South k)%Z]; auto; cbn; tauto. }
  apply copy_loop_same; [lia|].
  intros k d s Hk [E|[]]; injection E as <- <-. apply (U 4 East 5 West k)%Z; auto; cbn; tauto.
Qed.

(** ** adjust_point *)
Lemma adjust_spec turn f x y : in_range x y -> exists lon lat k, adjust_point turn f (x, y) = (lon, lat)
  /\ 0 <= lon < 2 * PI /\ - (PI / 2) <= lat <= PI / 2 /\ (k = 0 \/ k = 1)%Z
  /\ Rabs (lon - (x - west_shift turn f + 2 * PI * IZR k)) < EPSLN10 /\ Rabs (lat - y) < EPSLN10.
Proof.
  intros [H1 H2]. unfold adjust_point. cbv zeta. pose proof PI_RGT_0 as HP. assert (EP : 0 < EPSLN10) by (unfold EPSLN10; lra).
  assert (ES : (if turn && rlt (1 / 10000) f then x - PI / 18 else x) = x - west_shift turn f).
  { unfold west_shift. destruct turn; cbn [andb]; [|ring]. destruct (Rlt_dec (1 / 10000) f); [rewrite rlt_t by auto; auto|rewrite rlt_f by lra; ring]. }
  rewrite ES. assert (BS : 0 <= west_shift turn f <= PI / 18) by (unfold west_shift; destruct turn; [destruct (Rlt_dec (1 / 10000) f)|]; lra).
  set (w := x - west_shift turn f) in *. assert (Bw : - PI - PI / 18 < w <= PI) by (unfold w; lra). clearbody w.
  assert (Ey : exists lat, (if rlt (Rabs y) EPSLN10 then 0 else y) = lat /\ - (PI / 2) <= lat <= PI / 2 /\ Rabs (lat - y) < EPSLN10).
  { destruct (rlt_cases (Rabs y) EPSLN10) as [[-> Hc]|[-> Hc]].
    - exists 0. split; auto. split; [lra|]. rewrite Rminus_0_l, Rabs_Ropp; auto.
    - exists y. split; auto. split; [auto|]. replace (y - y) with 0 by ring. rewrite Rabs_R0; auto. }
  destruct Ey as (lat & -> & B2 & B3).
  assert (Ex : exists k, (k = 0 \/ k = 1)%Z /\ (if rlt w 0 then w + 2 * PI else w) = w + 2 * PI * IZR k /\ 0 <= w + 2 * PI * IZR k < 2 * PI).
  { destruct (rlt_cases w 0) as [[-> Hc]|[-> Hc]]; [exists 1%Z|exists 0%Z]; (split; [auto|]); split; try ring; lra. }
  destruct Ex as (k & Hk & -> & Bk). set (v := w + 2 * PI * IZR k) in *. assert (EV : w + 2 * PI * IZR k = v) by reflexivity. clearbody v.
  exists (if rlt (Rabs v) EPSLN10 then 0 else v), lat, k. rewrite EV. split; [reflexivity|].
  destruct (rlt_cases (Rabs v) EPSLN10) as [[-> Hc]|[-> Hc]].
  - split; [lra|]. split; auto. split; auto. split; auto. rewrite Rminus_0_l, Rabs_Ropp; auto.
  - split; [lra|]. split; auto. split; auto. split; auto. replace (v - v) with 0 by ring. rewrite Rabs_R0; auto.
Qed.

(** ** Spacing *)
Lemma spacing n k s : (1 <= n)%Z -> (0 <= k < n)%Z -> s * s = 1 ->
  let a := grad n k in let b := grad n (k + 1) in
  1 + a * b + s * s = sqrt (1 + a * a + s * s) * sqrt (1 + b * b + s * s) * cos (2 * half_edge / IZR n).
Proof.
  intros Hn Hk Es a b. rewrite Es.
  pose proof (sin_ang n Hn k ltac:(lia)) as S1. pose proof (sin_ang n Hn (k + 1) ltac:(lia)) as S2.
  pose proof (cos_ang_pos n Hn k ltac:(lia)) as C1. pose proof (cos_ang_pos n Hn (k + 1) ltac:(lia)) as C2. fold a in S1. fold b in S2.
  pose proof (sin2_cos2 (ang n k)) as T1. pose proof (sin2_cos2 (ang n (k + 1))) as T2. unfold Rsqr in T1, T2.
  assert (ED : 2 * half_edge / IZR n = ang n (k + 1) - ang n k). { unfold ang. rewrite plus_IZR. field. apply not_0_IZR. lia. }
  rewrite ED, cos_minus.
  set (c1 := cos (ang n k)) in *. set (c2 := cos (ang n (k + 1))) in *. set (z1 := sin (ang n k)) in *. set (z2 := sin (ang n (k + 1))) in *.
  pose proof s2_pos as Q0. pose proof s2_sq as Q1. set (q2 := sqrt 2) in *. clearbody c1 c2 z1 z2 q2 a b.
  assert (R1 : sqrt (1 + a * a + 1) = q2 / c1).
  { apply sqrt_lem_1; [nra|left; apply Rdiv_lt_0_compat; lra|]. replace (q2 / c1 * (q2 / c1)) with (q2 * q2 / (c1 * c1)) by (field; lra). rewrite Q1.
    apply Rmult_eq_reg_r with (c1 * c1); [|nra]. replace (2 / (c1 * c1) * (c1 * c1)) with 2 by (field; lra).
    replace ((1 + a * a + 1) * (c1 * c1)) with (2 * (c1 * c1) + (a * c1) * (a * c1)) by ring. rewrite <- S1.
    replace (q2 * z1 * (q2 * z1)) with (q2 * q2 * (z1 * z1)) by ring. rewrite Q1. lra. }
  assert (R2 : sqrt (1 + b * b + 1) = q2 / c2).
  { apply sqrt_lem_1; [nra|left; apply Rdiv_lt_0_compat; lra|]. replace (q2 / c2 * (q2 / c2)) with (q2 * q2 / (c2 * c2)) by (field; lra). rewrite Q1.
    apply Rmult_eq_reg_r with (c2 * c2); [|nra]. replace (2 / (c2 * c2) * (c2 * c2)) with 2 by (field; lra).
    replace ((1 + b * b + 1) * (c2 * c2)) with (2 * (c2 * c2) + (b * c2) * (b * c2)) by ring. rewrite <- S2.
    replace (q2 * z2 * (q2 * z2)) with (q2 * q2 * (z2 * z2)) by ring. rewrite Q1. lra. }
  rewrite R1, R2. replace (q2 / c1 * (q2 / c2) * (c2 * c1 + z2 * z1)) with ((q2 * q2 * (c1 * c2) + (q2 * z1) * (q2 * z2)) / (c1 * c2)) by (field; lra).
  rewrite S1, S2, Q1. field. lra.
Qed.

(** ** Covering *)
Lemma locate n a : (1 <= n)%Z -> -1 <= a <= 1 -> exists i, (0 <= i < n)%Z /\ grad n i <= a <= grad n (i + 1).
Proof.
  intros Hn Ha.
  assert (G : forall m, (0 <= m)%Z -> (1 <= m <= n)%Z -> a <= grad n m -> exists i, (0 <= i < n)%Z /\ grad n i <= a <= grad n (i + 1)).
  { intros m Hm. pattern m. apply natlike_ind; auto; [lia|]. intros k Hk IH H1 H2. unfold Z.succ in *.
    destruct (Rle_dec (grad n k) a) as [L|L]; [exists k; split; [lia|lra]|].
    destruct (Z.eq_dec k 0) as [->|]; [exfalso; rewrite grad_0 in L by auto; lra|]. apply IH; [lia|lra]. }
  apply (G n); [lia|lia|]. rewrite grad_n by auto. lra.
Qed.
Lemma locate_unique n a i i' : (1 <= n)%Z -> (0 <= i < n)%Z -> (0 <= i' < n)%Z -> grad n i < a < grad n (i + 1) -> grad n i' < a < grad n (i' + 1) -> i = i'.
Proof.
  intros Hn Hi Hi' H H'. assert (M : forall k k', (0 <= k)%Z -> (k <= k')%Z -> (k' <= n)%Z -> grad n k <= grad n k').
  { intros k k' ? L ?. destruct (Z.eq_dec k k') as [->|]; [lra|left; apply grad_incr; lia]. }
  destruct (Z.lt_trichotomy i i') as [L|[L|L]]; auto; exfalso.
  - pose proof (M (i + 1)%Z i' ltac:(lia) ltac:(lia) ltac:(lia)). lra.
  - pose proof (M (i' + 1)%Z i ltac:(lia) ltac:(lia) ltac:(lia)). lra.
Qed.
Lemma frac k x : 0 < k -> - k <= x <= k -> -1 <= x / k <= 1.
Proof. intros Hk H. split; apply Rmult_le_reg_r with k; auto; unfold Rdiv; rewrite Rmult_assoc, Rinv_l by lra; lra. Qed.

Lemma cover_face x y z : (x, y, z) <> (0, 0, 0) -> exists t k a b, (0 <= t < 6)%Z /\ 0 < k /\ -1 <= a <= 1 /\ -1 <= b <= 1 /\ (x, y, z) = scale k (face t a b).
Proof.
  intros NZ.
  assert (C : (0 < x /\ - x <= y <= x /\ - x <= z <= x) \/ (0 < - x /\ x <= y <= - x /\ x <= z <= - x)
    \/ (0 < y /\ - y <= x <= y /\ - y <= z <= y) \/ (0 < - y /\ y <= x <= - y /\ y <= z <= - y)
    \/ (0 < z /\ - z <= x <= z /\ - z <= y <= z) \/ (0 < - z /\ z <= x <= - z /\ z <= y <= - z)).
  { assert (N0 : x <> 0 \/ y <> 0 \/ z <> 0).
    { destruct (Req_dec x 0) as [X0|]; auto. destruct (Req_dec y 0) as [Y0|]; auto. destruct (Req_dec z 0) as [Z0|]; auto. exfalso. apply NZ. now rewrite X0, Y0, Z0. }
    assert (Q : forall v w, Rabs w <= Rabs v -> (0 < v -> - v <= w <= v) /\ (v < 0 -> v <= w <= - v)).
    { clear. intros v w H. pose proof (Rle_abs w) as H1. pose proof (Rle_abs (- w)) as H2. rewrite Rabs_Ropp in H2.
      split; intros Hv; [rewrite (Rabs_right v) in H by lra|rewrite (Rabs_left v) in H by lra]; lra. }
    assert (B : forall v w, v = 0 -> Rabs w <= Rabs v -> w = 0).
    { clear. intros v w -> H. rewrite Rabs_R0 in H. pose proof (Rle_abs w) as H1. pose proof (Rle_abs (- w)) as H2. rewrite Rabs_Ropp in H2. lra. }
    assert (M : (Rabs y <= Rabs x /\ Rabs z <= Rabs x) \/ (Rabs x <= Rabs y /\ Rabs z <= Rabs y) \/ (Rabs x <= Rabs z /\ Rabs y <= Rabs z)).
    { destruct (Rle_dec (Rabs y) (Rabs x)) as [D1|D1], (Rle_dec (Rabs z) (Rabs x)) as [D2|D2], (Rle_dec (Rabs z) (Rabs y)) as [D3|D3];
        first [left; lra|right; left; lra|right; right; lra]. }
    destruct M as [[M1 M2]|[[M1 M2]|[M1 M2]]]; destruct (Q _ _ M1) as [Q1 Q2]; destruct (Q _ _ M2) as [Q3 Q4].
    - destruct (Rtotal_order x 0) as [L|[L|L]]; [right; left; split; [lra|auto]| |left; auto].
      exfalso. pose proof (B _ _ L M1). pose proof (B _ _ L M2). destruct N0 as [N|[N|N]]; contradiction.
    - destruct (Rtotal_order y 0) as [L|[L|L]]; [do 3 right; left; split; [lra|auto]| |do 2 right; left; auto].
      exfalso. pose proof (B _ _ L M1). pose proof (B _ _ L M2). destruct N0 as [N|[N|N]]; contradiction.
    - destruct (Rtotal_order z 0) as [L|[L|L]]; [do 5 right; split; [lra|auto]| |do 4 right; left; auto].
      exfalso. pose proof (B _ _ L M1). pose proof (B _ _ L M2). destruct N0 as [N|[N|N]]; contradiction. }
  destruct C as [(K & A & B)|[(K & A & B)|[(K & A & B)|[(K & A & B)|[(K & A & B)|(K & A & B)]]]]].
  - exists 0%Z, x, (y / x), (z / x). split; [lia|]. split; auto. split; [apply frac; lra|]. split; [apply frac; lra|]. cbn [face scale]. apply t3; field; lra.
  - exists 3%Z, (- x), (- z / - x), (- y / - x). split; [lia|]. split; auto. split; [apply frac; lra|]. split; [apply frac; lra|]. cbn [face scale]. apply t3; field; lra.
  - exists 1%Z, y, (- x / y), (z / y). split; [lia|]. split; auto. split; [apply frac; lra|]. split; [apply frac; lra|]. cbn [face scale]. apply t3; field; lra.
  - exists 4%Z, (- y), (- z / - y), (x / - y). split; [lia|]. split; auto. split; [apply frac; lra|]. split; [apply frac; lra|]. cbn [face scale]. apply t3; field; lra.
  - exists 2%Z, z, (- x / z), (- y / z). split; [lia|]. split; auto. split; [apply frac; lra|]. split; [apply frac; lra|]. cbn [face scale]. apply t3; field; lra.
  - exists 5%Z, (- z), (y / - z), (x / - z). split; [lia|]. split; auto. split; [apply frac; lra|]. split; [apply frac; lra|]. cbn [face scale]. apply t3; field; lra.
Qed.

Lemma face_unique t t' k k' a b a' b' : (0 <= t < 6)%Z -> (0 <= t' < 6)%Z -> 0 < k -> 0 < k' ->
  -1 < a < 1 -> -1 < b < 1 -> -1 < a' < 1 -> -1 < b' < 1 -> scale k (face t a b) = scale k' (face t' a' b') ->
  t = t' /\ k = k' /\ a = a' /\ b = b'.
Proof.
  intros Ht Ht' Hk Hk' Ha Hb Ha' Hb' E.
  assert (P1 : - k < k * a < k) by nra. assert (P2 : - k < k * b < k) by nra.
  assert (P3 : - k' < k' * a' < k') by nra. assert (P4 : - k' < k' * b' < k') by nra.
  assert (C : (t = 0 \/ t = 1 \/ t = 2 \/ t = 3 \/ t = 4 \/ t = 5)%Z) by lia.
  assert (C' : (t' = 0 \/ t' = 1 \/ t' = 2 \/ t' = 3 \/ t' = 4 \/ t' = 5)%Z) by lia.
  assert (F : t = t' /\ k = k' /\ k * a = k' * a' /\ k * b = k' * b').
  { repeat (destruct C as [C|C]); repeat (destruct C' as [C'|C']); subst t t'; cbn [face scale] in E; injection E as E1 E2 E3;
      solve [exfalso; lra|split; [reflexivity|lra]]. }
  destruct F as (-> & -> & Fa & Fb). split; auto. split; auto. split; apply Rmult_eq_reg_l with k'; lra.
Qed.

Lemma zlen_combine {A B} (a : list A) (b : list B) : zlen (combine a b) = Z.min (zlen a) (zlen b).
Proof. unfold zlen. rewrite combine_length. lia. Qed.
Lemma zget_combine {A B} (a : list A) (b : list B) i :
  zget (combine a b) i = match zget a i, zget b i with Some u, Some v => Some (u, v) | _, _ => None end.
Proof.
  revert b i. induction a as [|u a IH]; intros b i; [cbn [combine]; rewrite !zget_nil; reflexivity|].
  destruct b as [|v b]; [cbn [combine]; rewrite !zget_nil; destruct (zget (u :: a) i); reflexivity|]. cbn [combine].
  destruct (Z.lt_trichotomy i 0) as [L|[->|L]].
  - unfold zget. destruct (Z.ltb_spec i 0); [reflexivity|lia].
  - rewrite !zget_cons_0. reflexivity.
  - rewrite !zget_cons_pos by lia. apply IH.
Qed.
