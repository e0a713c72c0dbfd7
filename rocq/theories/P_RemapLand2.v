(** * Proofs about remap_land: the nearest source cell *)
From Coq Require Import Reals Lra.
From Verif Require Import Base Loops Vec Grid2 M_Interp M_RemapLand Spec_Interp P_Interp Spec_RemapLand P_RemapLand.
Open Scope Z_scope.

(** The half-angle expression is a quarter of the squared chord. *)
Lemma haversine lon1 lat1 lon2 lat2 :
  (4 * (sin ((lat1 - lat2) / 2) * sin ((lat1 - lat2) / 2) +
     cos lat1 * cos lat2 * (sin ((lon1 - lon2) / 2) * sin ((lon1 - lon2) / 2))) = gap lon1 lat1 lon2 lat2)%R.
Proof.
  assert (forall t, 2 * (sin (t / 2) * sin (t / 2)) = 1 - cos t)%R as Hs.
  { intros t. replace (cos t) with (cos (2 * (t / 2))) by (f_equal; field). rewrite cos_2a_sin. ring. }
  pose proof (Hs (lat1 - lat2)%R) as H1. pose proof (Hs (lon1 - lon2)%R) as H2. rewrite cos_minus in H1, H2.
  unfold gap. pose proof (sin2_cos2 lat1) as A1. pose proof (sin2_cos2 lat2) as A2.
  pose proof (sin2_cos2 lon1) as B1. pose proof (sin2_cos2 lon2) as B2. unfold Rsqr in *.
  set (hs := (sin ((lat1 - lat2) / 2) * sin ((lat1 - lat2) / 2))%R) in *.
  set (ht := (sin ((lon1 - lon2) / 2) * sin ((lon1 - lon2) / 2))%R) in *.
  replace (4 * (hs + cos lat1 * cos lat2 * ht))%R with (2 * (2 * hs) + 2 * (cos lat1 * cos lat2) * (2 * ht))%R by ring.
  rewrite H1, H2.
  transitivity ((sin lat1 * sin lat1 + cos lat1 * cos lat1 * (sin lon1 * sin lon1 + cos lon1 * cos lon1)) +
    (sin lat2 * sin lat2 + cos lat2 * cos lat2 * (sin lon2 * sin lon2 + cos lon2 * cos lon2))
    - 2 * (sin lat1 * sin lat2) - 2 * (cos lat1 * cos lat2) * (cos lon1 * cos lon2 + sin lon1 * sin lon2))%R; [|ring].
  rewrite B1, B2, !Rmult_1_r, A1, A2. ring.
Qed.

Lemma gap_range lon1 lat1 lon2 lat2 : (0 <= gap lon1 lat1 lon2 lat2 <= 4)%R.
Proof.
  split; [unfold gap; repeat apply Rplus_le_le_0_compat; apply pow2_ge_0|]. unfold gap.
  pose proof (sin2_cos2 lat1) as A1. pose proof (sin2_cos2 lat2) as A2.
  pose proof (sin2_cos2 lon1) as B1. pose proof (sin2_cos2 lon2) as B2. unfold Rsqr in *.
  set (a := (cos lat1 * cos lon1)%R). set (b := (cos lat2 * cos lon2)%R). set (c := (cos lat1 * sin lon1)%R). set (d := (cos lat2 * sin lon2)%R).
  set (e := sin lat1). set (f := sin lat2).
  assert (a * a + c * c + e * e = 1)%R as E1.
  { unfold a, c, e. transitivity (cos lat1 * cos lat1 * (sin lon1 * sin lon1 + cos lon1 * cos lon1) + sin lat1 * sin lat1)%R; [ring|]. rewrite B1. lra. }
  assert (b * b + d * d + f * f = 1)%R as E2.
  { unfold b, d, f. transitivity (cos lat2 * cos lat2 * (sin lon2 * sin lon2 + cos lon2 * cos lon2) + sin lat2 * sin lat2)%R; [ring|]. rewrite B2. lra. }
  pose proof (pow2_ge_0 (a + b)). pose proof (pow2_ge_0 (c + d)). pose proof (pow2_ge_0 (e + f)). nra.
Qed.

Lemma asin_lt x y : (-1 <= x <= 1 -> -1 <= y <= 1 -> x < y -> asin x < asin y)%R.
Proof.
  intros Hx Hy H. destruct (Rlt_le_dec (asin x) (asin y)) as [|Hge]; auto. exfalso.
  pose proof (asin_bound x). pose proof (asin_bound y).
  assert (sin (asin y) <= sin (asin x))%R by (apply sin_incr_1; lra). rewrite !sin_asin in * by lra. lra.
Qed.

Lemma gcd_gap lon1 lat1 lon2 lat2 : great_circle_distance lon1 lat1 lon2 lat2 = (6371000 * (2 * asin (sqrt (gap lon1 lat1 lon2 lat2 / 4))))%R.
Proof. unfold great_circle_distance. do 4 f_equal. rewrite <- haversine. field. Qed.

Definition ang (g : R) : R := (6371000 * (2 * asin (sqrt (g / 4))))%R.
Lemma ang_lt g h : (0 <= g <= 4 -> 0 <= h <= 4 -> (ang g < ang h <-> g < h))%R.
Proof.
  intros Hg Hh.
  assert (forall g, 0 <= g <= 4 -> -1 <= sqrt (g / 4) <= 1)%R as HS.
  { intros t Ht. pose proof (sqrt_pos (t / 4)). split; [lra|]. rewrite <- sqrt_1. apply sqrt_le_1_alt. lra. }
  assert (forall g h, 0 <= g <= 4 -> 0 <= h <= 4 -> g < h -> ang g < ang h)%R as HL.
  { intros a b Ha Hb Hab. unfold ang. assert (asin (sqrt (a / 4)) < asin (sqrt (b / 4)))%R; [|lra].
    apply asin_lt; auto. apply sqrt_lt_1; lra. }
  split; [|apply HL; auto]. intros H. destruct (Rlt_le_dec g h) as [|[Hlt | ->]]; auto; [|lra].
  pose proof (HL h g Hh Hg Hlt). lra.
Qed.
Lemma ang_nonneg g : (0 <= g <= 4 -> 0 <= ang g)%R.
Proof.
  intros H. destruct (Req_dec g 0) as [->|Hn].
  - unfold ang. replace (0 / 4)%R with 0%R by field. rewrite sqrt_0, asin_0. lra.
  - assert (ang 0 < ang g)%R by (apply ang_lt; lra). unfold ang at 1 in H0. replace (0 / 4)%R with 0%R in H0 by field. rewrite sqrt_0, asin_0 in H0. lra.
Qed.

Section Search.
  Variables (nface npts : Z) (lon lat : list R) (mask : list Z) (M : Z -> Z) (x y : R).
  Hypothesis Hf : 0 <= nface.
  Hypothesis Hp : 0 < npts.
  Hypothesis LL : zlen lon = nface * npts.
  Hypothesis LA : zlen lat = nface * npts.
  Hypothesis HM : vec mask (nface * npts) M.

  Definition sgap (l : Z) : R := gap x y (at_ lon l) (at_ lat l).
  (** [l] is the first of the points below [n] with the smallest distance. *)
  Definition best (n l : Z) : Prop := 0 <= l < n /\ M l <> 0 /\ forall l', 0 <= l' < n -> M l' <> 0 -> (sgap l <= sgap l')%R /\ (l' < l -> (sgap l < sgap l')%R).
  Definition search_ok (n : Z) (st : R * Z * Z) : Prop :=
    let '(d, f, i) := st in
    (d = (-1)%R /\ forall l, 0 <= l < n -> M l = 0) \/
    (best n (f * npts + i) /\ 0 <= i < npts /\ 0 <= f /\ d = ang (sgap (f * npts + i))).

  Lemma search_run :
    (exists f i, search_point nface npts lon lat mask x y = Ok (f, i) /\ 0 <= f < nface /\ 0 <= i < npts /\ best (nface * npts) (f * npts + i)) \/
    (search_point nface npts lon lat mask x y = Err 2 /\ forall l, 0 <= l < nface * npts -> M l = 0).
  Proof.
    unfold search_point.
    match goal with |- context [ofor 0 nface (fun st m => ofor 0 npts (@?b m) st) ?s] =>
      destruct (ofor_inv (fun m st => search_ok (m * npts) st) (fun st m => ofor 0 npts (b m) st) 0 nface s Hf) as (st & E & HI) end.
    - left. split; auto. intros; lia.
    - intros m st Hm Hok. rewrite Z.add_0_l in Hm.
      match goal with |- exists s', ofor 0 npts ?b st = Ok s' /\ _ => destruct (ofor_inv (fun i st => search_ok (m * npts + i) st) b 0 npts st) as (st' & E & HI) end.
      + lia.
      + now rewrite Z.add_0_r.
      + intros i ((d, f), j) Hi Hs. rewrite Z.add_0_l in Hi. pose proof (rowmajor_range nface npts m i ltac:(lia) ltac:(lia)) as Hr.
        rewrite (vec_get _ _ _ _ HM) by lia. cbn [bind]. destruct (Z.eqb_spec (M (m * npts + i)) 0) as [E0|E0].
        { eexists; split; [reflexivity|]. rewrite Z.add_assoc. destruct Hs as [[-> Hn] | (Hb & Hj & Hf0 & ->)].
          - left. split; auto. intros l Hl. destruct (Z.eq_dec l (m * npts + i)) as [->|]; auto. apply Hn. lia.
          - right. split; auto. destruct Hb as (B1 & B2 & B3). split; [lia|]. split; auto.
            intros l' Hl' Hm'. apply B3; auto. destruct (Z.eq_dec l' (m * npts + i)) as [->|]; [congruence|lia]. }
        rewrite (get_at lon) by lia. cbn [bind]. rewrite (get_at lat) by lia. cbn [bind].
        rewrite gcd_gap. change (6371000 * (2 * asin (sqrt (gap x y (at_ lon (m * npts + i)) (at_ lat (m * npts + i)) / 4))))%R with (ang (sgap (m * npts + i))).
        pose proof (gap_range x y (at_ lon (m * npts + i)) (at_ lat (m * npts + i))) as Hgr. fold (sgap (m * npts + i)) in Hgr.
        destruct Hs as [[-> Hn] | (Hb & Hj & Hf0 & ->)].
        * destruct (rlt_spec (-1) 0) as [_|]; [|lra]. cbn [orb]. eexists; split; [reflexivity|]. right. split; [|split; [lia|split; [lia|auto]]].
          split; [lia|]. split; auto. intros l' Hl' Hm'. assert (l' = m * npts + i) as ->; [|split; [lra|lia]].
          destruct (Z.eq_dec l' (m * npts + i)); auto. exfalso. apply Hm', Hn. lia.
        * pose proof (gap_range x y (at_ lon (f * npts + j)) (at_ lat (f * npts + j))) as Hgf. fold (sgap (f * npts + j)) in Hgf.
          pose proof (ang_nonneg _ Hgf) as H0. destruct (rlt_spec (ang (sgap (f * npts + j))) 0); [lra|]. cbn [orb].
          destruct Hb as (B1 & B2 & B3).
          destruct (rlt_spec (ang (sgap (m * npts + i))) (ang (sgap (f * npts + j)))) as [Hlt|Hge].
          -- apply (proj1 (ang_lt _ _ Hgr Hgf)) in Hlt. eexists; split; [reflexivity|]. right. split; [|split; [lia|split; [lia|auto]]].
             split; [lia|]. split; auto. intros l' Hl' Hm'. destruct (Z.eq_dec l' (m * npts + i)) as [->|Hne]; [split; [lra|lia]|].
             destruct (B3 l' ltac:(lia) Hm') as [B4 _]. split; [lra|]. intros _. lra.
          -- eexists; split; [reflexivity|]. right. split; [|split; [lia|split; [lia|auto]]]. split; [lia|]. split; auto.
             intros l' Hl' Hm'. destruct (Z.eq_dec l' (m * npts + i)) as [->|Hne].
             ++ split; [|lia]. apply Rnot_lt_le. intros Hc. apply Hge. now apply ang_lt.
             ++ apply B3; auto. lia.
      + exists st'. split; auto. rewrite Z.add_0_l in HI. now replace ((m + 1) * npts) with (m * npts + npts) by ring.
    - rewrite E. cbn [bind]. destruct st as ((d, f), i). rewrite Z.add_0_l in HI. destruct HI as [[-> Hn] | (Hb & Hi & Hf0 & ->)].
      + right. destruct (rlt_spec (-1) 0) as [_|]; [|lra]. auto.
      + left. pose proof (gap_range x y (at_ lon (f * npts + i)) (at_ lat (f * npts + i))) as Hgf. fold (sgap (f * npts + i)) in Hgf.
        pose proof (ang_nonneg _ Hgf) as H0. destruct (rlt_spec (ang (sgap (f * npts + i))) 0); [lra|].
        exists f, i. split; [reflexivity|]. split; [destruct Hb as (B1 & _); nia|]. auto.
  Qed.

  Lemma best_unique n l l' : best n l -> best n l' -> l = l'.
  Proof.
    intros (A1 & A2 & A3) (B1 & B2 & B3). destruct (A3 l' B1 B2) as [C1 C2]. destruct (B3 l A1 A2) as [D1 D2].
    destruct (Z.lt_trichotomy l l') as [H|[H|H]]; auto; [specialize (D2 H)|specialize (C2 H)]; lra.
  Qed.
End Search.
