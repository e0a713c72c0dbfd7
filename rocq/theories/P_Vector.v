(** * Proofs about the regridding of vector fields *)
From Coq Require Import Reals Lra Lia.
From Verif Require Import Base Loops Vec Lst M_Interp M_Runoff Spec_Interp P_Interp P_Interp2 M_Vert M_Fregrid P_Fregrid P_Fregrid2 M_Vector Spec_Vector.
Local Open Scope R_scope.

Definition okb (missing x y : R) : bool := if Req_EM_T x missing then false else if Req_EM_T y missing then false else true.
Lemma both_valid_okb m x y : both_valid m x y = okb m x y.
Proof. unfold both_valid, okb, reqb. destruct (Req_EM_T x m), (Req_EM_T y m); reflexivity. Qed.
Lemma okb_true m x y : okb m x y = true <-> x <> m /\ y <> m.
Proof. unfold okb. destruct (Req_EM_T x m), (Req_EM_T y m); split; try discriminate; tauto. Qed.

Lemma rotate_run m sgn r n u v U V : (0 <= n)%Z -> wf_rotation r n -> vec u n U -> vec v n V ->
  exists u' v', rotate m sgn r n u v = Ok (u', v')
    /\ vec u' n (fun i => if okb m (U i) (V i) then U i * at_ (r_cos r) i - sgn * (V i * at_ (r_sin r) i) else U i)
    /\ vec v' n (fun i => if okb m (U i) (V i) then sgn * (U i * at_ (r_sin r) i) + V i * at_ (r_cos r) i else V i).
Proof.
  intros Hn (LC & LS & _ & OFF) HU HV. unfold rotate. destruct (r_on r).
  - match goal with |- context [ofor 0 n ?f _] => destruct (ofor_inv (fun k st =>
      vec (fst st) n (fun i => if (i <? k)%Z then (if okb m (U i) (V i) then U i * at_ (r_cos r) i - sgn * (V i * at_ (r_sin r) i) else U i) else U i)
      /\ vec (snd st) n (fun i => if (i <? k)%Z then (if okb m (U i) (V i) then sgn * (U i * at_ (r_sin r) i) + V i * at_ (r_cos r) i else V i) else V i)) f 0 n (u, v) Hn) as ((u', v') & E & A & B) end.
    + cbn [fst snd]. split; (eapply vec_ext; [|eassumption]); intros i Hi; cbn beta; rewrite (proj2 (Z.ltb_ge i 0)) by lia; reflexivity.
    + intros k (u1, v1) Hk (A & B). cbn [fst snd] in A, B. rewrite (vec_get _ _ _ k A), (vec_get _ _ _ k B) by lia. cbn [bind]. rewrite Z.ltb_irrefl, both_valid_okb.
      destruct (okb m (U k) (V k)) eqn:EO.
      * rewrite !get_at by lia. cbn [bind].
        destruct (vec_set u1 n _ (fun i => if (i <? k + 1)%Z then (if okb m (U i) (V i) then U i * at_ (r_cos r) i - sgn * (V i * at_ (r_sin r) i) else U i) else U i) k (U k * at_ (r_cos r) k - sgn * (V k * at_ (r_sin r) k)) A) as (u2 & E1 & A2); [lia| |].
        { intros i Hi. destruct (Z.eqb_spec i k) as [->|N]; [rewrite (proj2 (Z.ltb_lt k (k + 1))), EO by lia; reflexivity|]. destruct (Z.ltb_spec i k), (Z.ltb_spec i (k + 1)); auto; lia. }
        destruct (vec_set v1 n _ (fun i => if (i <? k + 1)%Z then (if okb m (U i) (V i) then sgn * (U i * at_ (r_sin r) i) + V i * at_ (r_cos r) i else V i) else V i) k (sgn * (U k * at_ (r_sin r) k) + V k * at_ (r_cos r) k) B) as (v2 & E2 & B2); [lia| |].
        { intros i Hi. destruct (Z.eqb_spec i k) as [->|N]; [rewrite (proj2 (Z.ltb_lt k (k + 1))), EO by lia; reflexivity|]. destruct (Z.ltb_spec i k), (Z.ltb_spec i (k + 1)); auto; lia. }
        rewrite E1. cbn [bind]. rewrite E2. cbn [bind]. eexists. split; [reflexivity|]. cbn [fst snd]. auto.
      * eexists. split; [reflexivity|]. cbn [fst snd]. split; (eapply vec_ext; [|eassumption]); intros i Hi; cbn beta; destruct (Z.ltb_spec i k), (Z.ltb_spec i (k + 1)); auto; try lia; assert (i = k) as -> by lia; rewrite EO; reflexivity.
    + rewrite E. exists u', v'. cbn [fst snd] in A, B. split; auto. split; (eapply vec_ext; [|eassumption]); intros i Hi; cbn beta; rewrite (proj2 (Z.ltb_lt i (0 + n))) by lia; reflexivity.
  - exists u, v. split; auto. split; (eapply vec_ext; [|eassumption]); intros i Hi; cbn beta; destruct (OFF eq_refl i Hi) as (-> & ->); destruct (okb m (U i) (V i)); lra.
Qed.

Lemma unit_abs c s : c ^ 2 + s ^ 2 = 1 -> Rabs c <= 1 /\ Rabs s <= 1.
Proof. intros H. split; apply Rabs_le; split; nra. Qed.
Lemma turned_small c s x y m : c ^ 2 + s ^ 2 = 1 -> Rabs x + Rabs y < Rabs m -> Rabs (east c s x y) < Rabs m /\ Rabs (north c s x y) < Rabs m.
Proof.
  intros H B. destruct (unit_abs c s H) as (C & S). unfold east, north.
  assert (P : forall a b, Rabs b <= 1 -> Rabs (a * b) <= Rabs a) by (intros a b Hb; rewrite Rabs_mult; rewrite <- (Rmult_1_r (Rabs a)) at 2; apply Rmult_le_compat_l; [apply Rabs_pos|exact Hb]).
  split; (eapply Rle_lt_trans; [apply Rabs_triang|]); rewrite ?Rabs_Ropp.
  - pose proof (P x c C). pose proof (P y s S). lra.
  - pose proof (P x s S). pose proof (P y c C). lra.
Qed.
Lemma small_okb m x y : Rabs x < Rabs m -> Rabs y < Rabs m -> okb m x y = true.
Proof. intros A B. apply okb_true. split; intros ->; lra. Qed.

(** Weighted means of values smaller than a bound. *)
Lemma vmean_small f l b : l <> [] -> (forall c, In c l -> 0 < x_a c /\ Rabs (f c) < b) -> 0 < rsum x_a l /\ Rabs (vmean f l) < b.
Proof.
  intros NE H. assert (P : 0 < rsum x_a l) by (apply rsum_pos; auto; intros c Hc; apply H; auto). split; auto.
  assert (L : 0 < rsum (fun c => x_a c * (b - f c)) l /\ 0 < rsum (fun c => x_a c * (b + f c)) l).
  { split; apply rsum_pos; auto; intros c Hc; destruct (H c Hc) as (A & B); apply Rmult_lt_0_compat; auto; apply Rabs_def2 in B; lra. }
  assert (E1 : rsum (fun c => x_a c * (b - f c)) l = b * rsum x_a l - rsum (fun c => x_a c * f c) l).
  { rewrite (rsum_ext _ (fun c => b * x_a c + (-1) * (x_a c * f c))) by (intros; ring). rewrite rsum_plus, !rsum_scal. ring. }
  assert (E2 : rsum (fun c => x_a c * (b + f c)) l = b * rsum x_a l + rsum (fun c => x_a c * f c) l).
  { rewrite (rsum_ext _ (fun c => b * x_a c + x_a c * f c)) by (intros; ring). rewrite rsum_plus, rsum_scal. ring. }
  rewrite E1, E2 in L. unfold vmean. apply Rabs_def1.
  - apply (Rmult_lt_reg_r (rsum x_a l)); auto. unfold Rdiv. rewrite Rmult_assoc, Rinv_l, Rmult_1_r by (apply Rgt_not_eq; auto). lra.
  - apply (Rmult_lt_reg_r (rsum x_a l)); auto. unfold Rdiv. rewrite Rmult_assoc, Rinv_l, Rmult_1_r by (apply Rgt_not_eq; auto). lra.
Qed.

(** Adding up contributions. *)
Lemma vadd_all (f : list R * list R * list R -> xc -> outcome (list R * list R * list R)) (ok : xc -> bool) (key : xc -> Z) (p q : xc -> R) n l : forall U V A u v a, vec u n U -> vec v n V -> vec a n A ->
  (forall c, In c l -> (0 <= key c < n)%Z) ->
  (forall c u v a, In c l -> f (u, v, a) c = if ok c then do d <- oget u (key c) ; do u <- oset u (key c) (d + p c * x_a c) ; do d <- oget v (key c) ; do v <- oset v (key c) (d + q c * x_a c) ; do d <- oget a (key c) ; do a <- oset a (key c) (d + x_a c) ; Ok (u, v, a) else Ok (u, v, a)) ->
  exists u' v' a', ofold f l (u, v, a) = Ok (u', v', a')
    /\ vec u' n (fun i => U i + rsum (fun c => x_a c * p c) (filter (fun c => (key c =? i)%Z && ok c) l))
    /\ vec v' n (fun i => V i + rsum (fun c => x_a c * q c) (filter (fun c => (key c =? i)%Z && ok c) l))
    /\ vec a' n (fun i => A i + rsum x_a (filter (fun c => (key c =? i)%Z && ok c) l)).
Proof.
  induction l as [|c l IH]; intros U V A u v a HU HV HA HK HF.
  - exists u, v, a. split; auto. cbn. split; [|split]; (eapply vec_ext; [|eassumption]); intros; cbn; lra.
  - cbn [ofold]. rewrite HF by (now left). pose proof (HK c (or_introl eq_refl)) as Hc.
    assert (HK' : forall c0, In c0 l -> (0 <= key c0 < n)%Z) by (intros; apply HK; now right).
    assert (HF' : forall c0 u0 v0 a0, In c0 l -> f (u0, v0, a0) c0 = if ok c0 then do d <- oget u0 (key c0) ; do u <- oset u0 (key c0) (d + p c0 * x_a c0) ; do d <- oget v0 (key c0) ; do v <- oset v0 (key c0) (d + q c0 * x_a c0) ; do d <- oget a0 (key c0) ; do a <- oset a0 (key c0) (d + x_a c0) ; Ok (u, v, a) else Ok (u0, v0, a0)) by (intros; apply HF; now right).
    destruct (ok c) eqn:EO.
    + rewrite (vec_get _ _ _ _ HU) by auto. cbn [bind].
      assert (ST : forall g G x, vec g n G -> exists g', oset g (key c) (G (key c) + x) = Ok g' /\ vec g' n (fun i => if (key c =? i)%Z then G i + x else G i)).
      { intros g G x Hg. apply (vec_set g n G); auto. intros i Hi. destruct (Z.eqb_spec (key c) i), (Z.eqb_spec i (key c)); subst; auto; lia. }
      destruct (ST u U (p c * x_a c) HU) as (u1 & -> & U1). cbn [bind]. rewrite (vec_get _ _ _ _ HV) by auto. cbn [bind]. destruct (ST v V (q c * x_a c) HV) as (v1 & -> & V1). cbn [bind].
      rewrite (vec_get _ _ _ _ HA) by auto. cbn [bind]. destruct (ST a A (x_a c) HA) as (a1 & -> & A1). cbn [bind].
      destruct (IH _ _ _ _ _ _ U1 V1 A1 HK' HF') as (u' & v' & a' & -> & G1 & G2 & G3). exists u', v', a'. split; auto.
      split; [|split]; (eapply vec_ext; [|eassumption]); intros i Hi; cbn [filter]; rewrite EO, andb_true_r; destruct (key c =? i)%Z; rewrite ?rsum_cons; lra.
    + cbn [bind]. destruct (IH _ _ _ _ _ _ HU HV HA HK' HF') as (u' & v' & a' & -> & G1 & G2 & G3). exists u', v', a'. split; auto.
      split; [|split]; (eapply vec_ext; [|eassumption]); intros i Hi; cbn [filter]; rewrite EO, andb_false_r; reflexivity.
Qed.
Lemma vdivide_run m n a u v A U V : (0 <= n)%Z -> vec a n A -> vec u n U -> vec v n V ->
  exists u' v', vdivide m n a a u v = Ok (u', v') /\ vec u' n (fun i => if rlt 0 (A i) then U i / A i else m) /\ vec v' n (fun i => if rlt 0 (A i) then V i / A i else m).
Proof.
  intros Hn HA HU HV. unfold vdivide.
  match goal with |- context [ofor 0 n ?f _] => destruct (ofor_inv (fun k st =>
    vec (fst st) n (fun i => if (i <? k)%Z then (if rlt 0 (A i) then U i / A i else m) else U i) /\ vec (snd st) n (fun i => if (i <? k)%Z then (if rlt 0 (A i) then V i / A i else m) else V i)) f 0 n (u, v) Hn) as ((u', v') & E & F & G) end.
  - cbn [fst snd]. split; (eapply vec_ext; [|eassumption]); intros i Hi; cbn beta; rewrite (proj2 (Z.ltb_ge i 0)) by lia; reflexivity.
  - intros k (u1, v1) Hk (F & G). cbn [fst snd] in F, G. rewrite (vec_get _ _ _ k HA) by lia. cbn [bind].
    assert (ST : forall g (W : Z -> R) x, vec g n (fun i => if (i <? k)%Z then (if rlt 0 (A i) then W i / A i else m) else W i) -> x = (if rlt 0 (A k) then W k / A k else m) ->
      exists g', oset g k x = Ok g' /\ vec g' n (fun i => if (i <? k + 1)%Z then (if rlt 0 (A i) then W i / A i else m) else W i)).
    { intros g W x Hg ->. apply (vec_set g n _ _ _ _ Hg); [lia|]. intros i Hi. destruct (Z.eqb_spec i k) as [->|N]; [rewrite (proj2 (Z.ltb_lt k (k + 1))) by lia; reflexivity|]. destruct (Z.ltb_spec i k), (Z.ltb_spec i (k + 1)); auto; lia. }
    destruct (rlt 0 (A k)) eqn:EA.
    + rewrite (vec_get _ _ _ k F) by lia. cbn [bind]. rewrite Z.ltb_irrefl. destruct (ST u1 U (U k / A k) F) as (u2 & -> & F2); [reflexivity|]. cbn [bind].
      rewrite (vec_get _ _ _ k G) by lia. cbn [bind]. rewrite Z.ltb_irrefl. destruct (ST v1 V (V k / A k) G) as (v2 & -> & G2); [reflexivity|]. cbn [bind]. eexists. split; [reflexivity|]. auto.
    + destruct (ST u1 U m F) as (u2 & -> & F2); [reflexivity|]. cbn [bind]. destruct (ST v1 V m G) as (v2 & -> & G2); [reflexivity|]. cbn [bind]. eexists. split; [reflexivity|]. auto.
  - rewrite E. exists u', v'. cbn [fst snd] in F, G. split; auto. split; (eapply vec_ext; [|eassumption]); intros i Hi; cbn beta; rewrite (proj2 (Z.ltb_lt i (0 + n))) by lia; reflexivity.
Qed.
