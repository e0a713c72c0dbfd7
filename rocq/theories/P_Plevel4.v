(** * Proofs about the interpolation to pressure levels: heights, temperature, humidity *)
From Coq Require Import Reals Lra Lia.
From Verif Require Import Base Loops M_Interp P_Interp M_Runoff M_Plevel Spec_Plevel P_Plevel P_Plevel2 P_Plevel3.
Open Scope Z_scope.

Lemma lv_cons_1 x l : lv (x :: l) 1 = x.
Proof. reflexivity. Qed.
Lemma lv_cons x l k : 1 <= k -> lv (x :: l) (k + 1) = lv l k.
Proof. intros. unfold lv. replace (Z.to_nat (k + 1 - 1)) with (S (Z.to_nat (k - 1))) by lia. reflexivity. Qed.

Lemma virtual_model t q : (t * (1 + d608 * q) * RDGAS = Rd * virtual t q)%R.
Proof. unfold virtual, d608, RDGAS, RVGAS, Rd. lra || (field; lra). Qed.

Lemma height_spec nlev flag zsurf temp sphum ph pf mask :
  good_half nlev ph -> inside nlev ph pf -> zlen temp = nlev -> zlen sphum = nlev -> zlen mask = nlev ->
  (flag = true \/ 0 < lv ph 1)%R -> (forall k, 1 <= k <= nlev -> lv mask k = 1%R) ->
  exists z, compute_height nlev flag zsurf temp sphum pf ph mask = Ok z /\ hydrostatic nlev zsurf temp sphum ph pf z.
Proof.
  intros H Hi Ht Hq Hm Hf Hmask. pose proof H as (Hn & Hl & H0 & Hmon). pose proof Hi as (Hlp & Hin).
  pose proof (inside_good nlev ph pf H Hi) as (_ & Hpos & _).
  set (tv k := virtual (lv temp k) (lv sphum k)).
  unfold compute_height.
  rewrite at_ok by lia. cbn [bind].
  rewrite flog_ok by (apply (good_half_pos nlev); [exact H|lia]). cbn [bind].
  match goal with |- exists z, bind (ofor 0 nlev ?body ?init) _ = _ /\ _ =>
    destruct (ofor_inv (fun n (st : R * R * list R) =>
      let '(zb, lpb, zf) := st in
      let top := nlev - n + 1 in
      zlen zf = n /\
      (n < nlev -> lpb = ln (lv ph top)) /\
      (n = 0 -> zb = (zsurf * GRAV)%R) /\
      (0 < n -> n < nlev -> (zb = GRAV * lv zf 1 + Rd * tv top * (ln (lv pf top) - ln (lv ph top)))%R) /\
      (0 < n -> (GRAV * (lv zf n - zsurf) = Rd * tv nlev * (ln (lv ph (nlev + 1)) - ln (lv pf nlev)))%R) /\
      forall k, top <= k < nlev ->
        (GRAV * (lv zf (k - top + 1) - lv zf (k - top + 2)) =
         Rd * (tv (k + 1)%Z * (ln (lv pf (k + 1)) - ln (lv ph (k + 1))) + tv k * (ln (lv ph (k + 1)) - ln (lv pf k))))%R)
      body 0 nlev init) as (((zb & lpb) & zf) & E & Hinv) end.
  - lia.
  - cbv zeta. repeat apply conj; try lia; try reflexivity.
    intros _. f_equal. f_equal. lia.
  - intros n ((zb & lpb) & zf) Hn' Hinv. cbv zeta in Hinv. destruct Hinv as (I1 & I2 & I3 & I4 & I5 & I6).
    set (k := nlev - n) in *. assert (Hk : 1 <= k <= nlev) by lia.
    rewrite at_ok by lia. cbn [bind]. rewrite (flog_ok (lv pf k)) by (apply Hpos; lia). cbn [bind].
    assert (Elpb : lpb = ln (lv ph (k + 1))) by (apply I2; lia).
    assert (EX : exists wta lpt, (if (k =? 1) && flag then Ok ((lpb - ln (lv pf k))%R, lpb)
        else do p <- at_ ph k ; do lpt <- flog p ; Ok ((ln (lv pf k) - lpt)%R, lpt)) = Ok (wta, lpt) /\
        (k <> 1 -> wta = (ln (lv pf k) - ln (lv ph k))%R /\ lpt = ln (lv ph k))).
    { destruct (Z.eqb_spec k 1) as [E1|E1]; cbn [andb].
      - destruct flag; [eexists _, _; split; [reflexivity|lia]|].
        rewrite at_ok by lia. cbn [bind]. rewrite flog_ok by (rewrite E1; destruct Hf; [discriminate|assumption]).
        eexists _, _; split; [reflexivity|lia].
      - rewrite at_ok by lia. cbn [bind]. rewrite flog_ok by (apply (good_half_pos nlev); [exact H|lia]).
        eexists _, _; split; [reflexivity|auto]. }
    destruct EX as (wta & lpt & EX & Hw).
    replace (Z.eqb (nlev - n) 1) with (Z.eqb k 1) by reflexivity.
    rewrite EX. cbn [bind]. rewrite !at_ok by lia. cbn [bind]. rewrite (Hmask k Hk).
    destruct (rlt_spec 1 0.01); [lra|]. cbn [bind].
    eexists; split; [reflexivity|]. cbv zeta. replace (nlev - (n + 1) + 1) with k by lia.
    rewrite virtual_model. fold (tv k).
    assert (Gne : (GRAV <> 0)%R) by (unfold GRAV; lra).
    assert (Ez : (GRAV * ((zb + Rd * tv k * (lpb - ln (lv pf k))) / GRAV) = zb + Rd * tv k * (lpb - ln (lv pf k)))%R) by (field; exact Gne).
    set (z := ((zb + Rd * tv k * (lpb - ln (lv pf k))) / GRAV)%R) in *.
    repeat apply conj.
    + unfold zlen in *. cbn [length]. lia.
    + intros. apply Hw. lia.
    + lia.
    + intros _ Hlt. destruct (Hw ltac:(lia)) as [-> _]. rewrite lv_cons_1. rewrite Ez. rewrite Elpb.
      replace (ln (lv pf k) - ln (lv ph k) + (ln (lv ph (k + 1)) - ln (lv pf k)))%R with (ln (lv ph (k + 1)) - ln (lv ph k))%R by ring. ring.
    + intros _. destruct (Z.eq_dec n 0) as [E0|E0].
      * replace (n + 1) with 1 by lia. rewrite lv_cons_1. rewrite Rmult_minus_distr_l, Ez. rewrite (I3 E0), Elpb.
        replace k with nlev by lia. ring.
      * rewrite lv_cons by lia. apply I5. lia.
    + intros j Hj. destruct (Z.eq_dec j k) as [-> |Hne].
      * replace (k - k + 1) with 1 by lia. replace (k - k + 2) with (1 + 1) by lia.
        rewrite lv_cons_1, lv_cons by lia. rewrite Rmult_minus_distr_l, Ez.
        rewrite (I4 ltac:(lia) ltac:(lia)). replace (nlev - n + 1) with (k + 1) by lia. rewrite Elpb. ring.
      * replace (j - k + 1) with (j - (k + 1) + 1 + 1) by lia. replace (j - k + 2) with (j - (k + 1) + 2 + 1) by lia.
        rewrite !lv_cons by lia. apply I6. lia.
  - match goal with |- exists z, bind ?x _ = _ /\ _ => replace x with (Ok (zb, lpb, zf)) by (symmetry; exact E) end.
    cbn [bind]. exists zf. split; [reflexivity|].
    replace (0 + nlev) with nlev in Hinv by lia. cbv zeta in Hinv. destruct Hinv as (I1 & _ & _ & _ & I5 & I6).
    split; [exact I1|]. split; [apply I5; lia|]. intros k Hk.
    specialize (I6 k ltac:(lia)). replace (k - (nlev - nlev + 1) + 1) with k in I6 by lia.
    replace (k - (nlev - nlev + 1) + 2) with (k + 1) in I6 by lia. exact I6.
Qed.

(** Heights increase upwards *)
Lemma heights_increase nlev zsurf temp sphum ph pf z : good_half nlev ph -> inside nlev ph pf ->
  hydrostatic nlev zsurf temp sphum ph pf z ->
  (forall k, 1 <= k <= nlev -> (0 < virtual (lv temp k) (lv sphum k))%R) ->
  (zsurf < lv z nlev)%R /\ forall k, 1 <= k < nlev -> (lv z (k + 1) < lv z k)%R.
Proof.
  intros H Hi (Hl & Hb & Hz) Ht. destruct Hi as (Hlp & Hin). pose proof H as (Hn & _).
  assert (Hg : (0 < grav)%R) by (unfold grav; lra). assert (Hr : (0 < Rd)%R) by (unfold Rd; lra).
  assert (L : forall k, 1 <= k <= nlev -> (ln (lv pf k) < ln (lv ph (k + 1)))%R).
  { intros k Hk. apply ln_increasing; [|apply Hin; exact Hk]. pose proof (good_half_nonneg nlev ph k H ltac:(lia)). specialize (Hin k Hk). lra. }
  assert (L2 : forall k, 1 < k <= nlev -> (ln (lv ph k) < ln (lv pf k))%R).
  { intros k Hk. apply ln_increasing; [apply (good_half_pos nlev); [exact H|lia]|apply Hin; lia]. }
  split.
  - pose proof (Ht nlev ltac:(lia)) as T. pose proof (L nlev ltac:(lia)) as L'.
    assert (0 < Rd * virtual (lv temp nlev) (lv sphum nlev) * (ln (lv ph (nlev + 1)) - ln (lv pf nlev)))%R by (apply Rmult_lt_0_compat; [apply Rmult_lt_0_compat; assumption|lra]).
    rewrite <- Hb in H0. nra.
  - intros k Hk. specialize (Hz k Hk). cbv zeta in Hz.
    pose proof (L k ltac:(lia)) as La. pose proof (L2 (k + 1) ltac:(lia)) as Lb.
    pose proof (Rmult_lt_0_compat _ (ln (lv pf (k + 1)) - ln (lv ph (k + 1))) (Ht (k + 1) ltac:(lia)) ltac:(lra)) as A.
    pose proof (Rmult_lt_0_compat _ (ln (lv ph (k + 1)) - ln (lv pf k)) (Ht k ltac:(lia)) ltac:(lra)) as B.
    pose proof (Rmult_lt_0_compat Rd _ Hr (Rplus_lt_0_compat _ _ A B)) as C. rewrite <- Hz in C. nra.
Qed.

(** Isothermal dry column *)
Lemma isothermal_levels nlev zsurf temp sphum ph pf z T : 1 <= nlev ->
  hydrostatic nlev zsurf temp sphum ph pf z ->
  (forall k, 1 <= k <= nlev -> lv temp k = T /\ lv sphum k = 0%R) ->
  forall k, 1 <= k <= nlev -> (grav * (lv z k - zsurf) = Rd * T * (ln (lv ph (nlev + 1)) - ln (lv pf k)))%R.
Proof.
  intros Hn (Hl & Hb & Hz) Hc.
  assert (V : forall k, 1 <= k <= nlev -> virtual (lv temp k) (lv sphum k) = T).
  { intros k Hk. destruct (Hc k Hk) as [-> ->]. unfold virtual. ring. }
  assert (D : forall n : nat, Z.of_nat n < nlev ->
    (grav * (lv z (nlev - Z.of_nat n) - zsurf) = Rd * T * (ln (lv ph (nlev + 1)) - ln (lv pf (nlev - Z.of_nat n))))%R).
  { induction n as [|n IH]; intros Hn'.
    - replace (nlev - Z.of_nat 0) with nlev by lia. cbv zeta in Hb. rewrite V in Hb by lia. exact Hb.
    - specialize (IH ltac:(lia)). specialize (Hz (nlev - Z.of_nat (S n)) ltac:(lia)). cbv zeta in Hz.
      replace (nlev - Z.of_nat (S n) + 1) with (nlev - Z.of_nat n) in Hz by lia.
      rewrite !V in Hz by lia. lra. }
  intros k Hk. specialize (D (Z.to_nat (nlev - k)) ltac:(lia)).
  replace (nlev - Z.of_nat (Z.to_nat (nlev - k))) with k in D by lia. exact D.
Qed.

(** The height of an output level *)
Lemma column_out_spec nlev flag zsurf temp sphum mask ph kbot p extrap :
  good_half nlev ph -> zlen temp = nlev -> zlen sphum = nlev -> zlen mask = nlev ->
  (flag = true \/ 0 < lv ph 1)%R -> (forall k, 1 <= k <= nlev -> lv mask k = 1%R) ->
  2 <= kbot <= nlev -> (0 < p)%R ->
  exists pf z, compute_pres_full nlev ph = Ok pf /\ inside nlev ph pf /\ hydrostatic nlev zsurf temp sphum ph pf z /\
    levels_of nlev flag zsurf temp sphum mask ph = Ok (Levels pf (map ln pf) z) /\
    ((p <= lv pf kbot)%R -> exists c t q h k,
       column_out extrap kbot (Levels pf (map ln pf) z) temp sphum p = Ok (c, t, q, h) /\ c_mask c = false /\
       interpolated pf temp kbot p t /\ interpolated pf sphum kbot p q /\
       2 <= k <= kbot /\ (p <= lv pf k)%R /\ (forall j, 2 <= j < k -> (lv pf j < p)%R) /\
       (grav * (h - lv z k) = Rd * ((virtual (lv temp k) (lv sphum k) + virtual t q) / 2) * (ln (lv pf k) - ln p))%R).
Proof.
  intros H Ht Hq Hm Hf Hmask Hb Hp. pose proof (pf_list_inside nlev ph H) as Hi. pose proof (inside_good nlev ph _ H Hi) as G.
  destruct (height_spec nlev flag zsurf temp sphum ph _ mask H Hi Ht Hq Hm Hf Hmask) as (z & Ez & Hz).
  exists (pf_list nlev ph), z. split; [apply compute_pres_full_ok; exact H|]. split; [exact Hi|]. split; [exact Hz|]. split.
  - unfold levels_of. rewrite compute_pres_full_ok by exact H. cbn [bind]. rewrite Ez. cbn [bind].
    rewrite (good_full_logs nlev) by exact G. reflexivity.
  - intros Hle. set (pf := pf_list nlev ph) in *.
    destruct (column_spec nlev pf kbot temp p G Hp Hb Ht) as (c & t & E1 & E2 & Hv & Hmk & Hix & _ & Et).
    destruct (column_spec nlev pf kbot sphum p G Hp Hb Hq) as (c' & q & E1' & E2' & Hv' & _).
    assert (c' = c) by congruence. subst c'.
    assert (Em : c_mask c = false).
    { destruct (c_mask c); [|reflexivity]. assert (lv pf kbot < p)%R by (apply Hmk; reflexivity). lra. }
    destruct (control_spec nlev pf kbot p G Hp Hb) as (k & f & m & E3 & Hk & _ & Hj & Hmm).
    rewrite E1 in E3. injection E3 as ->. cbn [c_mask c_index] in *. subst m.
    destruct Hz as (Hlz & Hz).
    eexists (Control k (Rmax (-0.5) (Rmin 1.5 f)) false), t, q, _, k. split; [|split; [reflexivity|split; [exact Hv|split; [exact Hv'|split; [exact Hk|split; [exact Hmm|split; [exact Hj|]]]]]]].
    + unfold column_out. cbn [v_lpf v_pfull v_height]. rewrite flog_ok by exact Hp. cbn [bind]. rewrite E1. cbn [bind]. rewrite E2. cbn [bind].
      unfold temp_extrap. cbn [c_mask]. replace (if extrap then Ok t else Ok t) with (Ok t) by (destruct extrap; reflexivity). cbn [bind].
      rewrite E2'. cbn [bind]. unfold q_extrap. cbn [c_mask]. replace (if extrap then Ok q else Ok q) with (Ok q) by (destruct extrap; reflexivity). cbn [bind].
      unfold height_out. cbn [c_index]. destruct G as (Hlp & _). rewrite !at_ok by (rewrite ?zlen_map; lia). cbn [bind]. reflexivity.
    + rewrite lv_map_ln by (destruct G as (Hlp & _); lia). unfold virtual, Rd, grav, RDGAS, RVGAS, GRAV. field_simplify_eq; try lra. 
Qed.
