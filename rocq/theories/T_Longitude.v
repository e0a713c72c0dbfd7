(** * C54: longitudes into a window, and unrolling of polygons *)
From Coq Require Import Reals Lra.
From Verif Require Import Base Loops Lst Vec M_Interp M_Clip M_Longitude Spec_Interp Spec_Clip Spec_Longitude P_Interp2 P_Clip P_Longitude.
Open Scope Z_scope.

(** The loop ends, and the result is in the window of 360 degrees; it is an equivalent longitude
    unless the longitude is within SMALL = 1e-4 degrees of an end of the window, when
    the start of the window is returned. *)
Theorem C54_in_range : forall lon strt, exists f0, forall fuel, (f0 <= fuel)%nat ->
  exists v, lon_in_range fuel lon strt = Ok v /\ (strt <= v <= strt + 360)%R /\
    (exists k, (Rabs (v - (lon + 360 * IZR k)) < 1 / 10000)%R) /\
    ((1 / 10000 <= Rabs (lon - strt))%R -> (1 / 10000 <= Rabs (lon - (strt + 360)))%R -> exists k, v = (lon + 360 * IZR k)%R).
Proof.
  intros lon strt. destruct (lir_ends lon strt) as (f0 & H). exists f0. intros fuel Hf. unfold lon_in_range, SMALL.
  destruct (rlt_cases (Rabs (lon - strt)) (1 / 10000)) as [[-> H1]|[-> H1]].
  - exists strt. split; auto. split; [lra|]. split; [|intros; lra]. exists 0. rewrite Rabs_minus_sym. replace (lon + 360 * IZR 0 - strt)%R with (lon - strt)%R by lra. auto.
  - destruct (rlt_cases (Rabs (lon - (strt + 360))) (1 / 10000)) as [[-> H2]|[-> H2]].
    + exists strt. split; auto. split; [lra|]. split; [|intros; lra]. exists (-1). rewrite Rabs_minus_sym. replace (lon + 360 * IZR (-1) - strt)%R with (lon - (strt + 360))%R by lra. auto.
    + destruct (H fuel Hf) as (v & E). exists v. split; auto. destruct (lir_shift _ _ _ _ E) as [B (k & ->)]. split; auto.
      split; [|eauto]. exists k. rewrite Rminus_diag_eq by auto. rewrite Rabs_R0. lra.
Qed.
(** Near the start the longitude itself changes. *)
Theorem C54_in_range_refuted : exists lon strt, forall fuel, exists v, lon_in_range fuel lon strt = Ok v /\ forall k, v <> (lon + 360 * IZR k)%R.
Proof.
  exists (1 / 20000)%R, 0%R. intros fuel. exists 0%R. split.
  - unfold lon_in_range, SMALL. rewrite rlt_t; auto. rewrite Rabs_right; lra.
  - intros k E. assert (B : (-1 < IZR k < 1)%R) by lra. destruct B as [B1 B2]. apply lt_IZR in B1. apply lt_IZR in B2. assert (k = 0) by lia. subst. lra.
Qed.

Lemma vec_zget {A} (d : A) (l : list A) : vec l (zlen l) (fun i => match zget l i with Some v => v | None => d end).
Proof. split; auto. intros i Hi. destruct (zget_in_range l i Hi) as (v & ->). reflexivity. Qed.
Lemma shift_map (Y S0 : Z -> R) c l : map (fun p : R * R => ((fst p + c)%R, snd p)) (map (fun i => (Y i, S0 i)) l) = map (fun i => ((Y i + c)%R, S0 i)) l.
Proof. rewrite map_map. reflexivity. Qed.

(** The tail of both routines *)
Lemma finish p n tlon (Y S0 : Z -> R) xs : (0 < p)%R -> exists s, recentres (2 * p) (xs / IZR n) tlon s /\
  (let L := map (fun i => (Y i, S0 i)) (zseq 0 n) in let dx := (xs / IZR n - tlon)%R in
   (if rlt dx (- p) then Ok (map (fun q : R * R => ((fst q + 2 * p)%R, snd q)) L) else if rlt p dx then Ok (map (fun q : R * R => ((fst q - 2 * p)%R, snd q)) L) else Ok L)
   = Ok (map (fun i => ((Y i + 2 * p * IZR s)%R, S0 i)) (zseq 0 n))).
Proof.
  intros Hp. exists (if rlt (xs / IZR n - tlon) (- p) then 1 else if rlt p (xs / IZR n - tlon) then -1 else 0). split; [apply recentre; auto|]. cbv zeta.
  destruct (rlt (xs / IZR n - tlon) (- p)); [|destruct (rlt p (xs / IZR n - tlon))]; f_equal; rewrite ?map_map; apply map_ext; intros i; cbn [fst snd]; f_equal; lra.
Qed.

Lemma nlt_RA a b : nlt RA a b = rlt a b.
Proof. exact (nlt_spec (PI / 2) PI (2 * PI) (1 / 1000000) (1 / 10000000000) a b). Qed.
Lemma nlt_DA a b : nlt DA a b = rlt a b.
Proof. exact (nlt_spec 90 180 360 SMALL 0 a b). Qed.

(** ** Polygons *)
Section AnyArith.
Variable A : arith.
Lemma pair_nopole cap fuel : forall (l : list (pt A)) i, (forall p, In p l -> at_pole A p = false) -> 0 <= i -> zlen l - i < Z.of_nat fuel -> pair_poles A fuel cap l i = Ok l.
Proof.
  induction fuel as [|fuel IH]; intros l i Hl Hi Hf; cbn [pair_poles].
  - destruct (Z.ltb_spec i (zlen l)); cbn [negb]; auto. lia.
  - destruct (Z.ltb_spec i (zlen l)); cbn [negb]; auto. destruct (zget_in_range l i) as (p & E); [lia|]. rewrite (proj2 (oget_Ok _ _ _) E). cbn [bind].
    rewrite Hl by (eapply zget_In; eauto). apply IH; auto; lia.
Qed.
Definition from (P : list (pt A)) (l : list (pt A)) : Prop := forall v, In v l -> exists p, In p P /\ fst v = fst p.
Lemma delete_in (l : list (pt A)) k v : In v (delete_vtx A l k) -> In v l.
Proof. unfold delete_vtx. intros H. apply in_app_or in H. destruct H as [H|H]; [eapply firstn_In; eauto|eapply skipn_In; eauto]. Qed.
Lemma insert_in cap (l l' : list (pt A)) k w v : insert_vtx A cap l k w = Ok l' -> In v l' -> In v l \/ v = w.
Proof.
  unfold insert_vtx. destruct (zlen l <? cap); [|discriminate]. intros E. injection E as <-. intros H. apply in_app_or in H. destruct H as [H|[H|H]]; auto; left; [eapply firstn_In; eauto|eapply skipn_In; eauto].
Qed.
Lemma pair_from P cap fuel : forall l i l', from P l -> pair_poles A fuel cap l i = Ok l' -> from P l'.
Proof.
  induction fuel as [|fuel IH]; intros l i l' Hl; cbn [pair_poles].
  - destruct (negb _); [|discriminate]. intros E. injection E as <-. auto.
  - destruct (negb _). { intros E. injection E as <-. auto. }
    destruct (oget l i) as [p| |] eqn:Ep; cbn [bind]; try discriminate. apply oget_Ok in Ep. pose proof (zget_In _ _ _ Ep) as Hp. clear Ep. destruct (at_pole A p); [|now apply IH].
    destruct (oget l ((i + zlen l - 1) mod zlen l)) as [m| |]; cbn [bind]; try discriminate. destruct (oget l ((i + 1) mod zlen l)) as [q| |]; cbn [bind]; try discriminate.
    destruct (_ && _). { apply IH. intros v Hv. apply Hl. eapply delete_in; eauto. }
    destruct (_ && _); [|now apply IH].
    destruct (insert_vtx A cap l i p) as [l1| |] eqn:E1; cbn [bind]; try discriminate. apply IH. intros v Hv. destruct (insert_in _ _ _ _ _ _ E1 Hv) as [H| ->]; auto.
Qed.
Lemma set_in (l l' : list (pt A)) i w v : oset l i w = Ok l' -> In v l' -> In v l \/ v = w.
Proof.
  intros E H. apply oset_Ok in E. destruct (In_zget _ _ H) as (j & Hj & Ej). destruct (Z.eq_dec j i) as [->|N].
  - rewrite (zget_zset_eq _ _ _ _ E) in Ej. injection Ej as <-. auto.
  - rewrite (zget_zset_ne _ _ _ _ _ E) in Ej by auto. left. eapply zget_In; eauto.
Qed.
Lemma pole_from P l i l' : from P l -> pole_lon A l i = Ok l' -> from P l'.
Proof.
  unfold from. intros Hl. unfold pole_lon. destruct (oget l i) as [p| |] eqn:Ep; cbn [bind]; try discriminate. destruct (at_pole A p); [|intros E; injection E as <-; auto].
  destruct (oget l ((i + zlen l - 1) mod zlen l)) as [m| |] eqn:Em; cbn [bind]; try discriminate. destruct (oget l ((i + 1) mod zlen l)) as [q| |] eqn:Eq; cbn [bind]; try discriminate.
  apply oget_Ok, zget_In in Ep, Em, Eq.
  set (p1 := if negb (M_Clip.neq A (snd m) (snd p)) then (fst m, snd p) else p). cbv zeta.
  assert (H1 : exists r, In r P /\ fst p1 = fst r) by (unfold p1; destruct (negb _); cbn [fst]; auto). clearbody p1.
  destruct (oset l i p1) as [l1| |] eqn:E1; cbn [bind]; try discriminate. intros E2 v Hv.
  destruct (set_in _ _ _ _ _ E2 Hv) as [Hv1| ->]; [|destruct (negb _); cbn [fst]; auto].
  destruct (set_in _ _ _ _ _ E1 Hv1) as [Hv2| ->]; auto.
Qed.
Lemma pole_nopole (l : list (pt A)) i : (forall p, In p l -> at_pole A p = false) -> 0 <= i < zlen l -> pole_lon A l i = Ok l.
Proof. intros Hl Hi. unfold pole_lon. destruct (zget_in_range l i Hi) as (p & E). rewrite (proj2 (oget_Ok _ _ _) E). cbn [bind]. rewrite Hl; auto. eapply zget_In; eauto. Qed.
Lemma poles_run (P l : list (pt A)) : from P l -> exists l', ofor 0 (zlen l) (pole_lon A) l = Ok l' /\ zlen l' = zlen l /\ from P l' /\ ((forall p, In p l -> at_pole A p = false) -> l' = l).
Proof.
  intros Hl. pose proof (zlen_nonneg l). match goal with |- context [ofor 0 ?N ?f ?s] => destruct (ofor_inv (fun _ l' => zlen l' = zlen l /\ from P l' /\ ((forall p, In p l -> at_pole A p = false) -> l' = l)) f 0 N s) as (l' & E & H1) end; auto.
  - intros i l1 Hi (L1 & F1 & N1). destruct (pole_lon_ok A l1 i ltac:(lia)) as (l2 & E2 & L2). exists l2. split; auto. split; [lia|]. split; [eapply pole_from; eauto|].
    intros N. rewrite (N1 N) in *. rewrite pole_nopole in E2 by (auto; lia). injection E2 as <-. auto.
  - exists l'. tauto.
Qed.
Lemma twin_from P cap (l : list (pt A)) is l' : from P l -> twin_poles A cap l is = Ok l' -> from P l'.
Proof.
  unfold from. intros Hl. induction is as [|i is IH]; cbn [twin_poles]. { intros E. injection E as <-. auto. }
  destruct (oget l i) as [p| |] eqn:Ep; cbn [bind]; try discriminate. destruct (oget l ((i + zlen l - 1) mod zlen l)) as [m| |] eqn:Em; cbn [bind]; try discriminate.
  destruct (_ || _); auto. apply oget_Ok, zget_In in Ep, Em. match goal with |- context [insert_vtx A cap l i ?w] => destruct (insert_vtx A cap l i w) as [l1| |] eqn:E1 end; cbn [bind]; try discriminate.
  intros E2 v Hv. destruct (insert_in _ _ _ _ _ _ E2 Hv) as [Hv1| ->]; [|cbn [fst]; auto]. destruct (insert_in _ _ _ _ _ _ E1 Hv1) as [Hv2| ->]; [|cbn [fst]]; auto.
Qed.
End AnyArith.

(** Longitude and latitude of vertex i *)
Definition lon (P : list point) (i : Z) : R := match zget P i with Some p => fst p | None => 0%R end.
Definition lat (P : list point) (i : Z) : R := match zget P i with Some p => snd p | None => 0%R end.
Lemma vec_lonlat P : vec P (zlen P) (fun i => (lon P i, lat P i)).
Proof. split; auto. intros i Hi. unfold lon, lat. destruct (zget_in_range P i Hi) as (v & ->). destruct v. reflexivity. Qed.
Lemma rsum_first (Y : Z -> R) n : 1 <= n -> (Y 0%Z + rsum Y (zseq 1 (n - 1)) = rsum Y (zseq 0 n))%R.
Proof. intros Hn. rewrite (zseq_S 0 n) by lia. reflexivity. Qed.

Lemma unwrap_ne (l : list point) (t : R) : l <> [] -> unwrap RA l t =
  (do st <- ofor (S := (list point * R)%type) 1 (zlen l - 1) (fun '(l, x_sum) i =>
        do p0 <- oget l i; do m <- oget l (i - 1)%Z;
        let dx := nsub RA (fst p0) (fst m) in
        let dx := if nlt RA dx (nsub RA (nzero RA) (npi RA)) then nadd RA dx (ntpi RA) else if nlt RA (npi RA) dx then nsub RA dx (ntpi RA) else dx in
        let x := nadd RA (fst m) dx in
        do l <- oset l i (x, snd p0);
        Ok (l, nadd RA x_sum x)) (l, lon l 0) ;
   let '(l, x_sum) := st in
   let dx := (x_sum / IZR (zlen l) - t)%R in if nlt RA dx (0 - PI)%R then Ok (map (fun q : point => ((fst q + 2 * PI)%R, snd q)) l) else if nlt RA PI dx then Ok (map (fun q : point => ((fst q - 2 * PI)%R, snd q)) l) else Ok l).
Proof. intros H. destruct l as [|p0 l]; [congruence|]. reflexivity. Qed.

(** fix_lon, for every polygon of at most 24 vertices (arrays of 50): the polygon is first
    turned into one (M) whose longitudes are among the given ones -- itself, if no vertex is
    at a pole and no side crosses one -- and if M can be unrolled, the result is M unrolled,
    moved as a whole by at most one turn so as to lie near tlon. *)
Theorem C54_fix_lon : forall P tlon, zlen P <= 24 ->
  exists M, (forall v, In v M -> exists p, In p P /\ fst v = fst p) /\
    ((forall p, In p P -> (Rabs (snd p) < PI / 2 - 1 / 1000000)%R) ->
     (forall i, 0 <= i < zlen P -> let d := Rabs (lon P i - lon P ((i + zlen P - 1) mod zlen P)) in (1 / 10000000000 <= Rabs (d - PI))%R) -> M = P) /\
    (M = [] -> fix_lon RA 50 P tlon = Ok []) /\
    forall turns, M <> [] -> unrolls (2 * PI) (zlen M) (lon M) turns ->
      exists s, recentres (2 * PI) (mean_of (zlen M) (fun i => lon M i + 2 * PI * IZR (turns i))%R) tlon s /\
        fix_lon RA 50 P tlon = Ok (map (fun i => ((lon M i + 2 * PI * IZR (turns i) + 2 * PI * IZR s)%R, lat M i)) (zseq 0 (zlen M))).
Proof.
  intros P tlon HP. unfold fix_lon. pose proof (zlen_nonneg P). assert (HP' : @zlen (pt RA) P <= 24) by exact HP. pose proof (@zlen_nonneg (pt RA) P).
  destruct (pair_ok RA 50 24 ltac:(lia) (2 * @length (pt RA) P + 2)%nat P 0 ltac:(lia) ltac:(lia) ltac:(lia)) as (l1 & E1 & L1). { unfold zlen. lia. }
  assert (F0 : from RA P P) by (intros v Hv; eauto). assert (F1 : from RA P l1) by (eapply pair_from; eauto).
  destruct (poles_run RA P l1 F1) as (l2 & E2 & L2 & F2 & N2).
  destruct (twin_ok RA 50 l2 (zseq 0 (zlen l2)) ltac:(lia)) as (l3 & E3 & L3). { intros i Hi. apply In_zseq in Hi. lia. }
  exists l3. split; [exact (twin_from RA P 50 l2 _ l3 F2 E3)|]. split; [|split].
  - intros HN HS.
    assert (NP : forall p, In p P -> at_pole RA p = false). { intros p Hp. unfold at_pole. cbn. destruct (Rle_dec _ _) as [Q|]; auto. specialize (HN p Hp). lra. }
    rewrite (pair_nopole RA 50) in E1 by (auto; unfold zlen; lia). injection E1 as <-. rewrite (N2 NP) in *. 
    assert (T : forall is, (forall i, In i is -> 0 <= i < zlen P) -> twin_poles RA 50 P is = Ok P).
    { induction is as [|i is IH]; intros Hi; cbn [twin_poles]; auto. assert (B : 0 <= i < zlen P) by (apply Hi; now left).
      pose proof (Z.mod_pos_bound (i + zlen P - 1) (zlen P) ltac:(lia)) as B2.
      change (pt RA) with point. rewrite (vec_get _ _ _ _ (vec_lonlat P) B). cbn [bind]. rewrite (vec_get _ _ _ _ (vec_lonlat P) B2). cbn [bind].
      rewrite !nlt_RA. cbn [fst snd nabs nadd nsub npi nsmall RA].
      specialize (HS i B). cbv zeta in HS. set (dx := (lon P i - lon P ((i + zlen P - 1) mod zlen P))%R) in *.
      rewrite (rlt_f (Rabs (dx + PI))), (rlt_f (Rabs (dx - PI))); [apply IH; intros; apply Hi; now right|..]; pose proof PI_RGT_0.
      - unfold Rabs in HS |- *. destruct (Rcase_abs dx); repeat destruct (Rcase_abs _); lra.
      - unfold Rabs in HS |- *. destruct (Rcase_abs dx); repeat destruct (Rcase_abs _); lra. }
    rewrite T in E3 by (intros i Hi; apply In_zseq in Hi; change (0 <= i < 0 + @zlen point P) in Hi; lia). injection E3 as <-. reflexivity.
  - intros ->. rewrite E1. cbn [bind]. rewrite E2. cbn [bind]. rewrite E3. reflexivity.
  - intros turns NE HU. rewrite E1. cbn [bind]. rewrite E2. cbn [bind]. rewrite E3. cbn [bind].
    assert (Hn : 1 <= zlen l3). { destruct l3 as [|q0 l3']; [elim NE; reflexivity|]. change (1 <= @zlen point (q0 :: l3')). rewrite zlen_cons. pose proof (@zlen_nonneg point l3'). lia. }
    set (Y := fun i => (lon l3 i + 2 * PI * IZR (turns i))%R).
    assert (X0 : lon l3 0 = Y 0). { unfold Y. rewrite (proj1 HU). lra. } rewrite (unwrap_ne l3 tlon NE), X0.
    pose proof (loop_run (PI / 2) PI (1 / 1000000) (1 / 10000000000) PI_RGT_0 (zlen l3) (lon l3) Y (lat l3) turns (fun i => eq_refl) HU l3 (Y 0) Hn (vec_lonlat l3)) as LR.
    destruct (finish PI (zlen l3) tlon Y (lat l3) (Y 0 + rsum Y (zseq 1 (zlen l3 - 1))) PI_RGT_0) as (s & HS & EF). rewrite rsum_first in HS, EF, LR by auto.
    exists s. split; [exact HS|].
    etransitivity; [apply (f_equal (fun x => bind x _)); exact LR|]. cbn [bind]. cbv zeta in EF |- *. rewrite !nlt_RA.
    rewrite zlen_map, zlen_zseq by lia. rewrite Rminus_0_l. exact EF.
Qed.

(** adjust_lon of river_regrid *)
Theorem C54_adjust : forall x tlon turns, zlen x = 4 -> unrolls (2 * PI) 4 (at_ x) turns ->
  exists s, recentres (2 * PI) (mean_of 4 (fun i => at_ x i + 2 * PI * IZR (turns i))%R) tlon s /\
    adjust_lon x tlon = Ok (map (fun i => (at_ x i + 2 * PI * IZR (turns i) + 2 * PI * IZR s)%R) (zseq 0 4)).
Proof.
  intros x tlon turns Hx HU. destruct x as [|a [|b [|c [|e [|]]]]]; try discriminate Hx; [|rewrite !zlen_cons in Hx; pose proof (zlen_nonneg l); lia].
  destruct HU as (U0 & U1 & U2). set (Y := fun i => (at_ [a; b; c; e] i + 2 * PI * IZR (turns i))%R).
  assert (U3 : forall i, 1 <= i < 4 -> (Rabs (Y i - Y (i - 1)%Z) < PI)%R) by (intros i Hi; specialize (U2 i Hi); replace (2 * PI / 2)%R with PI in U2 by lra; exact U2).
  assert (T : forall i, 1 <= i < 4 -> (let dx := at_ [a; b; c; e] i - Y (i - 1)%Z in Y (i - 1)%Z + (if rlt dx (- PI) then dx + 2 * PI else if rlt PI dx then dx - 2 * PI else dx))%R = Y i).
  { intros i Hi. apply (turn_step PI (at_ [a; b; c; e] i) (Y (i - 1)) (turns i) PI_RGT_0); [apply U1; lia|apply U3; auto]. }
  assert (Y0 : Y 0 = a) by (unfold Y; rewrite U0; cbn; lra).
  pose proof (T 1 ltac:(lia)) as T1. pose proof (T 2 ltac:(lia)) as T2. pose proof (T 3 ltac:(lia)) as T3. cbv zeta in T1, T2, T3. change (1 - 1) with 0 in T1. change (2 - 1) with 1 in T2. change (3 - 1) with 2 in T3. rewrite Y0 in T1.
  change (at_ [a; b; c; e] 1) with b in T1. change (at_ [a; b; c; e] 2) with c in T2. change (at_ [a; b; c; e] 3) with e in T3.
  destruct (finish PI 4 tlon Y (fun _ => 0%R) (a + Y 1%Z + Y 2%Z + Y 3%Z)%R PI_RGT_0) as (s & HS & EF). exists s. split.
  - fold Y. unfold mean_of. change (zseq 0 4) with [0; 1; 2; 3]. rewrite !rsum_cons, rsum_nil, Y0. replace (a + (Y 1%Z + (Y 2%Z + (Y 3%Z + 0))))%R with (a + Y 1%Z + Y 2%Z + Y 3%Z)%R by lra. exact HS.
  - unfold adjust_lon. change (oget [a; b; c; e] 0) with (Ok a). cbn [bind]. unfold ofor. change (zseq 1 3) with [1; 2; 3]. cbn [ofold].
    change (oget [a; b; c; e] 1) with (Ok b). change (oget [a; b; c; e] (1 - 1)) with (Ok a). cbn [bind]. cbv zeta. rewrite T1. change (oset [a; b; c; e] 1 (Y 1)) with (Ok [a; Y 1; c; e]). cbn [bind].
    change (oget [a; Y 1; c; e] 2) with (Ok c). change (oget [a; Y 1; c; e] (2 - 1)) with (Ok (Y 1)). cbn [bind]. rewrite T2. change (oset [a; Y 1; c; e] 2 (Y 2)) with (Ok [a; Y 1; Y 2; e]). cbn [bind].
    change (oget [a; Y 1; Y 2; e] 3) with (Ok e). change (oget [a; Y 1; Y 2; e] (3 - 1)) with (Ok (Y 2)). cbn [bind]. rewrite T3. change (oset [a; Y 1; Y 2; e] 3 (Y 3)) with (Ok [a; Y 1; Y 2; Y 3]). cbn [bind].
    cbv zeta in EF. change (zseq 0 4) with [0; 1; 2; 3] in *. cbn [map fst snd] in EF |- *. rewrite <- Y0 at 2 3 4.
    destruct (rlt ((a + Y 1 + Y 2 + Y 3) / 4 - tlon) (- PI)); [|destruct (rlt PI ((a + Y 1 + Y 2 + Y 3) / 4 - tlon))]; injection EF as E0 E1 E2 E3; unfold Y in *; congruence.
Qed.

(** lon_fix of tool_util (degrees, four vertices in arrays of eight), away from the poles: the polygon
    is unrolled and moved by at most one turn.  The turn is not chosen by the mean of the four
    vertices: the sum has x[1] instead of x[0]. *)
Theorem C54_lon_fix : forall P tlon turns, zlen P = 4 -> (forall p, In p P -> (Rabs (snd p) < 90 - 1 / 10000)%R) -> unrolls 360 4 (lon P) turns ->
  exists s, recentres 360 ((lon P 1 + ((lon P 1 + 360 * IZR (turns 1%Z)) + (lon P 2 + 360 * IZR (turns 2%Z)) + (lon P 3 + 360 * IZR (turns 3%Z)))) / 4) tlon s /\
    lon_fix DA 8 P tlon = Ok (map (fun i => ((lon P i + 360 * IZR (turns i) + 360 * IZR s)%R, lat P i)) (zseq 0 4)).
Proof.
  intros P tlon turns HP HN HU. replace 360%R with (2 * 180)%R in * by lra.
  assert (NP : forall p, In p P -> at_pole DA p = false). { intros p Hp. unfold at_pole, DA, SMALL. cbn. destruct (Rle_dec _ _) as [Q|]; auto. specialize (HN p Hp). lra. }
  assert (F0 : from DA P P) by (intros v Hv; eauto).
  unfold lon_fix. rewrite (pair_nopole DA 8) by (auto; unfold zlen in *; lia). cbn [bind]. destruct (poles_run DA P P F0) as (l2 & E2 & L2 & F2 & N2). rewrite (N2 NP) in *. rewrite E2. cbn [bind].
  change (@zlen (pt DA) P) with (@zlen point P). rewrite HP. change (4 =? 0) with false. cbv iota.
  set (Y := fun i => (lon P i + 2 * 180 * IZR (turns i))%R).
  pose proof (loop_run 90 180 SMALL 0 ltac:(lra) 4 (lon P) Y (lat P) turns (fun i => eq_refl) HU P (lon P 1) ltac:(lia)) as LR. rewrite <- HP in LR at 1. specialize (LR (vec_lonlat P)).
  assert (V : vec P 4 (fun i => (lon P i, lat P i))) by (rewrite <- HP; apply vec_lonlat).
  assert (O1 : oget P 1 = Ok (lon P 1, lat P 1)) by (apply (vec_get _ _ _ _ V); lia).
  match goal with |- context [bind ?x _ = _] => change x with (oget P 1) end. rewrite O1. cbn [bind fst].
  destruct (finish 180 4 tlon Y (lat P) (lon P 1 + rsum Y (zseq 1 3)) ltac:(lra)) as (s & HS & EF). exists s. split.
  { change (zseq 1 3) with [1; 2; 3] in HS. rewrite !rsum_cons, rsum_nil in HS. unfold Y in HS. match type of HS with recentres _ (?m / _) _ _ => match goal with |- recentres _ (?m' / _) _ _ => replace m' with m by ring end end. exact HS. }
  match goal with |- bind ?x _ = _ => change (bind x (fun st : list point * R => let '(l, x_sum) := st in
       let dx := (x_sum / IZR (zlen l) - tlon)%R in if nlt DA dx (0 - 180)%R then Ok (map (fun q : point => ((fst q + 360)%R, snd q)) l) else if nlt DA 180%R dx then Ok (map (fun q : point => ((fst q - 360)%R, snd q)) l) else Ok l)
       = Ok (map (fun i => ((Y i + 2 * 180 * IZR s)%R, lat P i)) (zseq 0 4))) end.
  etransitivity; [apply (f_equal (fun x => bind x _)); exact LR|]. cbn [bind]. cbv zeta in EF |- *. rewrite !nlt_DA.
  rewrite zlen_map, zlen_zseq by lia. rewrite Rminus_0_l. exact EF.
Qed.

(** Finding: so the result can stay more than half a turn from tlon. *)
Theorem C54_lon_fix_refuted : exists P tlon turns, zlen P = 4 /\ (forall p, In p P -> (Rabs (snd p) < 90 - 1 / 10000)%R) /\ unrolls 360 4 (lon P) turns /\
  exists Q, lon_fix DA 8 P tlon = Ok Q /\ (Rabs (mean_of 4 (lon P) - tlon) <= 3 * 180)%R /\ (180 < mean_of 4 (lon Q) - tlon)%R.
Proof.
  set (P := [(270%R, 0%R); (100%R, 0%R); (200%R, 0%R); (250%R, 0%R)]). exists P, 0%R, (fun _ => 0). 
  assert (L : lon P 0 = 270%R /\ lon P 1 = 100%R /\ lon P 2 = 200%R /\ lon P 3 = 250%R) by (repeat split). destruct L as (L0 & L1 & L2 & L3).
  assert (HN : forall p, In p P -> (Rabs (snd p) < 90 - 1 / 10000)%R). { intros p [<-|[<-|[<-|[<-|[]]]]]; cbn; rewrite Rabs_R0; lra. }
  assert (HU : unrolls 360 4 (lon P) (fun _ => 0)).
  { split; auto. split; [lia|]. intros i Hi. assert (i = 1 \/ i = 2 \/ i = 3) as [->|[->| ->]] by lia; cbn [Z.sub Z.add Z.opp Z.pos_sub Pos.pred_double]; rewrite ?L0, ?L1, ?L2, ?L3; apply Rabs_def1; lra. }
  split; auto. split; auto. split; auto. destruct (C54_lon_fix P 0%R (fun _ => 0) eq_refl HN HU) as (s & (_ & Hs & _) & E). eexists. split; [exact E|].
  rewrite Hs; [|rewrite L1, L2, L3; apply Rabs_le; lra]. unfold mean_of. change (zseq 0 4) with [0; 1; 2; 3]. rewrite !rsum_cons, !rsum_nil, L0, L1, L2, L3. split; [apply Rabs_le; lra|].
  cbn [map]. assert (Q : forall a b c d : point, lon [a; b; c; d] 0 = fst a /\ lon [a; b; c; d] 1 = fst b /\ lon [a; b; c; d] 2 = fst c /\ lon [a; b; c; d] 3 = fst d) by (intros; repeat split).
  clearbody P. match goal with |- context [lon [?a; ?b; ?c; ?d]] => destruct (Q a b c d) as (-> & -> & -> & ->) end. cbn [fst]. rewrite L0, L1, L2, L3. lra.
Qed.
(** The hypotheses of C54_fix_lon are met by a cell around the date line *)
Example C54_example : let P := [(6%R, 0%R); (1 / 2, 0); (1 / 2, 1); (6, 1)]%R in
  zlen P <= 24 /\ unrolls (2 * PI) (zlen P) (lon P) (fun i => if (i =? 1) || (i =? 2) then 1 else 0).
Proof.
  cbv zeta. split; [cbn; lia|]. pose proof PI_4 as B. pose proof PI2_3_2 as B2. change (zlen _) with 4.
  split; auto. split. { intros i Hi. destruct (_ || _); lia. }
  intros i Hi. replace (2 * PI / 2)%R with PI by lra. assert (i = 1 \/ i = 2 \/ i = 3) as [->|[->| ->]] by lia; lazy -[IZR Rplus Rmult Rminus Rdiv Ropp Rabs PI Rlt]; apply Rabs_def1; lra.
Qed.
Print Assumptions C54_in_range.
Print Assumptions C54_in_range_refuted.
Print Assumptions C54_fix_lon.
Print Assumptions C54_adjust.
Print Assumptions C54_lon_fix.
Print Assumptions C54_lon_fix_refuted.
