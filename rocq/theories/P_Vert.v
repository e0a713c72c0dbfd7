(** * Proofs about the vertical interpolation of fregrid *)
From Coq Require Import Reals Lra Lia.
From Verif Require Import Base Loops Vec Lst M_Interp Spec_Interp P_Interp P_Interp2 M_Vert Spec_Vert.
Local Open Scope R_scope.

Lemma scan_start_spec zo z0 fuel : forall k, (0 <= k <= zlen zo)%Z -> (Z.to_nat (zlen zo - k) <= fuel)%nat -> (forall j, (0 <= j < k)%Z -> at_ zo j < z0) ->
  exists ks, scan_start fuel zo z0 k = Ok ks /\ (0 <= ks <= zlen zo)%Z /\ (forall j, (0 <= j < ks)%Z -> at_ zo j < z0) /\ ((ks < zlen zo)%Z -> z0 <= at_ zo ks).
Proof.
  induction fuel as [|fuel IH]; intros k Hk Hf Hj; cbn [scan_start]; destruct (Z.ltb_spec k (zlen zo)) as [Q|Q].
  - lia.
  - exists k. repeat split; auto; lia.
  - rewrite get_at by lia. cbn [bind]. destruct (rle_spec z0 (at_ zo k)) as [C|C].
    + exists k. repeat split; auto; lia.
    + apply IH; [lia|lia|]. intros j Hj'. destruct (Z.eq_dec j k) as [->|N]; [lra|]. apply Hj. lia.
  - exists k. repeat split; auto; lia.
Qed.
Lemma scan_end_spec zo z1 fuel : forall k, (-1 <= k < zlen zo)%Z -> (Z.to_nat (k + 1) <= fuel)%nat -> (forall j, (k < j < zlen zo)%Z -> z1 < at_ zo j) ->
  exists ke, scan_end fuel zo z1 k = Ok ke /\ (-1 <= ke < zlen zo)%Z /\ (forall j, (ke < j < zlen zo)%Z -> z1 < at_ zo j) /\ ((0 <= ke)%Z -> at_ zo ke <= z1).
Proof.
  induction fuel as [|fuel IH]; intros k Hk Hf Hj; cbn [scan_end]; destruct (Z.leb_spec 0 k) as [Q|Q].
  - lia.
  - exists k. repeat split; auto; lia.
  - rewrite get_at by lia. cbn [bind]. destruct (rle_spec (at_ zo k) z1) as [C|C].
    + exists k. repeat split; auto; lia.
    + apply IH; [lia|lia|]. intros j Hj'. destruct (Z.eq_dec j k) as [->|N]; [lra|]. apply Hj. lia.
  - exists k. repeat split; auto; lia.
Qed.
Lemma setup_spec zi zo : (1 <= zlen zi)%Z -> exists ks ke, setup_vertical zi zo = Ok (ks, ke, negb (same_levels zi zo))
  /\ (0 <= ks <= zlen zo)%Z /\ (forall j, (0 <= j < ks)%Z -> at_ zo j < at_ zi 0) /\ ((ks < zlen zo)%Z -> at_ zi 0 <= at_ zo ks)
  /\ (-1 <= ke < zlen zo)%Z /\ (forall j, (ke < j < zlen zo)%Z -> at_ zi (zlen zi - 1) < at_ zo j) /\ ((0 <= ke)%Z -> at_ zo ke <= at_ zi (zlen zi - 1)).
Proof.
  intros H. unfold setup_vertical. pose proof (zlen_nonneg zo). rewrite !get_at by lia. cbn [bind].
  destruct (scan_start_spec zo (at_ zi 0) (length zo) 0) as (ks & -> & H1 & H2 & H3); [lia|unfold zlen; lia|lia|]. cbn [bind].
  destruct (scan_end_spec zo (at_ zi (zlen zi - 1)) (length zo) (zlen zo - 1)) as (ke & -> & H4 & H5 & H6); [lia|unfold zlen; lia|lia|]. cbn [bind].
  exists ks, ke. repeat split; auto; lia.
Qed.
Lemma same_levels_spec zi zo : same_levels zi zo = true <-> agree zi zo.
Proof.
  unfold same_levels, agree. rewrite andb_true_iff, Z.eqb_eq. split; intros (L & H); split; auto.
  - intros k Hk. rewrite forallb_forall in H. specialize (H (at_ zi k, at_ zo k)). cbn in H. destruct (rlt_spec EPSLN10 (Rabs (at_ zo k - at_ zi k))) as [C|C].
    + assert (HI : In (at_ zi k, at_ zo k) (combine zi zo)); [|apply H in HI; discriminate].
      unfold at_. rewrite <- combine_nth by (unfold zlen in L; lia). apply nth_In. rewrite combine_length. unfold zlen in *. lia.
    + unfold EPSLN10 in C. lra.
  - rewrite forallb_forall. intros (a, b) HI. destruct (In_nth _ _ (0, 0) HI) as (n & Hn & E). rewrite combine_length in Hn. unfold zlen in L. rewrite combine_nth in E by lia. injection E as <- <-.
    specialize (H (Z.of_nat n) ltac:(unfold zlen; lia)). unfold at_ in H. rewrite Nat2Z.id in H. unfold EPSLN10. destruct (rlt_spec (1 / 10 ^ 10) (Rabs (nth n zo 0 - nth n zi 0))); [lra|reflexivity].
Qed.
(** Rows [lo], ..., [lo + n - 1] of an array of rows of length [nx * ny] set to row [r] of [tmp]. *)
Lemma set_rows nx ny nk1 m lo n r (tmp : list R) T (d : list R) F : (0 <= nx)%Z -> (0 <= ny)%Z -> (0 <= n)%Z -> (0 <= lo)%Z -> (lo + n <= m)%Z -> (0 <= r < nk1)%Z ->
  vec tmp (nk1 * (nx * ny)) T -> vec d (m * (nx * ny)) F ->
  exists d', ofor lo n (fun d k => ofor 0 (nx * ny) (fun d i => do v <- oget tmp (r * nx * ny + i) ; oset d (k * nx * ny + i) v) d) d = Ok d'
    /\ vec d' (m * (nx * ny)) (fun p => if (lo * (nx * ny) <=? p)%Z && (p <? (lo + n) * (nx * ny))%Z then T (r * (nx * ny) + p mod (nx * ny))%Z else F p).
Proof.
  intros Hx Hy Hn Hlo Hm Hr VT VD. set (w := (nx * ny)%Z) in *. assert (Hw : (0 <= w)%Z) by (unfold w; nia).
  destruct (Z.eq_dec w 0) as [E0|N0].
  { exists d. split. - rewrite E0. unfold ofor at 1. generalize (zseq lo n) as l. induction l as [|k l IH]; [reflexivity|]. cbn [ofold]. rewrite ofor_0 by lia. exact IH.
    - eapply vec_ext; [|exact VD]. intros i Hi. lia. }
  destruct (ofor_vec (fun d k => ofor 0 w (fun d i => do v <- oget tmp (r * nx * ny + i) ; oset d (k * nx * ny + i) v) d) (m * w) lo n
    (fun k p => if (lo * w <=? p)%Z && (p <? k * w)%Z then T (r * w + p mod w)%Z else F p) d Hn) as (d' & E & V).
  - eapply vec_ext; [|exact VD]. intros i Hi. cbn beta. destruct (Z.leb_spec (lo * w) i), (Z.ltb_spec i (lo * w)); cbn; auto; lia.
  - intros k g Hk Vg. 
    destruct (ofor_vec (fun d i => do v <- oget tmp (r * nx * ny + i) ; oset d (k * nx * ny + i) v) (m * w) 0 w
      (fun i p => if (lo * w <=? p)%Z && (p <? k * w + i)%Z then T (r * w + p mod w)%Z else F p) g Hw) as (g' & E' & V').
    + eapply vec_ext; [|exact Vg]. intros p Hp. now rewrite Z.add_0_r.
    + intros i g1 Hi V1. replace (r * nx * ny + i)%Z with (r * w + i)%Z by (unfold w; ring). rewrite (vec_get _ _ _ _ VT) by nia. cbn [bind].
      replace (k * nx * ny + i)%Z with (k * w + i)%Z by (unfold w; ring).
      apply (vec_set _ _ _ _ _ _ V1); [nia|]. intros p Hp. cbn beta. destruct (Z.eqb_spec p (k * w + i)) as [->|N].
      * rewrite (proj2 (Z.leb_le _ _)) by nia. rewrite (proj2 (Z.ltb_lt _ _)) by lia. cbn [andb]. rewrite rowmajor_mod by lia. reflexivity.
      * destruct (Z.leb_spec (lo * w) p), (Z.ltb_spec p (k * w + i)), (Z.ltb_spec p (k * w + (i + 1))); cbn; auto; lia.
    + exists g'. split; auto. eapply vec_ext; [|exact V']. intros p Hp. cbn beta. replace (k * w + (0 + w))%Z with ((k + 1) * w)%Z by ring. reflexivity.
  - exists d'. split; auto.
Qed.
Lemma nth_firstn_lt (b : nat) : forall (l : list R) a, (a < b)%nat -> nth a (firstn b l) 0 = nth a l 0.
Proof. induction b; intros [|x l] a H; try lia; destruct a; cbn [firstn nth]; auto. apply IHb. lia. Qed.
Lemma nth_skipn_add (s : nat) : forall (l : list R) a, nth a (skipn s l) 0 = nth (s + a) l 0.
Proof. induction s; intros [|x l] a; cbn [skipn Nat.add nth]; auto. destruct a; reflexivity. Qed.
Lemma at_window start len l i : (0 <= start)%Z -> (0 <= i < len)%Z -> at_ (window start len l) i = at_ l (start + i).
Proof. intros Hs Hi. unfold at_, window. rewrite Z2Nat.inj_add by lia. rewrite nth_firstn_lt by lia. apply nth_skipn_add. Qed.
Lemma len_window start len l : (0 <= start)%Z -> (0 <= len)%Z -> (start + len <= zlen l)%Z -> zlen (window start len l) = len.
Proof. intros. unfold window, zlen in *. rewrite firstn_length, skipn_length. lia. Qed.
Lemma copy_data (data : list R) n : zlen data = n -> ofor 0 n (fun t i => do v <- oget data i ; Ok (t ++ [v])) [] = Ok data.
Proof.
  intros L. rewrite (ofor_grow n _ (at_ data)).
  - f_equal. apply (vec_eq _ _ n (at_ data)); [apply vec_map; pose proof (zlen_nonneg data); lia|]. rewrite <- L. apply vec_at.
  - pose proof (zlen_nonneg data); lia.
  - intros b i Hi. rewrite get_at by lia. reflexivity.
Qed.

(** What is computed for any levels. *)
Lemma vertical_run nx ny zi zo fd data : (0 <= nx)%Z -> (0 <= ny)%Z -> (2 <= zlen zi)%Z -> increasing zi -> increasing zo ->
  zlen data = (nx * ny * zlen zi)%Z -> ~ agree zi zo -> (exists k, (0 <= k < zlen zo)%Z /\ at_ zi 0 <= at_ zo k <= at_ zi (zlen zi - 1)) ->
  exists out, do_vertical nx ny zi zo fd data = Ok out /\ zlen out = (zlen zo * (nx * ny))%Z
    /\ forall k l, (0 <= k < zlen zo)%Z -> (0 <= l < nx * ny)%Z -> column_value zi (fun m => at_ data (m * (nx * ny) + l)) (at_ zo k) (at_ out (k * (nx * ny) + l)).
Proof.
  intros Hx Hy H1 I1 I2 LD NA (k0 & Hk0 & Hz0). unfold do_vertical. destruct (setup_spec zi zo ltac:(lia)) as (ks & ke & -> & A1 & A2 & A3 & B1 & B2 & B3). cbn [bind].
  replace (same_levels zi zo) with false. 2:{ destruct (same_levels zi zo) eqn:E; auto. apply same_levels_spec in E. contradiction. }
  cbn [negb]. rewrite copy_data by auto. cbn [bind].
  assert (Hks : (ks <= k0)%Z) by (destruct (Z.le_gt_cases ks k0); auto; specialize (A2 k0 ltac:(lia)); lra).
  assert (Hke : (k0 <= ke)%Z) by (destruct (Z.le_gt_cases k0 ke); auto; specialize (B2 k0 ltac:(lia)); lra).
  specialize (A3 ltac:(lia)). specialize (B3 ltac:(lia)).
  set (w := (nx * ny)%Z) in *. assert (Hw : (0 <= w)%Z) by (unfold w; nia). set (nk1 := zlen zi) in *. set (nk2 := zlen zo) in *.
  set (d0 := if (nk1 =? nk2)%Z then data else repeat fd (Z.to_nat (w * nk2))).
  assert (V0 : exists F0, vec d0 (nk2 * w) F0).
  { unfold d0. destruct (Z.eqb_spec nk1 nk2) as [E|E]; [exists (at_ data)|exists (fun _ => fd)].
    - replace (nk2 * w)%Z with (zlen data) by (rewrite LD, E; ring). apply vec_at.
    - rewrite Z.mul_comm. apply vec_repeat. nia. }
  destruct V0 as (F0 & V0).
  assert (VT : vec data (nk1 * w) (at_ data)) by (replace (nk1 * w)%Z with (zlen data) by (rewrite LD; ring); apply vec_at).
  destruct (set_rows nx ny nk1 nk2 0 ks 0 data (at_ data) d0 F0) as (d1 & E1 & V1); auto; try lia. fold w in E1, V1.
  replace (ofor 0 ks _ d0) with (@Ok (list R) d1) by (rewrite <- E1; apply ofor_ext; intros; apply ofor_ext; intros; rewrite !Z.mul_0_l, Z.add_0_l; reflexivity). cbn [bind].
  destruct (set_rows nx ny nk1 nk2 ke (nk2 - ke) (nk1 - 1) data (at_ data) d1 _ Hx Hy ltac:(lia) ltac:(lia) ltac:(lia) ltac:(lia) VT V1) as (d2 & E2 & V2). fold w in E2, V2. rewrite E2. cbn [bind].
  destruct (Z.leb_spec (ke - ks + 1) 0) as [Q|Q]; [lia|]. set (nk := (ke - ks + 1)%Z) in *.
  replace (ks * nx * ny)%Z with (ks * w)%Z by (unfold w; ring). replace (nk * nx * ny)%Z with (nk * w)%Z by (unfold w; ring).
  assert (L2 : zlen d2 = (nk2 * w)%Z) by apply V2.
  destruct (linear_vertical_run nx ny nk1 nk zi (window ks nk zo) data (window (ks * w) (nk * w) d2)) as (part & EP & LP & HP); fold w; auto; try lia; try nia.
  - apply len_window; fold nk2; lia.
  - apply len_window; nia.
  - intros i j Hij Hj. rewrite len_window in Hj by (fold nk2; lia). rewrite !at_window by lia. apply I2; fold nk2; lia.
  - rewrite at_window by lia. now rewrite Z.add_0_r.
  - rewrite at_window by lia. replace (ks + (nk - 1))%Z with ke by (unfold nk; lia). auto.
  - fold w in EP, LP, HP. rewrite EP. cbn [bind]. eexists. split; [reflexivity|].
    assert (L3 : length (firstn (Z.to_nat (ks * w)) d2) = Z.to_nat (ks * w)) by (rewrite firstn_length; unfold zlen in L2; unfold nk in *; nia).
    split. { rewrite !zlen_app, LP. unfold zlen at 1. rewrite L3. unfold zlen. rewrite skipn_length. unfold zlen in L2. assert (ks * w + nk * w <= nk2 * w)%Z by (unfold nk; nia). assert (0 <= ks * w)%Z by nia. assert (0 <= nk * w)%Z by nia. lia. }
    assert (MON : forall i j, (0 <= i <= j)%Z -> (j < nk1)%Z -> at_ zi i <= at_ zi j) by (intros; apply (inc_nondec _ I1); auto).
    intros k l Hk Hl. destruct (Z.lt_ge_cases k ks) as [C1|C1]; [|destruct (Z.le_gt_cases k ke) as [C2|C2]].
    + (* above *)
      replace (at_ (_ ++ _) (k * w + l)) with (at_ data (0 * w + l)).
      2:{ unfold at_. rewrite app_nth1 by (rewrite L3; nia). rewrite nth_firstn_lt by nia. change (nth (Z.to_nat (k * w + l)) d2 0) with (at_ d2 (k * w + l)). rewrite (vec_at_ _ _ _ _ V2) by nia.
        destruct (Z.leb_spec (ke * w) (k * w + l)); [nia|]. cbn [andb]. destruct (Z.leb_spec (0 * w) (k * w + l)); [|nia]. destruct (Z.ltb_spec (k * w + l) ((0 + ks) * w)); [|nia]. cbn [andb]. rewrite rowmajor_mod by lia. reflexivity. }
      specialize (A2 k ltac:(lia)). split; [|split].
      * intros _. reflexivity.
      * intros Hb. pose proof (MON 0%Z (nk1 - 1)%Z ltac:(lia) ltac:(lia)). fold nk1 in Hb. lra.
      * intros m Hm Hb. pose proof (MON 0%Z m ltac:(lia) ltac:(fold nk1 in Hm; lia)). lra.
    + (* inside *)
      replace (at_ (_ ++ _) (k * w + l)) with (at_ part ((k - ks) * w + l)).
      2:{ unfold at_. rewrite app_nth2 by (rewrite L3; nia). rewrite L3. rewrite app_nth1 by (unfold zlen in LP; unfold nk in *; nia). f_equal. nia. }
      destruct (HP (k - ks)%Z ltac:(unfold nk; lia)) as (m & Hm & Hb & Hv). rewrite at_window in Hb, Hv by (unfold nk; lia). replace (ks + (k - ks))%Z with k in Hb, Hv by lia. rewrite Hv by auto. clear Hv.
      assert (P : forall i, (0 <= i < nk1 - 1)%Z -> at_ zi i < at_ zi (i + 1)) by (intros; apply I1; fold nk1; lia).
      set (c := fun m => at_ data (m * w + l)). set (z := at_ zo k) in *.
      assert (LL : at_ zi m = z -> lin zi c z m = c m). { intros <-. unfold lin. pose proof (P m Hm). field. lra. }
      assert (LR : at_ zi (m + 1) = z -> lin zi c z m = c (m + 1)%Z). { intros <-. unfold lin. pose proof (P m Hm). field. lra. }
      split; [|split].
      * intros Hb0. assert (m = 0 \/ 0 < m)%Z as [-> |Hm0] by lia; [apply LL; lra|]. pose proof (I1 0%Z m ltac:(lia) ltac:(fold nk1; lia)). lra.
      * fold nk1. intros Hb0. assert (m = nk1 - 2 \/ m + 1 < nk1 - 1)%Z as [-> |Hm0] by lia. { replace (nk1 - 2 + 1)%Z with (nk1 - 1)%Z in * by lia. apply LR. lra. }
        pose proof (I1 (m + 1)%Z (nk1 - 1)%Z ltac:(lia) ltac:(fold nk1; lia)). lra.
      * fold nk1. intros i Hi Bi. change (lin zi c z m = lin zi c z i). destruct (same_interval zi m i z) as [-> |[(-> & Q')|(-> & Q')]]; auto; try lia.
        -- rewrite LR by auto. unfold lin. rewrite <- Q'. pose proof (P (m + 1)%Z ltac:(lia)). field. lra.
        -- rewrite LL by auto. unfold lin. rewrite <- Q'. pose proof (P i ltac:(lia)). field. lra.
    + (* below *)
      replace (at_ (_ ++ _) (k * w + l)) with (at_ data ((nk1 - 1) * w + l)).
      2:{ unfold at_ at 2. rewrite app_nth2 by (rewrite L3; nia). rewrite L3. rewrite app_nth2 by (unfold zlen in LP; unfold nk in *; nia). rewrite nth_skipn_add.
        replace (Z.to_nat (ks * w + nk * w) + _)%nat with (Z.to_nat (k * w + l)).
        2:{ unfold zlen in LP. assert (0 <= ks * w)%Z by nia. assert (0 <= nk * w)%Z by nia. assert (ks * w + nk * w <= k * w)%Z by (unfold nk; nia). lia. }
        change (nth (Z.to_nat (k * w + l)) d2 0) with (at_ d2 (k * w + l)). rewrite (vec_at_ _ _ _ _ V2) by nia.
        destruct (Z.leb_spec (ke * w) (k * w + l)); [|nia]. destruct (Z.ltb_spec (k * w + l) ((ke + (nk2 - ke)) * w)); [|nia]. cbn [andb]. rewrite rowmajor_mod by lia. reflexivity. }
      specialize (B2 k ltac:(lia)). split; [|split].
      * intros Hb. pose proof (MON 0%Z (nk1 - 1)%Z ltac:(lia) ltac:(lia)). lra.
      * intros _. reflexivity.
      * intros m Hm Hb. fold nk1 in Hm. pose proof (MON (m + 1)%Z (nk1 - 1)%Z ltac:(lia) ltac:(lia)). lra.
Qed.
