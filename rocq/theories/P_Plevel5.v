(** * Proofs about the interpolation to pressure levels: isothermal columns, values below the lowest level,
      the table of saturation vapour pressure, sea level pressure *)
From Coq Require Import Reals Lra Lia.
From Verif Require Import Base Loops M_Interp P_Interp M_Runoff M_Plevel Spec_Plevel P_Plevel P_Plevel2 P_Plevel3 P_Plevel4.
Open Scope Z_scope.

Lemma on_line_const nlev pf data k p v T : good_full nlev pf -> 1 <= k < nlev -> lv data k = T -> lv data (k + 1) = T ->
  on_line pf data k p v -> v = T.
Proof.
  intros G Hk E1 E2 H. apply (on_line_unique nlev pf data k p v T G Hk H). unfold on_line. rewrite E1, E2. lra.
Qed.
Lemma interpolated_const nlev pf data kbot p v T : good_full nlev pf -> 2 <= kbot <= nlev ->
  (forall k, 1 <= k <= kbot -> lv data k = T) -> interpolated pf data kbot p v -> v = T.
Proof.
  intros G Hb Hc (H1 & H2 & H3).
  destruct (Rlt_dec p (lv pf 1)) as [L|L].
  - destruct (H2 L) as (p' & _ & Ho & _). apply (on_line_const nlev pf data 1 p'); auto; try (apply Hc; lia); lia.
  - destruct (Rlt_dec (lv pf kbot) p) as [L'|L'].
    + destruct (H3 L') as (p' & _ & Ho & _). apply (on_line_const nlev pf data (kbot - 1) p'); auto; try (apply Hc; lia); lia.
    + destruct (level_above nlev pf kbot p G Hb ltac:(lra)) as (k & Hk & Hp).
      apply (on_line_const nlev pf data k p); auto; try (apply Hc; lia); lia.
Qed.

Lemma extrap_temperature nlev pf kbot temp p t0 : good_full nlev pf -> (0 < p)%R -> 2 <= kbot <= nlev -> zlen temp = nlev ->
  (lv pf kbot < p)%R -> (lapse * (Rd / grav) * (ln p - ln (lv pf (kbot - 1))) < 2)%R -> (0 < lv temp (kbot - 1))%R ->
  exists c t, control_of (map ln pf) kbot (ln p) = Ok c /\
    temp_extrap c temp (ln p) (map ln pf) t0 = Ok t /\ (lv temp (kbot - 1) < t)%R /\
    (t - lv temp (kbot - 1) = lapse * (Rd / grav * ((lv temp (kbot - 1) + t) / 2) * (ln p - ln (lv pf (kbot - 1)))))%R.
Proof.
  intros G Hp Hb Ht Hlt Hd HT. pose proof G as (Hl & Hpos & _).
  destruct (column_spec nlev pf kbot temp p G Hp Hb Ht) as (c & v & E1 & _ & _ & Hm & _ & Hi & _).
  assert (Em : c_mask c = true) by (apply Hm; exact Hlt).
  assert (LL : (ln (lv pf (kbot - 1)) < ln p)%R).
  { apply ln_increasing; [apply Hpos; lia|]. pose proof (good_full_lt nlev pf (kbot - 1) kbot G ltac:(lia) ltac:(lia) ltac:(lia)). lra. }
  exists c. unfold temp_extrap. rewrite Em, (Hi Em). rewrite !at_ok by (rewrite ?zlen_map; lia). cbn [bind]. rewrite lv_map_ln by lia.
  set (D := (ln p - ln (lv pf (kbot - 1)))%R) in *. set (T := lv temp (kbot - 1)) in *.
  unfold lapse, Rd, grav in *. unfold RDGAS, GRAV.
  assert (Hden : (0 < 1 / 0.0065 - 0.5 * (287.04 / 9.80) * D)%R) by lra.
  rewrite fdiv_ok by lra. eexists. split; [exact E1|]. split; [reflexivity|].
  set (a := (0.5 * (287.04 / 9.80) * D)%R) in *.
  assert (HD : (0 < D)%R) by (unfold D; lra). clearbody D.
  assert (Ha : (0 < a)%R) by (unfold a; lra).
  assert (Eq : ((T * (1 / 0.0065 + a) / (1 / 0.0065 - a)) * (1 / 0.0065 - a) = T * (1 / 0.0065 + a))%R) by (field; lra).
  set (t := (T * (1 / 0.0065 + a) / (1 / 0.0065 - a))%R) in *.
  clearbody t T. split; [nra|]. unfold a in Eq. lra || nra.
Qed.

Lemma extrap_humidity nlev pf kbot temp sphum p tout q0 qo : good_full nlev pf -> (0 < p)%R -> 2 <= kbot <= nlev -> zlen temp = nlev -> zlen sphum = nlev ->
  (lv pf kbot < p)%R ->
  exists c, control_of (map ln pf) kbot (ln p) = Ok c /\
    (q_extrap c pf temp sphum p tout q0 = Ok qo -> exists es eo rh,
      lookup_es (lv temp (kbot - 1)) = Ok es /\ lookup_es tout = Ok eo /\
      rel_hum es (lv sphum (kbot - 1)) (lv pf (kbot - 1)) rh /\ rel_hum eo qo p rh).
Proof.
  intros G Hp Hb Ht Hq Hlt. pose proof G as (Hl & Hpos & _).
  destruct (column_spec nlev pf kbot temp p G Hp Hb Ht) as (c & v & E1 & _ & _ & Hm & _ & Hi & _).
  assert (Em : c_mask c = true) by (apply Hm; exact Hlt).
  exists c. split; [exact E1|]. unfold q_extrap. rewrite Em, (Hi Em). rewrite !at_ok by lia. cbn [bind].
  set (q := lv sphum (kbot - 1)). set (t := lv temp (kbot - 1)). set (pk := lv pf (kbot - 1)).
  unfold sphum_to_rh, sphum_to_mixrat, mixrat_to_rh, rh_to_sphum, rh_to_mixrat, mixrat_to_sphum, e_to_mixrat.
  destruct (fdiv q (1 - q)) as [r|e|] eqn:F1; cbn [bind]; try discriminate.
  destruct (lookup_es t) as [es|e|]; cbn [bind]; try discriminate.
  destruct (fdiv (RDGAS / RVGAS * es) (pk - es)) as [s|e|] eqn:F2; cbn [bind]; try discriminate.
  destruct (fdiv r s) as [rh|e|] eqn:F3; cbn [bind]; try discriminate.
  destruct (lookup_es tout) as [eo|e|]; cbn [bind]; try discriminate.
  destruct (fdiv (RDGAS / RVGAS * eo) (p - eo)) as [so|e|] eqn:F4; cbn [bind]; try discriminate.
  intros F5. apply fdiv_inv in F1, F2, F3, F4, F5.
  destruct F1 as [N1 ->], F2 as [N2 E2], F3 as [N3 ->], F4 as [N4 E4], F5 as [N5 ->].
  exists es, eo, (q / (1 - q) / s)%R. split; [reflexivity|]. split; [reflexivity|]. unfold RDGAS, RVGAS in *. split.
  - unfold rel_hum. rewrite <- E2. field. split; assumption.
  - unfold rel_hum. rewrite <- E4. set (x := (so * (q / (1 - q) / s))%R) in *.
    clearbody x. replace (1 - x / (1 + x))%R with (/ (1 + x))%R by (field; exact N5). field. exact N5.
Qed.

(** The saturation vapour pressure *)
Lemma compute_es_ok t : (0 < t)%R -> exists e, compute_es t = Ok e /\ (0 < e)%R.
Proof.
  intros Ht. unfold compute_es, log10.
  assert (Hr : (0 < TFREEZE / t)%R) by (apply Rdiv_lt_0_compat; [unfold TFREEZE; lra|exact Ht]).
  assert (Hw : (0 < TBASW / t)%R) by (apply Rdiv_lt_0_compat; [unfold TBASW, TFREEZE; lra|exact Ht]).
  rewrite !(fdiv_ok _ t) by lra. cbn [bind]. rewrite (flog_ok (TFREEZE / t)), (flog_ok (TBASW / t)), (flog_ok 610.71), (flog_ok 101324.60) by (assumption || lra).
  cbn [bind].
  assert (P : forall y, (0 < Rpower 10 y)%R) by (intros; apply exp_pos).
  destruct (rlt_spec t TFREEZE) as [A|A]; cbn [bind]; (destruct (rlt_spec (-20 + TFREEZE) t) as [B|B]; cbn [bind]);
    (destruct (rle_spec t (-20 + TFREEZE)) as [C|C]); try (destruct (rle_spec TFREEZE t) as [D|D]);
    try (eexists; split; [reflexivity|apply P]); try (unfold TFREEZE in *; lra).
  eexists; split; [reflexivity|].
  match goal with |- (0 < 0.05 * (_ * Rpower 10 ?a + _ * Rpower 10 ?b))%R => pose proof (P a) as P1; pose proof (P b) as P2 end.
  apply Rmult_lt_0_compat; [lra|]. apply Rplus_lt_0_compat; apply Rmult_lt_0_compat; auto; lra.
Qed.

Lemma lookup_cases temp : let i := Int_part (10 * (temp - tmin) + 1 / 2)%R in
  (tmin <= temp <= tmin + 260)%R -> 0 <= i <= 2600.
Proof.
  intros i H. unfold i. destruct (base_Int_part (10 * (temp - tmin) + 1 / 2)) as [B1 B2].
  set (n := Int_part _) in *. split.
  - assert (IZR (-1) < IZR n)%R by lra. apply lt_IZR in H0. lia.
  - assert (IZR n < IZR 2601)%R by lra. apply lt_IZR in H0. lia.
Qed.

Lemma tem1_pos i : 1 <= i -> (113 < tem1 i)%R.
Proof. intros H. unfold tem1, tmin, TFREEZE. assert (0 <= IZR (i - 1))%R by (apply IZR_le; lia). lra. Qed.
Lemma in_table_ok i : 1 <= i <= 2601 -> in_table i = true.
Proof. intros. unfold in_table, nsize. apply andb_true_intro; split; apply Z.leb_le; lia. Qed.
Lemma table_ok i : 1 <= i <= 2601 -> exists e, table i = Ok e /\ compute_es (tem1 i) = Ok e /\ (0 < e)%R.
Proof.
  intros H. unfold table. rewrite in_table_ok by exact H. pose proof (tem1_pos i ltac:(lia)).
  destruct (compute_es_ok (tem1 i) ltac:(lra)) as (e & E & P). exists e. auto.
Qed.
Lemma dtable_ok i : 1 <= i <= 2601 -> exists e, dtable i = Ok e.
Proof.
  intros H. unfold dtable. rewrite in_table_ok by exact H. pose proof (tem1_pos i ltac:(lia)).
  destruct (compute_es_ok (tem1 i - 0.01) ltac:(lra)) as (a & -> & _). destruct (compute_es_ok (tem1 i + 0.01) ltac:(lra)) as (b & -> & _).
  cbn [bind]. eexists; reflexivity.
Qed.
Lemma d2table_ok i : 1 <= i <= 2601 -> exists e, d2table i = Ok e.
Proof.
  intros H. unfold d2table. rewrite in_table_ok by exact H. change nsize with 2601.
  destruct (Z.eqb_spec i 1); [|destruct (Z.eqb_spec i 2601)].
  - destruct (dtable_ok 1 ltac:(lia)) as (a & ->), (dtable_ok 2 ltac:(lia)) as (b & ->). eexists; reflexivity.
  - destruct (dtable_ok (2601 - 1) ltac:(lia)) as (a & ->), (dtable_ok 2601 ltac:(lia)) as (b & ->). eexists; reflexivity.
  - destruct (dtable_ok (i - 1) ltac:(lia)) as (a & ->), (dtable_ok (i + 1) ltac:(lia)) as (b & ->). eexists; reflexivity.
Qed.
Lemma fint_pos x : (0 <= x)%R -> fint x = Int_part x.
Proof. intros. unfold fint. destruct (rlt_spec x 0); [lra|reflexivity]. Qed.

Lemma lookup_ok temp : (tmin <= temp <= tmin + 260)%R -> exists e, lookup_es temp = Ok e.
Proof.
  intros H. pose proof (lookup_cases temp H) as Hi. cbv zeta in Hi. unfold lookup_es.
  replace (10 * (temp - tmin + 1 / 20))%R with (10 * (temp - tmin) + 1 / 2)%R by lra.
  rewrite fint_pos by lra. set (i := Int_part _) in *.
  destruct (table_ok (i + 1) ltac:(lia)) as (a & -> & _), (dtable_ok (i + 1) ltac:(lia)) as (b & ->), (d2table_ok (i + 1) ltac:(lia)) as (c & ->).
  cbn [bind]. replace ((i <? 0) || (nsize - 1 <? i)) with false; [eexists; reflexivity|].
  symmetry. apply Bool.orb_false_iff. split; apply Z.ltb_ge; unfold nsize; lia.
Qed.
Lemma lookup_exact n temp : 0 <= n <= 2600 -> temp = (tmin + IZR n / 10)%R -> exists e, lookup_es temp = Ok e /\ compute_es temp = Ok e /\ (0 < e)%R.
Proof.
  intros Hn E. assert (N0 : (0 <= IZR n)%R) by (apply IZR_le; lia).
  assert (Ei : fint (10 * (temp - tmin + 1 / 20)) = n).
  { replace (10 * (temp - tmin + 1 / 20))%R with (IZR n + 1 / 2)%R by (rewrite E; field). rewrite fint_pos by lra.
    symmetry. apply Int_part_unique. lra. }
  unfold lookup_es. rewrite Ei.
  destruct (table_ok (n + 1) ltac:(lia)) as (a & -> & Ea & Pa), (dtable_ok (n + 1) ltac:(lia)) as (b & ->), (d2table_ok (n + 1) ltac:(lia)) as (c & ->).
  cbn [bind]. replace ((n <? 0) || (nsize - 1 <? n)) with false.
  2: { symmetry. apply Bool.orb_false_iff. split; apply Z.ltb_ge; unfold nsize; lia. }
  assert (ET : tem1 (n + 1) = temp) by (unfold tem1; rewrite E; replace (n + 1 - 1) with n by lia; field).
  rewrite ET in Ea. exists a. split; [|split; assumption]. f_equal. rewrite E. field_simplify; lra.
Qed.
Lemma lookup_outside temp : (temp < tmin - 1 \/ tmin + 261 < temp)%R -> lookup_es temp = UB.
Proof.
  intros H. unfold lookup_es.
  assert (T : in_table (fint (10 * (temp - tmin + 1 / 20)) + 1) = false).
  { unfold in_table, nsize. unfold fint. destruct (rlt_spec (10 * (temp - tmin + 1 / 20)) 0) as [L|L].
    - destruct (base_Int_part (- (10 * (temp - tmin + 1 / 20)))) as [B1 B2]. set (k := Int_part _) in *.
      assert (IZR 0 < IZR k)%R by lra. apply lt_IZR in H0.
      apply Bool.andb_false_iff. left. apply Z.leb_gt. lia.
    - destruct (base_Int_part (10 * (temp - tmin + 1 / 20))) as [B1 B2]. set (k := Int_part _) in *.
      assert (IZR 2601 < IZR k)%R by lra. apply lt_IZR in H0.
      apply Bool.andb_false_iff. right. apply Z.leb_gt. lia. }
  unfold table. rewrite T. reflexivity.
Qed.
