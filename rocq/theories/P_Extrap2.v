(** * Proofs about the extrapolation of fregrid: levels *)
From Coq Require Import Reals Lra Lia.
From Verif Require Import Base Loops Vec Lst Grid2 M_Interp Spec_Interp P_Interp P_Interp2 M_Vert M_Extrap Spec_Extrap P_Extrap.
Local Open Scope R_scope.

Section Levels.
  Variables (lon lat : list R) (nk : Z) (data : list R) (cyclic : bool) (missing stop : R).
  Let ni := zlen lon. Let nj := zlen lat.
  Hypotheses (G : lonlat_grid lon lat) (Hk : (0 <= nk)%Z) (HD : zlen data = (nk * (ni * nj))%Z).

  Definition missb (v : R) : bool := rle (Rabs (v - missing)) EPSLN10.
  Lemma missb_spec v : reflect (is_missing missing v) (missb v).
  Proof. unfold missb, is_missing, EPSLN10. apply rle_spec. Qed.
  Let dat k i j := cell ni nj data k i j.
  Definition rate k i j : R := if missb (cell ni nj data k i j) then REL_COEF else 0.

  Lemma n2 : (2 <= ni)%Z /\ (2 <= nj)%Z. Proof. destruct G as (A & B & _). split; auto. Qed.
  Lemma get_dat k i j : (0 <= k < nk)%Z -> (0 <= i < ni)%Z -> (0 <= j < nj)%Z -> oget data (k * ni * nj + j * ni + i) = Ok (dat k i j).
  Proof. intros Hk' Hi Hj. pose proof (rowmajor_range nj ni j i Hj Hi). rewrite get_at by nia. unfold dat, cell. do 2 f_equal. ring. Qed.

  (** What holds for every element of the padded array after [m] levels. *)
  Definition Inv (m x y : Z) (v : R) : Prop :=
    (forall lo hi, lo <= 0 <= hi -> (forall k i j, (0 <= k < m)%Z -> (0 <= i < ni)%Z -> (0 <= j < nj)%Z -> ~ is_missing missing (dat k i j) -> lo <= dat k i j <= hi) -> lo <= v <= hi)
    /\ (y = 0%Z \/ y = (nj + 1)%Z -> v = 0) /\ (cyclic = false -> x = 0%Z \/ x = (ni + 1)%Z -> v = 0).
  Definition Inv1 (k x y : Z) (v : R) : Prop :=
    Inv (k + 1) x y v /\ (inner ni nj x y = true -> ~ is_missing missing (dat k (x - 1) (y - 1)) -> v = dat k (x - 1)%Z (y - 1)%Z).

  Lemma inv1_step k : forall i j T, (0 <= i < ni)%Z -> (0 <= j < nj)%Z -> all ni nj (Inv1 k) T -> Inv1 k (i + 1)%Z (j + 1)%Z (relaxed (normal lon lat) (rate k) T i j).
  Proof.
    intros i j T Hi Hj HT. assert (A := HT (i + 1)%Z (j + 1)%Z ltac:(lia) ltac:(lia)). unfold relaxed, rate. destruct (missb_spec (cell ni nj data k i j)) as [M|M].
    - split.
      + split; [|split; intros; exfalso; lia]. intros lo hi H0 HV.
        pose proof (proj1 (proj1 A) lo hi H0 HV) as B0.
        pose proof (proj1 (proj1 (HT i (j + 1)%Z ltac:(lia) ltac:(lia))) lo hi H0 HV) as B1.
        pose proof (proj1 (proj1 (HT (i + 2)%Z (j + 1)%Z ltac:(lia) ltac:(lia))) lo hi H0 HV) as B2.
        pose proof (proj1 (proj1 (HT (i + 1)%Z j ltac:(lia) ltac:(lia))) lo hi H0 HV) as B3.
        pose proof (proj1 (proj1 (HT (i + 1)%Z (j + 2)%Z ltac:(lia) ltac:(lia))) lo hi H0 HV) as B4.
        pose proof (normal_spec lon lat G i j Hj) as N. destruct (normal lon lat i j) as (((cw, ce), cs), cn). destruct N as (N1 & N2 & N3 & N4 & N5). unfold REL_COEF.
        set (t0 := T (i + 1)%Z (j + 1)%Z) in *. set (t1 := T i (j + 1)%Z) in *. set (t2 := T (i + 2)%Z (j + 1)%Z) in *. set (t3 := T (i + 1)%Z j) in *. set (t4 := T (i + 1)%Z (j + 2)%Z) in *.
        assert (L : lo <= cw * t1 + ce * t2 + cs * t3 + cn * t4 <= hi).
        { assert (forall c t, 0 <= c -> lo <= t <= hi -> c * lo <= c * t <= c * hi) as HC by (intros; split; apply Rmult_le_compat_l; lra).
          pose proof (HC cw t1 ltac:(lra) B1). pose proof (HC ce t2 ltac:(lra) B2). pose proof (HC cs t3 ltac:(lra) B3). pose proof (HC cn t4 ltac:(lra) B4).
          assert (lo = cw * lo + ce * lo + cs * lo + cn * lo) by (transitivity ((cw + ce + cs + cn) * lo); [rewrite N5|]; ring).
          assert (hi = cw * hi + ce * hi + cs * hi + cn * hi) by (transitivity ((cw + ce + cs + cn) * hi); [rewrite N5|]; ring). lra. }
        lra.
      + intros _ NM. exfalso. apply NM. replace (i + 1 - 1)%Z with i by lia. replace (j + 1 - 1)%Z with j by lia. exact M.
    - destruct (normal lon lat i j) as (((cw, ce), cs), cn). rewrite Rmult_0_r, Rplus_0_r. exact A.
  Qed.

  Lemma inv1_edge k : cyclic = true -> forall y v, (1 <= y <= nj)%Z -> (Inv1 k ni y v -> Inv1 k 0%Z y v) /\ (Inv1 k 1%Z y v -> Inv1 k (ni + 1)%Z y v).
  Proof.
    intros CY y v Hy. split; intros ((J1 & J2 & J3) & J4).
    - split; [split; [exact J1|split; [exact J2|congruence]]|]. intros X. apply inner_spec in X. lia.
    - split; [split; [exact J1|split; [exact J2|congruence]]|]. intros X. apply inner_spec in X. lia.
  Qed.
  (** The array at the start of the iteration. *)
  Lemma level_start cf k tmp T : (0 <= k < nk)%Z -> fields tmp (ni + 2) (nj + 2) T -> (forall x y, (0 <= x < ni + 2)%Z -> (0 <= y < nj + 2)%Z -> Inv k x y (T x y)) ->
    exists t2 T2 sor, level ni nj cf cyclic missing stop k data tmp = iterate ni nj cf sor cyclic stop 0 MAX_ITER t2
      /\ fields t2 (ni + 2) (nj + 2) T2 /\ fields sor ni nj (rate k) /\ all ni nj (Inv1 k) T2 /\ wrapped ni nj cyclic T2
      /\ (forall i j, (0 <= i < ni)%Z -> (0 <= j < nj)%Z -> T2 (i + 1)%Z (j + 1)%Z = if missb (dat k i j) then T (i + 1)%Z (j + 1)%Z else dat k i j).
  Proof.
    intros Hk' HT HI. destruct n2 as (N1 & N2). unfold level. rewrite ofor_nest by lia.
    set (D := fun n x y => if inner ni nj x y && ((y - 1) * ni + (x - 1) <? n)%Z && negb (missb (dat k (x - 1) (y - 1))) then dat k (x - 1)%Z (y - 1)%Z else T x y).
    match goal with |- context [ofor 0 (nj * ni) ?f _] =>
      destruct (ofor_inv (fun n st => fields (fst st) (ni + 2) (nj + 2) (D n) /\ snd st = map (fun n => rate k (n mod ni) (n / ni))%Z (zseq 0 n)) f 0 (nj * ni)%Z (tmp, [])) as ((t1, sor) & E & HF & HS) end.
    - nia.
    - split; [|reflexivity]. eapply fields_ext; [|exact HT]. intros x y Hx Hy. unfold D. destruct (inner ni nj x y) eqn:EI; [|reflexivity]. apply inner_spec in EI. destruct (Z.ltb_spec ((y - 1) * ni + (x - 1)) 0); [nia|reflexivity].
    - intros n (t, sor) Hn (Ht & Hs). cbn [fst snd] in Ht, Hs. destruct (divmod_range nj ni n ltac:(lia) ltac:(lia)) as (Hp & D1 & D2 & D3). set (j := (n / ni)%Z) in *. set (i := (n mod ni)%Z) in *.
      rewrite get_dat by auto. cbn [bind]. fold (missb (dat k i j)).
      assert (ES : sor ++ [rate k i j] = map (fun n => rate k (n mod ni) (n / ni))%Z (zseq 0 (n + 1))).
      { rewrite (zseq_snoc 0 n) by lia. rewrite map_app. cbn [map]. rewrite Hs. reflexivity. }
      assert (DD : forall x y, (0 <= x < ni + 2)%Z -> (0 <= y < nj + 2)%Z -> D (n + 1)%Z x y = if (x =? i + 1)%Z && (y =? j + 1)%Z then (if missb (dat k i j) then D n x y else dat k i j) else D n x y).
      { intros x y Hx Hy. unfold D. destruct (Z.eqb_spec x (i + 1)) as [->|N3]; [destruct (Z.eqb_spec y (j + 1)) as [->|N4]|]; cbn [andb].
        - replace (inner ni nj (i + 1) (j + 1)) with true by (symmetry; apply inner_spec; lia). replace (i + 1 - 1)%Z with i by lia. replace (j + 1 - 1)%Z with j by lia. replace (j * ni + i)%Z with n by lia. rewrite (proj2 (Z.ltb_lt n (n + 1))), Z.ltb_irrefl by lia. cbn [andb]. destruct (missb (dat k i j)); reflexivity.
        - destruct (inner ni nj (i + 1) y) eqn:EI; [|reflexivity]. apply inner_spec in EI. cbn [andb]. destruct (Z.ltb_spec ((y - 1) * ni + (i + 1 - 1)) n), (Z.ltb_spec ((y - 1) * ni + (i + 1 - 1)) (n + 1)); auto; try lia. exfalso.
          assert (E9 : ((y - 1) * ni + (i + 1 - 1) = j * ni + i)%Z) by lia. apply rowmajor_inj in E9; lia.
        - destruct (inner ni nj x y) eqn:EI; [|reflexivity]. apply inner_spec in EI. cbn [andb]. destruct (Z.ltb_spec ((y - 1) * ni + (x - 1)) n), (Z.ltb_spec ((y - 1) * ni + (x - 1)) (n + 1)); auto; try lia. exfalso.
          assert (E9 : ((y - 1) * ni + (x - 1) = j * ni + i)%Z) by lia. apply rowmajor_inj in E9; lia. }
      destruct (missb (dat k i j)) eqn:EM.
      + eexists. split; [reflexivity|]. cbn [fst snd]. split.
        * eapply fields_ext; [|exact Ht]. intros x y Hx Hy. rewrite DD by auto. destruct (_ && _); reflexivity.
        * rewrite <- ES. unfold rate. change (cell ni nj data k i j) with (dat k i j). rewrite EM. reflexivity.
      + replace ((j + 1) * (ni + 2) + i + 1)%Z with ((j + 1) * (ni + 2) + (i + 1))%Z by ring.
        destruct (fields_set t (ni + 2) (nj + 2) (D n) (D (n + 1)%Z) (i + 1) (j + 1) (dat k i j) Ht) as (t' & E1 & F1); [lia|lia|auto|].
        rewrite E1. cbn [bind]. eexists. split; [reflexivity|]. cbn [fst snd]. split; [exact F1|]. rewrite <- ES. unfold rate. change (cell ni nj data k i j) with (dat k i j). rewrite EM. reflexivity.
    - rewrite E. cbn [bind fst snd] in *.
      assert (FS : fields sor ni nj (rate k)).
      { rewrite HS. split; [rewrite zlen_map, zlen_zseq by nia; lia|]. intros x y Hx Hy. pose proof (rowmajor_range nj ni y x Hy Hx). rewrite zget_map, zget_zseq by lia. cbn [option_map]. rewrite Z.add_0_l, rowmajor_div, rowmajor_mod by auto. reflexivity. }
      assert (A1 : all ni nj (Inv1 k) (D (0 + nj * ni)%Z)).
      { intros x y Hx Hy. destruct (HI x y Hx Hy) as (I1 & I2 & I3). unfold D. destruct (inner ni nj x y) eqn:EI.
        - pose proof EI as EI'. apply inner_spec in EI'. cbn [andb]. rewrite (proj2 (Z.ltb_lt ((y - 1) * ni + (x - 1)) (0 + nj * ni))) by nia. cbn [andb].
          destruct (missb_spec (dat k (x - 1) (y - 1))) as [M|M]; cbn [negb].
          + split; [|intros _ NM; contradiction]. split; [|split; auto]. intros lo hi H0 HV. apply I1; auto. intros; apply HV; auto; lia.
          + split; [|auto]. split; [|split; intros; exfalso; lia]. intros lo hi H0 HV. apply HV; auto; lia.
        - cbn [andb]. split; [|intros X; congruence]. split; [|split; auto]. intros lo hi H0 HV. apply I1; auto. intros; apply HV; auto; lia. }
      destruct (fill_all ni nj (normal lon lat) (rate k) ltac:(lia) ltac:(lia) (Inv1 k) (inv1_step k) cyclic t1 _ N1 (inv1_edge k) HF A1) as (t2 & T2 & -> & F2 & A2 & W2 & TI). cbn [bind].
      exists t2, T2, sor. split; [reflexivity|]. split; [auto|]. split; [auto|]. split; [auto|]. split; [auto|].
      intros i j Hi Hj. rewrite TI by lia. unfold D. replace (inner ni nj (i + 1) (j + 1)) with true by (symmetry; apply inner_spec; lia). replace (i + 1 - 1)%Z with i by lia. replace (j + 1 - 1)%Z with j by lia.
      rewrite (proj2 (Z.ltb_lt (j * ni + i) (0 + nj * ni))) by nia. cbn [andb]. destruct (missb (dat k i j)); reflexivity.
  Qed.
  Lemma level_run cf k tmp T : (0 <= k < nk)%Z -> fields cf ni nj (normal lon lat) -> fields tmp (ni + 2) (nj + 2) T -> (forall x y, (0 <= x < ni + 2)%Z -> (0 <= y < nj + 2)%Z -> Inv k x y (T x y)) ->
    exists tmp' n rm T', level ni nj cf cyclic missing stop k data tmp = Ok (tmp', (n, rm))
      /\ fields tmp' (ni + 2) (nj + 2) (after ni nj (normal lon lat) (rate k) T') /\ all ni nj (Inv1 k) T' /\ wrapped ni nj cyclic T'
      /\ (forall i j, (0 <= i < ni)%Z -> (0 <= j < nj)%Z -> Rabs (relaxed (normal lon lat) (rate k) T' i j - T' (i + 1)%Z (j + 1)%Z) <= rm)
      /\ (rm <= stop \/ n = (Z.of_nat MAX_ITER - 1)%Z) /\ (0 <= n < Z.of_nat MAX_ITER)%Z.
  Proof.
    intros Hk' HC HT HI. destruct n2 as (N1 & N2). destruct (level_start cf k tmp T Hk' HT HI) as (t2 & T2 & sor & -> & F2 & FS & A2 & W2 & _).
    destruct (iterate_run ni nj cf (normal lon lat) sor (rate k) ltac:(lia) ltac:(lia) HC FS (Inv1 k) (inv1_step k) cyclic stop N1 (inv1_edge k) MAX_ITER 0%Z t2 T2) as (t3 & n3 & r3 & T3 & E3 & F3 & A3 & W3 & M3 & S3 & N3); auto.
    { unfold MAX_ITER. lia. }
    exists t3, n3, r3, T3. repeat (split; auto); lia.
  Qed.

  (** The outcome of one level: values [V], last iteration [n], its largest change [rm]. *)
  Definition good (k : Z) (V : Z -> Z -> R) (n : Z) (rm : R) : Prop :=
    (forall i j, (0 <= i < ni)%Z -> (0 <= j < nj)%Z ->
       (~ is_missing missing (dat k i j) -> V i j = dat k i j)
       /\ (forall lo hi, lo <= 0 <= hi -> (forall k' i j, (0 <= k' <= k)%Z -> (0 <= i < ni)%Z -> (0 <= j < nj)%Z -> ~ is_missing missing (dat k' i j) -> lo <= dat k' i j <= hi) -> lo <= V i j <= hi)
       /\ (is_missing missing (dat k i j) -> Rabs (neighbour_mean lon lat cyclic V i j - V i j) <= 10 / 9 * rm)
       /\ (cyclic = false -> i = 0%Z -> is_missing missing (dat k i j) -> forall hi, 0 < hi -> (forall k' i j, (0 <= k' <= k)%Z -> (0 <= i < ni)%Z -> (0 <= j < nj)%Z -> ~ is_missing missing (dat k' i j) -> 0 <= dat k' i j <= hi) -> V i j < hi))
    /\ (rm <= stop \/ n = 3999%Z) /\ (0 <= n < 4000)%Z.

  Lemma balance k T rm F : (0 <= k < nk)%Z -> all ni nj (Inv1 k) T -> wrapped ni nj cyclic T ->
    (forall i j, (0 <= i < ni)%Z -> (0 <= j < nj)%Z -> Rabs (relaxed (normal lon lat) (rate k) T i j - T (i + 1)%Z (j + 1)%Z) <= rm) ->
    (forall i j, (0 <= i < ni)%Z -> (0 <= j < nj)%Z -> F i j = relaxed (normal lon lat) (rate k) T i j) ->
    forall i j, (0 <= i < ni)%Z -> (0 <= j < nj)%Z -> is_missing missing (dat k i j) -> Rabs (neighbour_mean lon lat cyclic F i j - F i j) <= 10 / 9 * rm.
  Proof.
    intros Hk' A W M HF i j Hi Hj HM. destruct n2 as (N1 & N2).
    assert (P0 : 0 <= rm) by (eapply Rle_trans; [apply Rabs_pos|apply (M i j Hi Hj)]).
    assert (I0 : forall i j, (0 <= i < ni)%Z -> (0 <= j < nj)%Z -> Rabs (F i j - T (i + 1)%Z (j + 1)%Z) <= rm) by (intros; rewrite HF by auto; auto).
    assert (AR : forall x y, (0 <= x < ni + 2)%Z -> (0 <= y < nj + 2)%Z -> Rabs (around ni nj cyclic F (x - 1) (y - 1) - T x y) <= rm).
    { intros x y Hx Hy. unfold around. destruct (Z.ltb_spec (y - 1) 0) as [Y0|Y0]; cbn [orb]; [|destruct (Z.leb_spec nj (y - 1)) as [Y1|Y1]].
      - rewrite (proj1 (proj2 (proj1 (A x y Hx Hy)))) by lia. rewrite Rminus_0_r, Rabs_R0. exact P0.
      - rewrite (proj1 (proj2 (proj1 (A x y Hx Hy)))) by lia. rewrite Rminus_0_r, Rabs_R0. exact P0.
      - destruct (Z.leb_spec 0 (x - 1)) as [X0|X0]; [destruct (Z.ltb_spec (x - 1) ni) as [X1|X1]|]; cbn [andb].
        + specialize (I0 (x - 1)%Z (y - 1)%Z ltac:(lia) ltac:(lia)). replace (x - 1 + 1)%Z with x in I0 by lia. replace (y - 1 + 1)%Z with y in I0 by lia. exact I0.
        + assert (x = ni + 1)%Z as -> by lia. destruct cyclic eqn:CY.
          * rewrite (proj2 (W eq_refl y ltac:(lia))). replace (ni + 1 - 1)%Z with ni by lia. rewrite Z.mod_same by lia. specialize (I0 0%Z (y - 1)%Z ltac:(lia) ltac:(lia)). replace (y - 1 + 1)%Z with y in I0 by lia. exact I0.
          * rewrite (proj2 (proj2 (proj1 (A (ni + 1)%Z y Hx Hy)))) by (auto; lia). rewrite Rminus_0_r, Rabs_R0. exact P0.
        + assert (x = 0)%Z as -> by lia. destruct cyclic eqn:CY.
          * rewrite (proj1 (W eq_refl y ltac:(lia))). replace ((0 - 1) mod ni)%Z with (ni - 1)%Z by (apply (Z.mod_unique _ _ (-1)); lia). specialize (I0 (ni - 1)%Z (y - 1)%Z ltac:(lia) ltac:(lia)). replace (y - 1 + 1)%Z with y in I0 by lia. replace (ni - 1 + 1)%Z with ni in I0 by lia. exact I0.
          * rewrite (proj2 (proj2 (proj1 (A 0%Z y Hx Hy)))) by (auto; lia). rewrite Rminus_0_r, Rabs_R0. exact P0. }
    pose proof (AR i (j + 1)%Z ltac:(lia) ltac:(lia)) as A1. pose proof (AR (i + 2)%Z (j + 1)%Z ltac:(lia) ltac:(lia)) as A2. pose proof (AR (i + 1)%Z j ltac:(lia) ltac:(lia)) as A3. pose proof (AR (i + 1)%Z (j + 2)%Z ltac:(lia) ltac:(lia)) as A4.
    replace (j + 1 - 1)%Z with j in A1, A2 by lia. replace (i + 1 - 1)%Z with i in A3, A4 by lia. replace (i + 2 - 1)%Z with (i + 1)%Z in A2 by lia. replace (j + 2 - 1)%Z with (j + 1)%Z in A4 by lia.
    pose proof (I0 i j Hi Hj) as A0. rewrite (HF i j Hi Hj) in *. unfold neighbour_mean. fold ni nj. fold (total lon lat i j).
    set (q1 := around ni nj cyclic F (i - 1) j) in *. set (q2 := around ni nj cyclic F (i + 1) j) in *. set (q3 := around ni nj cyclic F i (j - 1)) in *. set (q4 := around ni nj cyclic F i (j + 1)) in *.
    pose proof (normal_spec lon lat G i j Hj) as NS. unfold relaxed in *. unfold normal in *. cbv iota beta zeta in *. pose proof (total_pos lon lat G i j Hj) as TP.
    unfold rate in *. change (cell ni nj data k i j) with (dat k i j) in *. destruct (missb_spec (dat k i j)); [|contradiction]. unfold REL_COEF in *.
    replace ((w_west lon lat i j * q1 + w_east lon lat i j * q2 + w_south lat j * q3 + w_north lat j * q4) / total lon lat i j)
      with (w_west lon lat i j / total lon lat i j * q1 + w_east lon lat i j / total lon lat i j * q2 + w_south lat j / total lon lat i j * q3 + w_north lat j / total lon lat i j * q4) by (field; apply Rgt_not_eq; exact TP).
    set (cw := w_west lon lat i j / total lon lat i j) in *. set (ce := w_east lon lat i j / total lon lat i j) in *. set (cs := w_south lat j / total lon lat i j) in *. set (cn := w_north lat j / total lon lat i j) in *.
    destruct NS as (S1 & S2 & S3 & S4 & S5).
    set (t0 := T (i + 1)%Z (j + 1)%Z) in *. set (t1 := T i (j + 1)%Z) in *. set (t2 := T (i + 2)%Z (j + 1)%Z) in *. set (t3 := T (i + 1)%Z j) in *. set (t4 := T (i + 1)%Z (j + 2)%Z) in *.
    assert (AB : forall a, Rabs a <= rm -> - rm <= a <= rm) by (intros a; unfold Rabs; destruct (Rcase_abs a); lra).
    apply AB in A1, A2, A3, A4, A0.
    assert (HC : forall c q, 0 <= c -> - rm <= q <= rm -> - (c * rm) <= c * q <= c * rm).
    { intros c q Hc Hq. split; [replace (- (c * rm)) with (c * - rm) by ring|]; apply Rmult_le_compat_l; lra. }
    pose proof (HC cw _ ltac:(lra) A1). pose proof (HC ce _ ltac:(lra) A2). pose proof (HC cs _ S3 A3). pose proof (HC cn _ S4 A4).
    assert (RM : rm = cw * rm + ce * rm + cs * rm + cn * rm) by (transitivity ((cw + ce + cs + cn) * rm); [rewrite S5|]; ring).
    set (m := cw * t1 + ce * t2 + cs * t3 + cn * t4) in *.
    replace (cw * q1 + ce * q2 + cs * q3 + cn * q4 - (t0 + (m - t0) * (9 / 10)))
      with (cw * (q1 - t1) + ce * (q2 - t2) + cs * (q3 - t3) + cn * (q4 - t4) + (m - t0) / 10) by (unfold m; field).
    apply Rabs_le. lra.
  Qed.

  (** On a grid that is not cyclic the value beyond the first column is 0: a missing cell there ends below the data. *)
  Lemma below k T hi j : (0 <= j < nj)%Z -> all ni nj (Inv1 k) T -> cyclic = false -> is_missing missing (dat k 0 j) -> 0 < hi ->
    (forall k' i j, (0 <= k' <= k)%Z -> (0 <= i < ni)%Z -> (0 <= j < nj)%Z -> ~ is_missing missing (dat k' i j) -> 0 <= dat k' i j <= hi) -> relaxed (normal lon lat) (rate k) T 0 j < hi.
  Proof.
    intros Hj A CY HM H0 HV. destruct n2 as (N1 & N2).
    assert (B : forall x y, (0 <= x < ni + 2)%Z -> (0 <= y < nj + 2)%Z -> 0 <= T x y <= hi) by (intros x y Hx Hy; apply (proj1 (proj1 (A x y Hx Hy))); [lra|intros; apply HV; auto; lia]).
    assert (Z0 : T 0%Z (j + 1)%Z = 0) by (apply (proj2 (proj2 (proj1 (A 0%Z (j + 1)%Z ltac:(lia) ltac:(lia))))); auto).
    unfold relaxed, rate. change (cell ni nj data k 0 j) with (dat k 0 j). destruct (missb_spec (dat k 0 j)); [|contradiction].
    pose proof (normal_spec lon lat G 0 j Hj) as N. destruct (normal lon lat 0 j) as (((cw, ce), cs), cn). destruct N as (S1 & S2 & S3 & S4 & S5). rewrite Z0. change (0 + 1)%Z with 1%Z. change (0 + 2)%Z with 2%Z.
    pose proof (B 1%Z (j + 1)%Z ltac:(lia) ltac:(lia)) as B0. pose proof (B 2%Z (j + 1)%Z ltac:(lia) ltac:(lia)) as B1. pose proof (B 1%Z j ltac:(lia) ltac:(lia)) as B2. pose proof (B 1%Z (j + 2)%Z ltac:(lia) ltac:(lia)) as B3.
    assert (HC : forall c t, 0 <= c -> 0 <= t <= hi -> c * t <= c * hi) by (intros; apply Rmult_le_compat_l; lra).
    pose proof (HC ce _ ltac:(lra) B1). pose proof (HC cs _ S3 B2). pose proof (HC cn _ S4 B3). pose proof (Rmult_lt_0_compat _ _ S1 H0).
    assert (hi = cw * hi + ce * hi + cs * hi + cn * hi) by (transitivity ((cw + ce + cs + cn) * hi); [rewrite S5|]; ring). unfold REL_COEF. lra.
  Qed.
  (** Data no larger than the stopping criterion: one pass only. *)
  Lemma level_small cf tmp : (0 < nk)%Z -> 0 <= stop -> fields cf ni nj (normal lon lat) -> fields tmp (ni + 2) (nj + 2) (fun _ _ => 0) ->
    (forall i j, (0 <= i < ni)%Z -> (0 <= j < nj)%Z -> ~ is_missing missing (dat 0 i j) -> - stop <= dat 0 i j <= stop) ->
    exists tmp' rm T', level ni nj cf cyclic missing stop 0 data tmp = Ok (tmp', (0%Z, rm)) /\ fields tmp' (ni + 2) (nj + 2) T'
      /\ forall i j, (1 <= i < ni - 1)%Z -> (1 <= j < nj - 1)%Z -> is_missing missing (dat 0 i j) ->
         is_missing missing (dat 0 (i - 1) j) -> is_missing missing (dat 0 (i + 1) j) -> is_missing missing (dat 0 i (j - 1)) -> is_missing missing (dat 0 i (j + 1)) -> T' (i + 1)%Z (j + 1)%Z = 0.
  Proof.
    intros Hk0 H0 HC HT HV. destruct n2 as (N1 & N2).
    assert (HI0 : forall x y, (0 <= x < ni + 2)%Z -> (0 <= y < nj + 2)%Z -> Inv 0 x y 0) by (intros x y _ _; split; [intros lo hi H1 _; exact H1|auto]).
    destruct (level_start cf 0 tmp _ ltac:(lia) HT HI0) as (t2 & T2 & sor & -> & F2 & FS & A2 & W2 & TI).
    assert (MZ : forall i j, (0 <= i < ni)%Z -> (0 <= j < nj)%Z -> is_missing missing (dat 0 i j) -> T2 (i + 1)%Z (j + 1)%Z = 0).
    { intros i j Hi Hj HM. rewrite TI by auto. destruct (missb_spec (dat 0 i j)); [reflexivity|contradiction]. }
    assert (B : forall x y, (0 <= x < ni + 2)%Z -> (0 <= y < nj + 2)%Z -> - stop <= T2 x y <= stop).
    { intros x y Hx Hy. apply (proj1 (proj1 (A2 x y Hx Hy))); [lra|]. intros k i j Hk1. assert (k = 0)%Z as -> by lia. apply HV. }
    destruct (iterate_first ni nj cf (normal lon lat) sor (rate 0) ltac:(lia) ltac:(lia) HC FS cyclic stop 0 3999 t2 T2 H0 F2) as (t3 & rm & E & F3).
    - intros i j Hi Hj. unfold relaxed, rate. change (cell ni nj data 0 i j) with (dat 0 i j).
      pose proof (B i (j + 1)%Z ltac:(lia) ltac:(lia)) as B1. pose proof (B (i + 2)%Z (j + 1)%Z ltac:(lia) ltac:(lia)) as B2. pose proof (B (i + 1)%Z j ltac:(lia) ltac:(lia)) as B3. pose proof (B (i + 1)%Z (j + 2)%Z ltac:(lia) ltac:(lia)) as B4.
      pose proof (normal_spec lon lat G i j Hj) as N. destruct (normal lon lat i j) as (((cw, ce), cs), cn). destruct N as (S1 & S2 & S3 & S4 & S5).
      destruct (missb_spec (dat 0 i j)) as [M|M]; [|rewrite Rmult_0_r, Rplus_0_r, Rminus_diag_eq by reflexivity; rewrite Rabs_R0; exact H0].
      rewrite (MZ i j Hi Hj M). unfold REL_COEF.
      assert (HC' : forall c t, 0 <= c -> - stop <= t <= stop -> - (c * stop) <= c * t <= c * stop) by (intros c t Hc Ht; split; [replace (- (c * stop)) with (c * - stop) by ring|]; apply Rmult_le_compat_l; lra).
      pose proof (HC' cw _ ltac:(lra) B1). pose proof (HC' ce _ ltac:(lra) B2). pose proof (HC' cs _ S3 B3). pose proof (HC' cn _ S4 B4).
      assert (stop = cw * stop + ce * stop + cs * stop + cn * stop) by (transitivity ((cw + ce + cs + cn) * stop); [rewrite S5|]; ring). apply Rabs_le. lra.
    - exists t3, rm. eexists. split; [change MAX_ITER with (S 3999); exact E|]. split; [exact F3|].
      intros i j Hi Hj M M1 M2 M3 M4. unfold after. replace (inner ni nj (i + 1) (j + 1)) with true by (symmetry; apply inner_spec; lia). replace (i + 1 - 1)%Z with i by lia. replace (j + 1 - 1)%Z with j by lia.
      unfold relaxed. destruct (normal lon lat i j) as (((cw, ce), cs), cn). rewrite (MZ i j) by (auto; lia).
      pose proof (MZ (i - 1)%Z j ltac:(lia) ltac:(lia) M1) as E1. pose proof (MZ (i + 1)%Z j ltac:(lia) ltac:(lia) M2) as E2. pose proof (MZ i (j - 1)%Z ltac:(lia) ltac:(lia) M3) as E3. pose proof (MZ i (j + 1)%Z ltac:(lia) ltac:(lia) M4) as E4.
      replace (i - 1 + 1)%Z with i in E1 by lia. replace (i + 1 + 1)%Z with (i + 2)%Z in E2 by lia. replace (j - 1 + 1)%Z with j in E3 by lia. replace (j + 1 + 1)%Z with (j + 2)%Z in E4 by lia. rewrite E1, E2, E3, E4. ring.
  Qed.
  Theorem small_run : nk = 1%Z -> 0 <= stop -> (forall i j, (0 <= i < ni)%Z -> (0 <= j < nj)%Z -> ~ is_missing missing (dat 0 i j) -> - stop <= dat 0 i j <= stop) ->
    exists out rm, do_extrapolate ni nj nk lon lat data cyclic missing stop = Ok (out, [(0%Z, rm)])
      /\ forall i j, (1 <= i < ni - 1)%Z -> (1 <= j < nj - 1)%Z -> is_missing missing (dat 0 i j) ->
         is_missing missing (dat 0 (i - 1) j) -> is_missing missing (dat 0 (i + 1) j) -> is_missing missing (dat 0 i (j - 1)) -> is_missing missing (dat 0 i (j + 1)) -> cell ni nj out 0 i j = 0.
  Proof.
    intros H1 H0 HV. destruct n2 as (N1 & N2). unfold do_extrapolate. destruct (coefficients_run lon lat G) as (cf & EC & HC). fold ni nj in EC, HC. rewrite EC. cbn [bind]. rewrite H1.
    match goal with |- context [ofor 0 1 ?f ?s] => change (ofor 0 1 f s) with (do x <- f s 0%Z ; Ok x) end. cbv beta iota.
    destruct (level_small cf (alloc ((ni + 2) * (nj + 2))) ltac:(lia) H0 HC ltac:(apply fields_repeat; lia) HV) as (t & rm & T' & -> & F & HZ). cbn [bind].
    destruct (nest_grow ni nj (fun out j i => do v <- oget t ((j + 1) * (ni + 2) + i + 1) ; Ok (out ++ [v])) (fun i j => T' (i + 1)%Z (j + 1)%Z) [] ltac:(lia) ltac:(lia)) as (g & EG & FG).
    { intros b j i Hj Hi. replace ((j + 1) * (ni + 2) + i + 1)%Z with ((j + 1) * (ni + 2) + (i + 1))%Z by ring. rewrite (fields_get _ _ _ _ (i + 1) (j + 1) F) by lia. reflexivity. }
    rewrite EG. cbn [bind app]. exists g, rm. split; [reflexivity|]. intros i j Hi Hj M M1 M2 M3 M4. rewrite <- (HZ i j) by auto. unfold cell. apply at_zget. rewrite Z.mul_0_l, Z.add_0_l. apply FG; lia.
  Qed.

  Lemma level_good cf k tmp T : (0 <= k < nk)%Z -> fields cf ni nj (normal lon lat) -> fields tmp (ni + 2) (nj + 2) T -> (forall x y, (0 <= x < ni + 2)%Z -> (0 <= y < nj + 2)%Z -> Inv k x y (T x y)) ->
    exists tmp' n rm T', level ni nj cf cyclic missing stop k data tmp = Ok (tmp', (n, rm)) /\ fields tmp' (ni + 2) (nj + 2) T'
      /\ (forall x y, (0 <= x < ni + 2)%Z -> (0 <= y < nj + 2)%Z -> Inv (k + 1) x y (T' x y)) /\ good k (fun i j => T' (i + 1)%Z (j + 1)%Z) n rm.
  Proof.
    intros Hk' HC HT HI. destruct (level_run cf k tmp T Hk' HC HT HI) as (t & n & rm & T1 & E & F & A & W & M & S & N).
    assert (A2 : all ni nj (Inv1 k) (after ni nj (normal lon lat) (rate k) T1)) by (apply all_after; auto; apply inv1_step).
    exists t, n, rm. eexists. split; [exact E|]. split; [exact F|]. split; [intros x y Hx Hy; apply (A2 x y Hx Hy)|].
    assert (EV : forall i j, (0 <= i < ni)%Z -> (0 <= j < nj)%Z -> after ni nj (normal lon lat) (rate k) T1 (i + 1) (j + 1) = relaxed (normal lon lat) (rate k) T1 i j).
    { intros i j Hi Hj. unfold after. replace (inner ni nj (i + 1) (j + 1)) with true by (symmetry; apply inner_spec; lia). f_equal; lia. }
    split; [|split].
    - intros i j Hi Hj. destruct (A2 (i + 1)%Z (j + 1)%Z ltac:(lia) ltac:(lia)) as ((B1 & _) & B2). replace (i + 1 - 1)%Z with i in B2 by lia. replace (j + 1 - 1)%Z with j in B2 by lia. split; [|split; [|split]].
      + intros NM. apply B2; auto. apply inner_spec. lia.
      + intros lo hi H0 HV. apply B1; auto. intros k' i' j' Hk1 Hi' Hj'. apply HV; auto; lia.
      + intros HM. exact (balance k T1 rm _ Hk' A W M EV i j Hi Hj HM).
      + intros CY -> HM hi H0 HV. cbn beta. rewrite EV by auto. apply (below k T1 hi); auto.
    - destruct S as [S|S]; [auto|right]. rewrite S. reflexivity.
    - destruct N. split; auto.
  Qed.

  Lemma cell_app_l a b k i j : (0 <= k)%Z -> (0 <= i < ni)%Z -> (0 <= j < nj)%Z -> ((k + 1) * (ni * nj) <= zlen a)%Z -> cell ni nj (a ++ b) k i j = cell ni nj a k i j.
  Proof.
    intros Hk' Hi Hj HL. pose proof (rowmajor_range nj ni j i Hj Hi) as RR. unfold cell. set (p := (k * (ni * nj) + (j * ni + i))%Z).
    assert (Hp : (0 <= p < zlen a)%Z) by (unfold p; nia). unfold at_. apply app_nth1. unfold zlen in Hp. lia.
  Qed.
  Lemma cell_app_r a g F k i j : (0 <= k)%Z -> (0 <= i < ni)%Z -> (0 <= j < nj)%Z -> zlen a = (k * (ni * nj))%Z -> fields g ni nj F -> cell ni nj (a ++ g) k i j = F i j.
  Proof.
    intros Hk' Hi Hj HL (_ & HF). pose proof (rowmajor_range nj ni j i Hj Hi) as RR. unfold cell. apply at_zget. rewrite zget_app_r by lia. rewrite HL.
    replace (k * (ni * nj) + (j * ni + i) - k * (ni * nj))%Z with (j * ni + i)%Z by ring. auto.
  Qed.
  Lemma good_ext k V V' n rm : (0 <= k)%Z -> (forall i j, (0 <= i < ni)%Z -> (0 <= j < nj)%Z -> V i j = V' i j) -> good k V n rm -> good k V' n rm.
  Proof.
    intros Hk' HV (H1 & H2). destruct n2 as (N1 & N2). split; auto. intros i j Hi Hj. destruct (H1 i j Hi Hj) as (A & B & C & D). rewrite <- (HV i j Hi Hj). split; [auto|split; [auto|split; [|auto]]].
    intros HM. specialize (C HM). enough (E : neighbour_mean lon lat cyclic V' i j = neighbour_mean lon lat cyclic V i j) by (rewrite E; exact C).
    assert (AR : forall a b, around (zlen lon) (zlen lat) cyclic V' a b = around (zlen lon) (zlen lat) cyclic V a b).
    { intros a b. unfold around. fold ni nj. destruct (Z.ltb_spec b 0), (Z.leb_spec nj b); cbn [orb]; auto. destruct (Z.leb_spec 0 a), (Z.ltb_spec a ni); cbn [andb]; try (symmetry; apply HV; lia).
      all: destruct cyclic; auto; symmetry; apply HV; [|lia]; apply Z.mod_pos_bound; lia. }
    unfold neighbour_mean. rewrite !AR. reflexivity.
  Qed.

  Theorem extrapolate_run : exists out rep, do_extrapolate ni nj nk lon lat data cyclic missing stop = Ok (out, rep)
    /\ zlen out = (nk * (ni * nj))%Z /\ zlen rep = nk
    /\ forall k n rm, (0 <= k < nk)%Z -> zget rep k = Some (n, rm) -> good k (cell ni nj out k) n rm.
  Proof.
    destruct n2 as (N1 & N2). unfold do_extrapolate. destruct (coefficients_run lon lat G) as (cf & EC & HC). fold ni nj in EC, HC. rewrite EC. cbn [bind].
    match goal with |- context [ofor 0 nk ?f ?s] =>
      destruct (ofor_inv (fun k st => let '(tmp, out, rep) := st in exists T, fields tmp (ni + 2) (nj + 2) T /\ (forall x y, (0 <= x < ni + 2)%Z -> (0 <= y < nj + 2)%Z -> Inv k x y (T x y))
        /\ zlen out = (k * (ni * nj))%Z /\ zlen rep = k /\ forall k' n rm, (0 <= k' < k)%Z -> zget rep k' = Some (n, rm) -> good k' (cell ni nj out k') n rm) f 0 nk s Hk) as (((tmp, out), rep) & E & T & _ & _ & L1 & L2 & HG) end.
    - exists (fun _ _ => 0). split; [apply fields_repeat; lia|]. split; [|split; [reflexivity|split; [reflexivity|intros; lia]]].
      intros x y _ _. split; [intros lo hi H0 _; exact H0|auto].
    - intros k ((tmp, out), rep) Hk' (T & HT & HI & L1 & L2 & HG). destruct (level_good cf k tmp T ltac:(lia) HC HT HI) as (t & n & rm & T' & -> & F & I' & GD). cbn [bind].
      destruct (nest_grow ni nj (fun out j i => do v <- oget t ((j + 1) * (ni + 2) + i + 1) ; Ok (out ++ [v])) (fun i j => T' (i + 1)%Z (j + 1)%Z) out ltac:(lia) ltac:(lia)) as (g & EG & FG).
      { intros b j i Hj Hi. replace ((j + 1) * (ni + 2) + i + 1)%Z with ((j + 1) * (ni + 2) + (i + 1))%Z by ring. rewrite (fields_get _ _ _ _ (i + 1) (j + 1) F) by lia. reflexivity. }
      rewrite EG. cbn [bind]. eexists. split; [reflexivity|]. exists T'. split; [exact F|]. split; [exact I'|]. split; [|split].
      + rewrite zlen_app, L1, (proj1 FG). ring.
      + rewrite zlen_app, L2. reflexivity.
      + intros k' n' rm' Hk1 HZ. destruct (Z.eq_dec k' k) as [->|NE].
        * rewrite zget_app_r in HZ by lia. rewrite L2, Z.sub_diag in HZ. injection HZ as <- <-. eapply good_ext; [lia| |exact GD]. intros i j Hi Hj. symmetry. apply (cell_app_r out g (fun i j => T' (i + 1)%Z (j + 1)%Z)); auto; lia.
        * rewrite zget_app_l in HZ by lia. eapply good_ext; [lia| |apply (HG k' n' rm' ltac:(lia) HZ)]. intros i j Hi Hj. symmetry. apply cell_app_l; auto; [lia|rewrite L1; nia].
    - rewrite E. cbn [bind]. exists out, rep. rewrite Z.add_0_l in *. auto.
  Qed.
End Levels.
