(** * Proofs about the extrapolation of fregrid *)
From Coq Require Import Reals Lra Lia.
From Verif Require Import Base Loops Vec Lst Grid2 M_Interp Spec_Interp P_Interp P_Interp2 M_Vert M_Extrap Spec_Extrap.
Local Open Scope R_scope.

(** Nested loops over the cells, as one loop. *)
Lemma nest_grow {A} ni nj (step : list A -> Z -> Z -> outcome (list A)) (val : Z -> Z -> A) out : (0 <= ni)%Z -> (0 <= nj)%Z ->
  (forall b j i, (0 <= j < nj)%Z -> (0 <= i < ni)%Z -> step b j i = Ok (b ++ [val i j])) ->
  exists g, ofor 0 nj (fun b j => ofor 0 ni (fun b i => step b j i) b) out = Ok (out ++ g) /\ fields g ni nj val.
Proof.
  intros Hi Hj H. rewrite ofor_nest by auto.
  destruct (ofor_inv (fun n b => b = out ++ map (fun n => val (n mod ni) (n / ni))%Z (zseq 0 n)) (fun b n => step b (n / ni)%Z (n mod ni)%Z) 0 (nj * ni) out) as (b & E & Hb).
  - nia.
  - cbn. now rewrite app_nil_r.
  - intros n b Hn ->. destruct (divmod_range nj ni n Hi ltac:(lia)) as (_ & D1 & D2 & _). rewrite H by auto. eexists. split; [reflexivity|].
    rewrite (zseq_snoc 0 n) by lia. rewrite map_app. cbn [map]. now rewrite app_assoc.
  - rewrite E, Hb. eexists. split; [reflexivity|]. split; [rewrite zlen_map, zlen_zseq by nia; lia|].
    intros x y Hx Hy. pose proof (rowmajor_range nj ni y x Hy Hx). rewrite zget_map, zget_zseq by lia. cbn [option_map]. rewrite Z.add_0_l, rowmajor_div, rowmajor_mod by auto. reflexivity.
Qed.

(** The interior cell (i, j) is element (i + 1, j + 1) of the padded array. *)
Definition inner (ni nj x y : Z) : bool := ((1 <=? x) && (x <=? ni) && (1 <=? y) && (y <=? nj))%Z.
Lemma inner_spec ni nj x y : inner ni nj x y = true <-> (1 <= x <= ni /\ 1 <= y <= nj)%Z.
Proof. unfold inner. rewrite !andb_true_iff, !Z.leb_le. lia. Qed.
Definition relaxed (C : Z -> Z -> R * R * R * R) (S : Z -> Z -> R) (T : Z -> Z -> R) (i j : Z) : R :=
  let '(cw, ce, cs, cn) := C i j in
  T (i + 1)%Z (j + 1)%Z + (cw * T i (j + 1)%Z + ce * T (i + 2)%Z (j + 1)%Z + cs * T (i + 1)%Z j + cn * T (i + 1)%Z (j + 2)%Z - T (i + 1)%Z (j + 1)%Z) * S i j.

Section Pass.
  Variables (ni nj : Z) (cf : list (R * R * R * R)) (C : Z -> Z -> R * R * R * R) (sor : list R) (S : Z -> Z -> R).
  Hypotheses (Hi : (0 <= ni)%Z) (Hj : (0 <= nj)%Z) (HC : fields cf ni nj C) (HS : fields sor ni nj S).

  (** The array after one pass. *)
  Definition after (T : Z -> Z -> R) (x y : Z) : R := if inner ni nj x y then relaxed C S T (x - 1) (y - 1) else T x y.
  Lemma pass_run tmp T : fields tmp (ni + 2) (nj + 2) T ->
    exists tmp' rm, pass ni nj cf sor tmp = Ok (tmp', rm) /\ fields tmp' (ni + 2) (nj + 2) (after T)
      /\ (forall i j, (0 <= i < ni)%Z -> (0 <= j < nj)%Z -> Rabs (relaxed C S T i j - T (i + 1)%Z (j + 1)%Z) <= rm)
      /\ forall B, 0 <= B -> (forall i j, (0 <= i < ni)%Z -> (0 <= j < nj)%Z -> Rabs (relaxed C S T i j - T (i + 1)%Z (j + 1)%Z) <= B) -> rm <= B.
  Proof.
    intros HT. unfold pass, after.
    assert (G : forall x y, (0 <= x < ni + 2)%Z -> (0 <= y < nj + 2)%Z -> oget tmp (y * (ni + 2) + x) = Ok (T x y)) by (intros; apply (fields_get _ _ _ _ _ _ HT); auto).
    destruct (nest_grow ni nj (fun res j i =>
      do c <- oget cf (j * ni + i) ; let '(cw, ce, cs, cn) := c in
      do t2 <- oget tmp ((j + 1) * (ni + 2) + i + 1) ;
      do t3 <- oget tmp ((j + 1) * (ni + 2) + i) ; do t4 <- oget tmp ((j + 1) * (ni + 2) + i + 2) ;
      do t5 <- oget tmp (j * (ni + 2) + i + 1) ; do t6 <- oget tmp ((j + 2) * (ni + 2) + i + 1) ;
      Ok (res ++ [cw * t3 + ce * t4 + cs * t5 + cn * t6 - t2]))
      (fun i j => let '(cw, ce, cs, cn) := C i j in cw * T i (j + 1)%Z + ce * T (i + 2)%Z (j + 1)%Z + cs * T (i + 1)%Z j + cn * T (i + 1)%Z (j + 2)%Z - T (i + 1)%Z (j + 1)%Z) [] Hi Hj) as (res & ER & HR).
    { intros b j i Hj' Hi'. rewrite (fields_get _ _ _ _ _ _ HC) by auto. cbn [bind]. destruct (C i j) as (((cw, ce), cs), cn).
      rewrite <- !Z.add_assoc. rewrite !G by lia. reflexivity. }
    cbn [app] in ER. rewrite ER. cbn [bind]. rewrite ofor_nest by auto.
    set (D := fun n x y => if inner ni nj x y && ((y - 1) * ni + (x - 1) <? n)%Z then relaxed C S T (x - 1) (y - 1) else T x y).
    match goal with |- context [ofor 0 (nj * ni) ?f _] =>
      destruct (ofor_inv (fun n st => fields (fst st) (ni + 2) (nj + 2) (D n) /\ (forall i j, (0 <= i < ni)%Z -> (0 <= j < nj)%Z -> (j * ni + i < n)%Z -> Rabs (relaxed C S T i j - T (i + 1)%Z (j + 1)%Z) <= snd st) /\ forall B, 0 <= B -> (forall i j, (0 <= i < ni)%Z -> (0 <= j < nj)%Z -> Rabs (relaxed C S T i j - T (i + 1)%Z (j + 1)%Z) <= B) -> snd st <= B) f 0 (nj * ni)%Z (tmp, 0)) as ((tmp', rm) & E & HF & HM & HU) end.
    - nia.
    - split; [|split; [intros; nia|intros B HB _; exact HB]]. eapply fields_ext; [|exact HT]. intros x y Hx Hy. unfold D. destruct (inner ni nj x y) eqn:EI; [|reflexivity]. apply inner_spec in EI. destruct (Z.ltb_spec ((y - 1) * ni + (x - 1)) 0); [nia|reflexivity].
    - intros n (t, rm) Hn (Ht & Hm & Hu). cbn [fst snd] in Ht, Hm, Hu. destruct (divmod_range nj ni n Hi ltac:(lia)) as (Hp & D1 & D2 & D3). set (j := (n / ni)%Z) in *. set (i := (n mod ni)%Z) in *.
      rewrite (fields_get _ _ _ _ _ _ HR) by auto. rewrite (fields_get _ _ _ _ _ _ HS) by auto. cbn [bind].
      replace ((j + 1) * (ni + 2) + i + 1)%Z with ((j + 1) * (ni + 2) + (i + 1))%Z by ring.
      rewrite (fields_get _ _ _ _ (i + 1) (j + 1) Ht) by lia. cbn [bind].
      assert (E0 : D n (i + 1)%Z (j + 1)%Z = T (i + 1)%Z (j + 1)%Z). { unfold D. replace ((j + 1 - 1) * ni + (i + 1 - 1))%Z with n by lia. rewrite Z.ltb_irrefl, andb_false_r. reflexivity. }
      destruct (fields_set t (ni + 2) (nj + 2) (D n) (D (n + 1)%Z) (i + 1) (j + 1) (relaxed C S T i j) Ht) as (t' & E1 & F1); [lia|lia| |].
      + intros x y Hx Hy. unfold D. destruct (Z.eqb_spec x (i + 1)) as [->|N1]; [destruct (Z.eqb_spec y (j + 1)) as [->|N2]|]; cbn [andb].
        * replace (inner ni nj (i + 1) (j + 1)) with true by (symmetry; apply inner_spec; lia). replace ((j + 1 - 1) * ni + (i + 1 - 1))%Z with n by lia. rewrite (proj2 (Z.ltb_lt n (n + 1))) by lia. cbn [andb]. f_equal; lia.
        * destruct (inner ni nj (i + 1) y) eqn:EI; [|reflexivity]. apply inner_spec in EI. cbn [andb]. destruct (Z.ltb_spec ((y - 1) * ni + (i + 1 - 1)) n), (Z.ltb_spec ((y - 1) * ni + (i + 1 - 1)) (n + 1)); auto; try lia. exfalso.
          assert (E9 : ((y - 1) * ni + (i + 1 - 1) = j * ni + i)%Z) by lia. apply rowmajor_inj in E9; lia.
        * destruct (inner ni nj x y) eqn:EI; [|reflexivity]. apply inner_spec in EI. cbn [andb]. destruct (Z.ltb_spec ((y - 1) * ni + (x - 1)) n), (Z.ltb_spec ((y - 1) * ni + (x - 1)) (n + 1)); auto; try lia. exfalso.
          assert (E9 : ((y - 1) * ni + (x - 1) = j * ni + i)%Z) by lia. apply rowmajor_inj in E9; lia.
      + match goal with |- context [oset t ?p ?v] => replace v with (relaxed C S T i j) end. 2:{ rewrite E0. unfold relaxed. destruct (C i j) as (((cw, ce), cs), cn). reflexivity. }
        rewrite E1. cbn [bind]. eexists. split; [reflexivity|]. cbn [fst snd].
        match goal with |- context [Rmax (Rabs ?e) rm] => replace e with (relaxed C S T i j - T (i + 1)%Z (j + 1)%Z) by (unfold relaxed; destruct (C i j) as (((cw, ce), cs), cn); ring) end.
        split; [exact F1|]. split; [|intros B HB1 HB2; apply Rmax_lub; [apply HB2; auto|apply Hu; auto]]. intros i' j' Hi' Hj' Hlt.
        destruct (Z.lt_ge_cases (j' * ni + i') n) as [L|L]; [eapply Rle_trans; [apply Hm; auto|apply Rmax_r]|].
        assert (E9 : (j' * ni + i' = j * ni + i)%Z) by lia. apply rowmajor_inj in E9; auto. destruct E9 as (-> & ->). eapply Rle_trans; [|apply Rmax_l]. lra.
    - exists tmp', rm. split; [exact E|]. cbn [fst snd] in HF, HM, HU. split; [|split; [intros i j Hi' Hj'; apply HM; auto; nia|exact HU]]. eapply fields_ext; [|exact HF]. intros x y Hx Hy. unfold D. destruct (inner ni nj x y) eqn:EI; [|reflexivity]. apply inner_spec in EI. cbn [andb].
      destruct (Z.ltb_spec ((y - 1) * ni + (x - 1)) (0 + nj * ni)); [reflexivity|nia].
  Qed.

  Lemma fill_run cyclic tmp T : (2 <= ni)%Z -> fields tmp (ni + 2) (nj + 2) T ->
    exists tmp', fill_boundaries ni nj cyclic tmp = Ok tmp'
      /\ fields tmp' (ni + 2) (nj + 2) (fun x y => if cyclic && (1 <=? y)%Z && (y <=? nj)%Z then (if (x =? 0)%Z then T ni y else if (x =? ni + 1)%Z then T 1%Z y else T x y) else T x y).
  Proof.
    intros H2 HT. unfold fill_boundaries. destruct cyclic; cbn [andb]; [|exists tmp; split; auto].
    destruct (ofor_fields (fun d j => do v <- oget d (j * (ni + 2) + ni) ; do d <- oset d (j * (ni + 2)) v ; do v <- oget d (j * (ni + 2) + 1) ; oset d (j * (ni + 2) + ni + 1) v)
      (ni + 2) (nj + 2) 1 nj (fun j x y => if (1 <=? y)%Z && (y <? j)%Z then (if (x =? 0)%Z then T ni y else if (x =? ni + 1)%Z then T 1%Z y else T x y) else T x y) tmp Hj) as (t & E & F).
    - eapply fields_ext; [|exact HT]. intros x y Hx Hy. cbn beta. destruct (Z.leb_spec 1 y), (Z.ltb_spec y 1); cbn; auto; lia.
    - intros j d Hjj Hd. rewrite (fields_get _ _ _ _ ni j Hd) by lia. cbn [bind]. rewrite Z.ltb_irrefl, andb_false_r.
      replace (oset d (j * (ni + 2)) (T ni j)) with (oset d (j * (ni + 2) + 0) (T ni j)) by (f_equal; lia).
      destruct (fields_set d _ _ _ (fun x y => if (x =? 0)%Z && (y =? j)%Z then T ni j else if (1 <=? y)%Z && (y <? j)%Z then (if (x =? 0)%Z then T ni y else if (x =? ni + 1)%Z then T 1%Z y else T x y) else T x y) 0 j (T ni j) Hd) as (d1 & E1 & F1); [lia|lia|intros; reflexivity|].
      rewrite E1. cbn [bind]. rewrite (fields_get _ _ _ _ 1 j F1) by lia. cbn [bind Z.eqb andb]. rewrite Z.ltb_irrefl, andb_false_r.
      replace (j * (ni + 2) + ni + 1)%Z with (j * (ni + 2) + (ni + 1))%Z by ring.
      apply (fields_set d1 _ _ _ _ _ _ _ F1); [lia|lia|]. intros x y Hx Hy. cbn beta.
      destruct (Z.eqb_spec y j) as [->|N]; rewrite ?andb_true_r, ?andb_false_r.
      + rewrite (proj2 (Z.leb_le 1 j)) by lia. rewrite (proj2 (Z.ltb_lt j (j + 1))) by lia. rewrite Z.ltb_irrefl. cbn [andb]. destruct (Z.eqb_spec x 0), (Z.eqb_spec x (ni + 1)); auto; lia.
      + destruct (Z.leb_spec 1 y), (Z.ltb_spec y j), (Z.ltb_spec y (j + 1)); cbn; auto; lia.
    - exists t. split; auto. eapply fields_ext; [|exact F]. intros x y Hx Hy. cbn beta. destruct (Z.leb_spec 1 y), (Z.leb_spec y nj), (Z.ltb_spec y (1 + nj)); cbn; auto; lia.
  Qed.

  (** The edges of the padded array of a cyclic grid hold the values of the opposite sides. *)
  Definition wrapped (cyclic : bool) (T : Z -> Z -> R) : Prop := cyclic = true -> forall y, (1 <= y <= nj)%Z -> T 0%Z y = T ni y /\ T (ni + 1)%Z y = T 1%Z y.
  (** An invariant [I x y v] of the elements of the padded array kept by one relaxation step holds before the last pass. *)
  Variable (I : Z -> Z -> R -> Prop).
  Definition all (T : Z -> Z -> R) : Prop := forall x y, (0 <= x < ni + 2)%Z -> (0 <= y < nj + 2)%Z -> I x y (T x y).
  Hypothesis (HI : forall i j T, (0 <= i < ni)%Z -> (0 <= j < nj)%Z -> all T -> I (i + 1)%Z (j + 1)%Z (relaxed C S T i j)).
  Lemma all_after T : all T -> all (after T).
  Proof. intros HT x y Hx Hy. unfold after. destruct (inner ni nj x y) eqn:EI; [|apply HT; auto]. apply inner_spec in EI. specialize (HI (x - 1)%Z (y - 1)%Z T ltac:(lia) ltac:(lia) HT). replace (x - 1 + 1)%Z with x in HI by lia. replace (y - 1 + 1)%Z with y in HI by lia. exact HI. Qed.
  Lemma fill_all cyclic tmp T : (2 <= ni)%Z -> (cyclic = true -> forall y v, (1 <= y <= nj)%Z -> (I ni y v -> I 0%Z y v) /\ (I 1%Z y v -> I (ni + 1)%Z y v)) ->
    fields tmp (ni + 2) (nj + 2) T -> all T -> exists tmp' T', fill_boundaries ni nj cyclic tmp = Ok tmp' /\ fields tmp' (ni + 2) (nj + 2) T' /\ all T' /\ wrapped cyclic T' /\ (forall x y, (1 <= x <= ni)%Z -> T' x y = T x y).
  Proof.
    intros H2 HB HT HA. destruct (fill_run cyclic tmp T H2 HT) as (t2 & E & F2). exists t2. eexists. split; [exact E|]. split; [exact F2|]. split; [|split].
    - intros x y Hx Hy. destruct cyclic; cbn [andb]; [|apply HA; auto]. destruct (Z.leb_spec 1 y), (Z.leb_spec y nj); cbn [andb]; try (apply HA; auto; lia).
      destruct (Z.eqb_spec x 0) as [->|]; [|destruct (Z.eqb_spec x (ni + 1)) as [->|]; [|apply HA; auto]].
      + apply (HB eq_refl y _ ltac:(lia)). apply HA; lia.
      + apply (HB eq_refl y _ ltac:(lia)). apply HA; lia.
    - intros -> y Hy. cbn [andb]. rewrite (proj2 (Z.leb_le 1 y)), (proj2 (Z.leb_le y nj)) by lia. cbn [andb]. rewrite Z.eqb_refl, (proj2 (Z.eqb_neq (ni + 1) 0)), Z.eqb_refl by lia.
      rewrite (proj2 (Z.eqb_neq ni 0)), (proj2 (Z.eqb_neq ni (ni + 1))), (proj2 (Z.eqb_neq 1 0)), (proj2 (Z.eqb_neq 1 (ni + 1))) by lia. auto.
    - intros x y Hx. cbn beta. destruct (cyclic && (1 <=? y)%Z && (y <=? nj)%Z); [|reflexivity]. rewrite (proj2 (Z.eqb_neq x 0)), (proj2 (Z.eqb_neq x (ni + 1))) by lia. reflexivity.
  Qed.
  Lemma iterate_run cyclic stop : (2 <= ni)%Z ->
    (cyclic = true -> forall y v, (1 <= y <= nj)%Z -> (I ni y v -> I 0%Z y v) /\ (I 1%Z y v -> I (ni + 1)%Z y v)) ->
    forall rest n tmp T, rest <> O -> (n + Z.of_nat rest = Z.of_nat MAX_ITER)%Z -> fields tmp (ni + 2) (nj + 2) T -> all T -> wrapped cyclic T ->
    exists tmp' n' rm T', iterate ni nj cf sor cyclic stop n rest tmp = Ok (tmp', (n', rm)) /\ fields tmp' (ni + 2) (nj + 2) (after T') /\ all T' /\ wrapped cyclic T'
      /\ (forall i j, (0 <= i < ni)%Z -> (0 <= j < nj)%Z -> Rabs (relaxed C S T' i j - T' (i + 1)%Z (j + 1)%Z) <= rm) /\ (rm <= stop \/ n' = (Z.of_nat MAX_ITER - 1)%Z) /\ (n <= n' < Z.of_nat MAX_ITER)%Z.
  Proof.
    intros H2 HB. induction rest as [|rest IH]; intros n tmp T NZ Hn HT HTI HW; [congruence|]. cbn [iterate].
    destruct (pass_run tmp T HT) as (t1 & rm & -> & F1 & HM & _). cbn [bind].
    destruct (rle_spec rm stop) as [L|L]; cbn [orb]; [|destruct (Z.eqb_spec n (Z.of_nat MAX_ITER - 1)) as [E|E]].
    - exists t1, n, rm, T. repeat (split; auto); lia.
    - exists t1, n, rm, T. repeat (split; auto); lia.
    - destruct (fill_all cyclic t1 _ H2 HB F1 (all_after T HTI)) as (t2 & T2 & -> & F2 & A2 & W2 & _). cbn [bind].
      destruct (IH (n + 1)%Z t2 T2 ltac:(intros ->; lia) ltac:(lia) F2 A2 W2) as (t3 & n3 & r3 & T3 & E3 & F3 & A3 & W3 & M3 & S3 & N3). exists t3, n3, r3, T3. repeat (split; auto); lia.
  Qed.
  (** If the first changes are small the iteration ends with the first pass. *)
  Lemma iterate_first cyclic stop n rest tmp T : (0 <= stop) -> fields tmp (ni + 2) (nj + 2) T ->
    (forall i j, (0 <= i < ni)%Z -> (0 <= j < nj)%Z -> Rabs (relaxed C S T i j - T (i + 1)%Z (j + 1)%Z) <= stop) ->
    exists tmp' rm, iterate ni nj cf sor cyclic stop n (Datatypes.S rest) tmp = Ok (tmp', (n, rm)) /\ fields tmp' (ni + 2) (nj + 2) (after T).
  Proof.
    intros H0 HT HM. cbn [iterate]. destruct (pass_run tmp T HT) as (t1 & rm & -> & F1 & _ & HU). cbn [bind]. specialize (HU stop H0 HM).
    destruct (rle_spec rm stop) as [L|L]; [|lra]. cbn [orb]. eauto.
  Qed.
End Pass.

(** ** The coefficients *)
Lemma spacing_run x : (2 <= zlen x)%Z -> exists u t, spacing (zlen x) x = Ok (u, t) /\ vec u (zlen x) (gap x) /\ vec t (zlen x) (width x).
Proof.
  intros H2. set (n := zlen x) in *. unfold spacing.
  destruct (ofor_fill (fun u j => do a <- oget x (j + 1) ; do b <- oget x j ; oset u j (a - b)) n 0 (n - 1) (fun _ => 0) (gap x) (alloc n)) as (u & -> & VU); [lia|lia|lia|apply vec_repeat; lia| |].
  { intros i g F Hi _ _ _. rewrite !get_at by (fold n; lia). cbn [bind]. f_equal. unfold gap. fold n. replace (Z.max 0 (Z.min i (n - 2))) with i by lia. reflexivity. }
  cbn [bind]. rewrite (vec_get _ _ _ (n - 2) VU) by lia. cbn [bind].
  destruct (vec_set u n _ (gap x) (n - 1) (gap x (n - 2)) VU) as (u' & EU & VU'); [lia| |].
  { intros i Hi. destruct (Z.eqb_spec i (n - 1)) as [->|N].
    - unfold gap. fold n. replace (Z.max 0 (Z.min (n - 1) (n - 2))) with (n - 2)%Z by lia. replace (Z.max 0 (Z.min (n - 2) (n - 2))) with (n - 2)%Z by lia. reflexivity.
    - rewrite (proj2 (Z.leb_le 0 i)), (proj2 (Z.ltb_lt i (0 + (n - 1)))) by lia. reflexivity. }
  match goal with |- context [oset u (n - 1) ?v] => replace v with (gap x (n - 2)) end.
  2:{ rewrite (proj2 (Z.leb_le 0 (n - 2))), (proj2 (Z.ltb_lt (n - 2) (0 + (n - 1)))) by lia. reflexivity. }
  rewrite EU. cbn [bind].
  destruct (ofor_fill (fun t j => do a <- oget u' j ; do b <- oget u' (j - 1) ; oset t j (1 / 2 * (a + b))) n 1 (n - 1) (fun _ => 0) (width x) (alloc n)) as (t & -> & VT); [lia|lia|lia|apply vec_repeat; lia| |].
  { intros i g F Hi _ _ _. rewrite !(vec_get _ _ _ _ VU') by lia. cbn [bind]. f_equal. unfold width. replace (Z.max 1 i) with i by lia. lra. }
  cbn [bind]. rewrite (vec_get _ _ _ 1 VT) by lia. cbn [bind].
  destruct (vec_set t n _ (width x) 0 (width x 1) VT) as (t' & ET & VT'); [lia| |].
  { intros i Hi. destruct (Z.eqb_spec i 0) as [->|N]; [reflexivity|]. rewrite (proj2 (Z.leb_le 1 i)), (proj2 (Z.ltb_lt i (1 + (n - 1)))) by lia. reflexivity. }
  match goal with |- context [oset t 0 ?v] => replace v with (width x 1) end.
  2:{ rewrite (proj2 (Z.ltb_lt 1 (1 + (n - 1)))) by lia. reflexivity. }
  rewrite ET. cbn [bind]. exists u', t'. auto.
Qed.
Lemma gap_pos x k : (2 <= zlen x)%Z -> increasing x -> 0 < gap x k.
Proof. intros H2 H. unfold gap. specialize (H (Z.max 0 (Z.min k (zlen x - 2))) (Z.max 0 (Z.min k (zlen x - 2)) + 1)%Z ltac:(lia) ltac:(lia)). lra. Qed.
Lemma width_pos x k : (2 <= zlen x)%Z -> increasing x -> 0 < width x k.
Proof. intros H2 H. unfold width. pose proof (gap_pos x (Z.max 1 k - 1) H2 H). pose proof (gap_pos x (Z.max 1 k) H2 H). lra. Qed.

Definition total (lon lat : list R) i j : R := w_west lon lat i j + w_east lon lat i j + w_south lat j + w_north lat j.
Definition normal (lon lat : list R) i j : R * R * R * R :=
  (w_west lon lat i j / total lon lat i j, w_east lon lat i j / total lon lat i j, w_south lat j / total lon lat i j, w_north lat j / total lon lat i j).
Section Weights.
  Variables (lon lat : list R).
  Hypothesis (G : lonlat_grid lon lat).
  Lemma cos_lat j : (0 <= j < zlen lat)%Z -> 0 < cos (at_ lat j).
  Proof. intros Hj. destruct G as (_ & _ & _ & _ & H & _). specialize (H j Hj). apply cos_gt_0; lra. Qed.
  Lemma edge_n j : (0 <= j < zlen lat)%Z -> 0 <= cos (at_ lat j + gap lat j / 2).
  Proof.
    intros Hj. destruct G as (_ & N & _ & IL & H & _ & HN). pose proof (gap_pos lat j N IL) as HG. pose proof (H j Hj). apply cos_ge_0; [lra|].
    destruct (Z.eq_dec j (zlen lat - 1)) as [->|NE].
    - unfold gap. replace (Z.max 0 (Z.min (zlen lat - 1) (zlen lat - 2))) with (zlen lat - 2)%Z by lia. replace (zlen lat - 2 + 1)%Z with (zlen lat - 1)%Z by lia. lra.
    - specialize (H (j + 1)%Z ltac:(lia)). unfold gap. replace (Z.max 0 (Z.min j (zlen lat - 2))) with j by lia. lra.
  Qed.
  Lemma edge_s j : (0 <= j < zlen lat)%Z -> 0 <= cos (at_ lat j - gap lat (j - 1) / 2).
  Proof.
    intros Hj. destruct G as (_ & N & _ & IL & H & HS & _). pose proof (gap_pos lat (j - 1) N IL) as HG. pose proof (H j Hj). apply cos_ge_0; [|lra].
    destruct (Z.eq_dec j 0) as [->|NE].
    - unfold gap. replace (Z.max 0 (Z.min (0 - 1) (zlen lat - 2))) with 0%Z by lia. change (0 + 1)%Z with 1%Z. lra.
    - specialize (H (j - 1)%Z ltac:(lia)). unfold gap. replace (Z.max 0 (Z.min (j - 1) (zlen lat - 2))) with (j - 1)%Z by lia. replace (j - 1 + 1)%Z with j by lia. lra.
  Qed.
  Lemma weights_sign i j : (0 <= j < zlen lat)%Z -> 0 < w_west lon lat i j /\ 0 < w_east lon lat i j /\ 0 <= w_south lat j /\ 0 <= w_north lat j.
  Proof.
    intros Hj. destruct G as (NX & NY & IX & IY & _). pose proof (cos_lat j Hj). pose proof (edge_n j Hj). pose proof (edge_s j Hj).
    pose proof (gap_pos lon (i - 1) NX IX). pose proof (gap_pos lon i NX IX). pose proof (width_pos lon i NX IX). pose proof (gap_pos lat (j - 1) NY IY). pose proof (gap_pos lat j NY IY). pose proof (width_pos lat j NY IY).
    assert (P2 : 0 < cos (at_ lat j) ^ 2) by (apply pow_lt; auto).
    unfold w_west, w_east, w_south, w_north. repeat split.
    1,2: repeat apply Rdiv_lt_0_compat; try lra; apply Rmult_lt_0_compat; auto.
    all: apply Rmult_le_pos; [apply Rmult_le_pos; auto|]; apply Rlt_le, Rinv_0_lt_compat; auto; apply Rmult_lt_0_compat; auto.
  Qed.
  Lemma total_pos i j : (0 <= j < zlen lat)%Z -> 0 < total lon lat i j.
  Proof. intros Hj. pose proof (weights_sign i j Hj). unfold total. lra. Qed.
  Lemma normal_spec i j : (0 <= j < zlen lat)%Z -> let '(cw, ce, cs, cn) := normal lon lat i j in 0 < cw /\ 0 < ce /\ 0 <= cs /\ 0 <= cn /\ cw + ce + cs + cn = 1.
  Proof.
    intros Hj. unfold normal. pose proof (weights_sign i j Hj) as (A & B & D & E). pose proof (total_pos i j Hj) as P. assert (PI' := Rinv_0_lt_compat _ P).
    repeat split.
    1,2: apply Rdiv_lt_0_compat; auto. 1,2: apply Rmult_le_pos; lra.
    unfold total in *. field. lra.
  Qed.
  Lemma coefficients_run : exists cf, coefficients (zlen lon) (zlen lat) lon lat = Ok cf /\ fields cf (zlen lon) (zlen lat) (normal lon lat).
  Proof.
    assert (G' := G). destruct G' as (NX & NY & IX & IY & _). set (ni := zlen lon) in *. set (nj := zlen lat) in *. unfold coefficients.
    destruct (spacing_run lat NY) as (dyu & dyt & EY & VYU & VYT). fold nj in EY, VYU, VYT. rewrite EY. cbn [bind]. destruct (spacing_run lon NX) as (dxu & dxt & EX & VXU & VXT). fold ni in EX, VXU, VXT. rewrite EX. cbn [bind].
    destruct (nest_grow ni nj (fun cf j i => Ok (cf ++ [normal lon lat i j])) (normal lon lat) [] ltac:(lia) ltac:(lia)) as (cf & E & F).
    { intros b j i _ _. reflexivity. }
    exists cf. split; [|exact F]. rewrite app_nil_l in E. rewrite <- E. apply ofor_ext. intros s j Hj. rewrite get_at by (fold nj; lia). cbn [bind].
    match goal with |- bind ?a _ = _ => replace a with (Ok (at_ lat j + gap lat j / 2)) end.
    2:{ destruct (Z.eqb_spec j (nj - 1)) as [->|N]; rewrite get_at by (fold nj; lia); cbn [bind]; f_equal; unfold gap; fold nj.
        - replace (Z.max 0 (Z.min (nj - 1) (nj - 2))) with (nj - 2)%Z by lia. replace (nj - 2 + 1)%Z with (nj - 1)%Z by lia. replace (nj - 1 - 1)%Z with (nj - 2)%Z by lia. lra.
        - replace (Z.max 0 (Z.min j (nj - 2))) with j by lia. lra. }
    cbn [bind].
    match goal with |- bind ?a _ = _ => replace a with (Ok (at_ lat j - gap lat (j - 1) / 2)) end.
    2:{ destruct (Z.eqb_spec j 0) as [->|N]; rewrite get_at by (fold nj; lia); cbn [bind]; f_equal; unfold gap; fold nj.
        - replace (Z.max 0 (Z.min (0 - 1) (nj - 2))) with 0%Z by lia. lra.
        - replace (Z.max 0 (Z.min (j - 1) (nj - 2))) with (j - 1)%Z by lia. replace (j - 1 + 1)%Z with j by lia. lra. }
    cbn [bind]. apply ofor_ext. intros s' i Hi.
    assert (GX : forall d y, vec d (zlen y) (gap y) -> forall k, (0 <= k < zlen y)%Z -> (2 <= zlen y)%Z -> oget d (Z.max (k - 1) 0) = Ok (gap y (k - 1))).
    { intros d y V k Hk H2. rewrite (vec_get _ _ _ _ V) by lia. f_equal. unfold gap. replace (Z.max 0 (Z.min (Z.max (k - 1) 0) (zlen y - 2))) with (Z.max 0 (Z.min (k - 1) (zlen y - 2))) by lia. reflexivity. }
    rewrite (vec_get _ _ _ j VYT), (vec_get _ _ _ j VYU), (GX dyu lat VYU j) by (fold nj; lia). rewrite (vec_get _ _ _ i VXT), (vec_get _ _ _ i VXU), (GX dxu lon VXU i) by (fold ni; lia). cbn [bind].
    do 3 f_equal. unfold normal, total.
    pose proof (cos_lat j ltac:(fold nj; lia)) as PC. pose proof (total_pos i j ltac:(fold nj; lia)) as PT. unfold total in PT.
    pose proof (gap_pos lon (i - 1) NX IX). pose proof (gap_pos lon i NX IX). pose proof (width_pos lon i NX IX). pose proof (gap_pos lat (j - 1) NY IY). pose proof (gap_pos lat j NY IY). pose proof (width_pos lat j NY IY).
    set (W := w_west lon lat i j) in *. set (Ea := w_east lon lat i j) in *. set (So := w_south lat j) in *. set (No := w_north lat j) in *.
    assert (E1 : cos (at_ lat j + gap lat j / 2) * (1 / cos (at_ lat j)) / (width lat j * gap lat j) = No) by (unfold No, w_north; field; repeat split; lra).
    assert (E2 : cos (at_ lat j - gap lat (j - 1) / 2) * (1 / cos (at_ lat j)) / (width lat j * gap lat (j - 1)) = So) by (unfold So, w_south; field; repeat split; lra).
    assert (E3 : 1 / cos (at_ lat j) * (1 / cos (at_ lat j)) / (gap lon i * width lon i) = Ea) by (unfold Ea, w_east; field; repeat split; lra).
    assert (E4 : 1 / cos (at_ lat j) * (1 / cos (at_ lat j)) / (gap lon (i - 1) * width lon i) = W) by (unfold W, w_west; field; repeat split; lra).
    rewrite E1, E2, E3, E4.
    assert (EQ : forall a, a * (1 / (No + So + Ea + W)) = a / (W + Ea + So + No)) by (intros a; replace (No + So + Ea + W) with (W + Ea + So + No) by ring; unfold Rdiv; ring).
    rewrite !EQ. reflexivity.
  Qed.
End Weights.
