From Verif Require Import Base Loops Grid2 M_Extent Spec_Extent T_Extent M_CheckMask Spec_CheckMask.

(** ** The padded wet mask *)
Section Wet.
  Variables nx ny h : Z.
  Hypothesis Hnx : 1 <= nx. Hypothesis Hny : 1 <= ny. Hypothesis Hh : 0 <= h. Hypothesis Hhx : h <= nx. Hypothesis Hhy : h <= ny.
  Variable wet_in : list bool. Hypothesis Hw : zlen wet_in = nx * ny.
  Let nxd := nx + 2 * h. Let nyd := ny + 2 * h.
  Definition W (x y : Z) : bool := match zget wet_in (y * nx + x) with Some b => b | None => false end.

  Definition F1 (X Y : Z) : bool := if (h <=? X) && (X <? nx + h) && (h <=? Y) && (Y <? ny + h) then W (X - h) (Y - h) else false.
  Definition F2 (c : bool) (X Y : Z) : bool :=
    if c && (h <=? Y) && (Y <? ny + h) then (if X <? h then F1 (nx + h - 1 - X) Y else if nx + h <=? X then F1 (X - nx) Y else F1 X Y) else F1 X Y.
  Definition F3 (c d : bool) (X Y : Z) : bool :=
    if d && (h <=? X) && (X <? nx + h) then (if Y <? h then F2 c X (ny + h - 1 - Y) else if ny + h <=? Y then F2 c X (Y - ny) else F2 c X Y) else F2 c X Y.
  Definition F4 (c d t : bool) (X Y : Z) : bool :=
    if t && (ny + h <=? Y) then F3 c d (nxd - 1 - X) (2 * (ny + h) - 1 - Y) else F3 c d X Y.

  Ltac tests := repeat match goal with
    | |- context [?a <=? ?b] => destruct (Z.leb_spec a b); cbn [andb orb]; try lia
    | |- context [?a <? ?b] => destruct (Z.ltb_spec a b); cbn [andb orb]; try lia
    | |- context [?a =? ?b] => destruct (Z.eqb_spec a b); cbn [andb orb]; try lia end.

  Lemma build_ok bc : exists wet, build_wet nx ny h bc wet_in = Ok wet /\ fields wet nxd nyd (F4 (cyclic_x bc) (cyclic_y bc) (tripolar bc)).
  Proof.
    unfold build_wet. fold nxd nyd. destruct bc as [cx cy tp]. cbn [cyclic_x cyclic_y tripolar].
    (* interior *)
    match goal with |- context [bind (ofor 0 ny ?f ?s) _] => destruct (ofor_fields f nxd nyd 0 ny (fun j X Y => F1 X Y && (Y <? j + h)) s) as (w1 & E1 & H1) end.
    { lia. }
    { eapply fields_ext; [|apply (fields_repeat false nxd nyd); unfold nxd, nyd; lia]. intros x y Hx Hy. cbn. unfold F1. tests; auto. }
    { intros j g Hj H. match goal with |- context [ofor 0 nx ?f ?s] => destruct (ofor_fields f nxd nyd 0 nx (fun i X Y => F1 X Y && ((Y <? j + h) || ((Y =? j + h) && (X <? i + h)))) s) as (w2 & E2 & H2) end.
      - lia.
      - eapply fields_ext; [|exact H]. intros x y Hx Hy. unfold F1. tests; rewrite ?andb_false_r, ?orb_false_r, ?andb_true_r; auto.
      - intros i g1 Hi G. destruct (zget_in_range wet_in (j * nx + i)) as (v & Ev). { rewrite Hw. pose proof (rowmajor_range ny nx j i ltac:(lia) ltac:(lia)). lia. }
        rewrite (proj2 (oget_Ok _ _ _) Ev). cbn [bind]. eapply fields_set; eauto; unfold nxd, nyd; try lia.
        intros x y Hx Hy. unfold F1, W. tests; rewrite ?andb_false_r, ?andb_true_r; auto. subst x y. replace (j + h - h) with j by lia. replace (i + h - h) with i by lia. now rewrite Ev.
      - exists w2. split; auto. eapply fields_ext; [|exact H2]. intros x y Hx Hy. unfold F1. tests; rewrite ?andb_false_r, ?andb_true_r; auto. }
    rewrite E1. cbn [bind].
    assert (H1' : fields w1 nxd nyd F1). { eapply fields_ext; [|exact H1]. intros x y Hx Hy. unfold F1. tests; rewrite ?andb_true_r; auto. } clear H1 E1.
    (* cyclic in x *)
    match goal with |- context [bind ?e _] => assert (E2 : exists w, e = Ok w /\ fields w nxd nyd (F2 cx)) end.
    { destruct cx; [|exists w1; split; [reflexivity|exact H1']].
      match goal with |- context [ofor 0 ny ?f ?s] => destruct (ofor_fields f nxd nyd 0 ny (fun j X Y => if Y <? j + h then F2 true X Y else F1 X Y) s) as (w2 & E2 & H2) end.
      - lia.
      - eapply fields_ext; [|exact H1']. intros x y Hx Hy. unfold F2. tests; auto.
      - intros j g Hj G.
        match goal with |- context [bind (ofor 0 h ?f ?s) _] => destruct (ofor_fields f nxd nyd 0 h (fun i X Y => if (Y <? j + h) || ((Y =? j + h) && (X <? i)) then F2 true X Y else F1 X Y) s) as (w3 & E3 & H3) end.
        + lia.
        + eapply fields_ext; [|exact G]. intros x y Hx Hy. tests; auto.
        + intros i g1 Hi G1. rewrite (fields_get _ _ _ _ (nx + h - 1 - i) (j + h) G1) by (unfold nxd, nyd; lia). cbn [bind]. eapply fields_set; eauto; unfold nxd, nyd; try lia.
          intros x y Hx Hy. unfold F2. tests; auto. subst x y. auto.
        + rewrite E3. cbn [bind].
          match goal with |- context [ofor 0 h ?f ?s] => destruct (ofor_fields f nxd nyd 0 h (fun i X Y => if (Y <? j + h) || ((Y =? j + h) && (X <? nx + h + i)) then F2 true X Y else F1 X Y) s) as (w4 & E4 & H4) end.
          * lia.
          * eapply fields_ext; [|exact H3]. intros x y Hx Hy. unfold F2. tests; auto.
          * intros i g1 Hi G1. rewrite (fields_get _ _ _ _ (h + i) (j + h) G1) by (unfold nxd, nyd; lia). cbn [bind]. eapply fields_set; eauto; unfold nxd, nyd; try lia.
            intros x y Hx Hy. unfold F2. tests; auto. subst x y. f_equal. lia.
          * exists w4. split; auto. eapply fields_ext; [|exact H4]. unfold nxd. intros x y Hx Hy. tests; auto.
      - exists w2. split; auto. eapply fields_ext; [|exact H2]. intros x y Hx Hy. unfold F2. tests; auto. }
    destruct E2 as (w2 & E2 & H2). rewrite E2. cbn [bind]. clear E2 H1'.
    (* cyclic in y *)
    match goal with |- context [bind ?e _] => assert (E3 : exists w, e = Ok w /\ fields w nxd nyd (F3 cx cy)) end.
    { destruct cy; [|exists w2; split; [reflexivity|exact H2]].
      match goal with |- context [ofor 0 nx ?f ?s] => destruct (ofor_fields f nxd nyd 0 nx (fun i X Y => if X <? i + h then F3 cx true X Y else F2 cx X Y) s) as (w3 & E3 & H3) end.
      - lia.
      - eapply fields_ext; [|exact H2]. intros x y Hx Hy. unfold F3. tests; auto.
      - intros i g Hi G.
        match goal with |- context [bind (ofor 0 h ?f ?s) _] => destruct (ofor_fields f nxd nyd 0 h (fun j X Y => if (X <? i + h) || ((X =? i + h) && (Y <? j)) then F3 cx true X Y else F2 cx X Y) s) as (w4 & E4 & H4) end.
        + lia.
        + eapply fields_ext; [|exact G]. intros x y Hx Hy. tests; auto.
        + intros j g1 Hj G1. rewrite (fields_get _ _ _ _ (i + h) (ny + h - 1 - j) G1) by (unfold nxd, nyd; lia). cbn [bind]. eapply fields_set; eauto; unfold nxd, nyd; try lia.
          intros x y Hx Hy. unfold F3. tests; auto. subst x y. auto.
        + rewrite E4. cbn [bind].
          match goal with |- context [ofor 0 h ?f ?s] => destruct (ofor_fields f nxd nyd 0 h (fun j X Y => if (X <? i + h) || ((X =? i + h) && (Y <? ny + h + j)) then F3 cx true X Y else F2 cx X Y) s) as (w5 & E5 & H5) end.
          * lia.
          * eapply fields_ext; [|exact H4]. intros x y Hx Hy. unfold F3. tests; auto.
          * intros j g1 Hj G1. rewrite (fields_get _ _ _ _ (i + h) (h + j) G1) by (unfold nxd, nyd; lia). cbn [bind]. eapply fields_set; eauto; unfold nxd, nyd; try lia.
            intros x y Hx Hy. unfold F3. tests; auto. subst x y. f_equal. lia.
          * exists w5. split; auto. eapply fields_ext; [|exact H5]. unfold nyd. intros x y Hx Hy. tests; auto.
      - exists w3. split; auto. eapply fields_ext; [|exact H3]. intros x y Hx Hy. unfold F3. tests; auto. }
    destruct E3 as (w3 & E3 & H3). rewrite E3. cbn [bind]. clear E3 H2.
    destruct tp; [|exists w3; split; [reflexivity|exact H3]].
    match goal with |- context [ofor 0 nxd ?f ?s] => destruct (ofor_fields f nxd nyd 0 nxd (fun i X Y => if X <? i then F4 cx cy true X Y else F3 cx cy X Y) s) as (w4 & E4 & H4) end.
    - unfold nxd; lia.
    - eapply fields_ext; [|exact H3]. intros x y Hx Hy. tests; auto.
    - intros i g Hi G.
      match goal with |- context [ofor 0 h ?f ?s] => destruct (ofor_fields f nxd nyd 0 h (fun j X Y => if (X <? i) || ((X =? i) && (Y <? ny + h + j)) then F4 cx cy true X Y else F3 cx cy X Y) s) as (w5 & E5 & H5) end.
      + lia.
      + eapply fields_ext; [|exact G]. intros x y Hx Hy. unfold F4. tests; auto.
      + intros j g1 Hj G1. rewrite (fields_get _ _ _ _ (nxd - 1 - i) (ny + h - 1 - j) G1) by (unfold nxd, nyd; lia). cbn [bind]. eapply fields_set; eauto; unfold nxd, nyd in *; try lia.
        intros x y Hx Hy. unfold F4, nxd. tests; auto; try (subst x y; f_equal; lia).
      + exists w5. split; auto. eapply fields_ext; [|exact H5]. unfold nyd. intros x y Hx Hy. tests; auto.
    - exists w4. split; auto. eapply fields_ext; [|exact H4]. intros x y Hx Hy. cbv beta. destruct (Z.ltb_spec x (0 + nxd)); [auto|lia].
  Qed.
End Wet.
