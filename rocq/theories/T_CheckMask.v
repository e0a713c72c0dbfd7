(** * Properties C23 and C24: the mask table of check_mask *)
From Verif Require Import Base Loops Grid2 M_Extent Spec_Extent T_Extent M_CheckMask Spec_CheckMask P_CheckMask P_CheckMask2.

Lemma edges n nd h arr ib ie : 1 <= nd <= n -> nd <= zlen arr -> wide n nd h -> mpp_compute_extent n nd arr arr = Ok (ib, ie) -> tiles n nd ib ie ->
  h <= n /\ forall j b e, 0 <= j < nd -> division ib ie j b e -> 0 <= b <= e /\ e < n /\ (b = 0 \/ h <= b) /\ (e = n - 1 \/ e + h < n).
Proof.
  intros H L Hw E (T1 & T2 & T3 & T4 & T5).
  assert (DF : forall j b e b' e', division ib ie j b e -> division ib ie j b' e' -> b' = b /\ e' = e) by (intros j b e b' e' [A B] [C D]; split; congruence).
  assert (R : forall j b e, 0 <= j < nd -> division ib ie j b e -> 0 <= b <= e /\ e < n). { intros j b e Hj D. destruct (T1 j Hj) as (b1 & e1 & D1 & K1 & K2). destruct (DF _ _ _ _ _ D D1). subst. auto. }
  assert (Wd : forall j b e, 0 <= j < nd -> division ib ie j b e -> h <= e - b + 1).
  { intros j b e Hj D. destruct Hw as [Hw|Hw]; [pose proof (R j b e Hj D); lia|]. destruct (C02_extents_balanced n nd arr arr ib ie H L L E) as [K _]. specialize (K j b e Hj D). lia. }
  split.
  - destruct T2 as (e & D). pose proof (R 0 0 e ltac:(lia) D). pose proof (Wd 0 0 e ltac:(lia) D). lia.
  - intros j b e Hj D. pose proof (R j b e Hj D) as [R1 R2]. split; auto. split; auto. split.
    + destruct (Z.eq_dec j 0) as [->|]. * destruct T2 as (e0 & D0). destruct (DF _ _ _ _ _ D0 D). auto.
      * right. destruct (T1 (j - 1) ltac:(lia)) as (b1 & e1 & D1 & K1 & K2). pose proof (Wd (j - 1) b1 e1 ltac:(lia) D1). pose proof (T4 (j - 1) b1 e1 b e ltac:(lia) ltac:(lia) D1) as T. replace (j - 1 + 1) with j in T by lia. specialize (T D). lia.
    + destruct (Z.eq_dec j (nd - 1)) as [->|]. * destruct T3 as (b0 & D0). destruct (DF _ _ _ _ _ D0 D). auto.
      * right. destruct (T1 (j + 1) ltac:(lia)) as (b1 & e1 & D1 & K1 & K2). pose proof (Wd (j + 1) b1 e1 ltac:(lia) D1). pose proof (T4 j b e b1 e1 ltac:(lia) ltac:(lia) D D1). lia.
Qed.

Lemma obc_ok nx ny h lx ly ib ie jb je bs : 0 <= lx -> 0 <= ly ->
  (forall i, 0 <= i < lx -> exists b e, zget ib i = Some b /\ zget ie i = Some e) -> (forall j, 0 <= j < ly -> exists b e, zget jb j = Some b /\ zget je j = Some e) ->
  exists err E, obc_errors nx ny h lx ly ib ie jb je bs = Ok err /\ fields err lx ly E /\ forall i j b e b' e', 0 <= i < lx -> 0 <= j < ly -> zget ib i = Some b -> zget ie i = Some e -> zget jb j = Some b' -> zget je j = Some e' -> E i j = obc_domain nx ny h b e b' e' bs 0 0.
Proof.
  intros Hx Hy HI HJ. unfold obc_errors.
  set (G := fun i j => match zget ib i, zget ie i, zget jb j, zget je j with Some b, Some e, Some b', Some e' => obc_domain nx ny h b e b' e' bs 0 0 | _, _, _, _ => 0 end).
  match goal with |- context [ofor 0 ly ?f ?s] => destruct (ofor_fields f lx ly 0 ly (fun j a c => if c <? j then G a c else 0) s) as (err & E & H) end.
  - lia.
  - eapply fields_ext; [|apply (fields_repeat 0 lx ly); lia]. intros x y _ K. cbv beta. destruct (Z.ltb_spec y 0); [lia|auto].
  - intros j g Hj Hg. destruct (HJ j ltac:(lia)) as (b' & e' & Eb & Ee). rewrite (proj2 (oget_Ok _ _ _) Eb), (proj2 (oget_Ok _ _ _) Ee). cbn [bind].
    match goal with |- context [ofor 0 lx ?f ?s] => destruct (ofor_fields f lx ly 0 lx (fun i a c => if (c <? j) || ((c =? j) && (a <? i)) then G a c else 0) s) as (g' & E & H) end.
    + lia.
    + eapply fields_ext; [|exact Hg]. intros x y Kx Ky. cbv beta. destruct (Z.ltb_spec x 0); [lia|]. now rewrite andb_false_r, orb_false_r.
    + intros i g1 Hi Hg1. destruct (HI i ltac:(lia)) as (b & e & Eb1 & Ee1). rewrite (proj2 (oget_Ok _ _ _) Eb1), (proj2 (oget_Ok _ _ _) Ee1). cbn [bind].
      rewrite (fields_get _ _ _ _ i j Hg1) by lia. cbn [bind]. rewrite Z.ltb_irrefl, Z.eqb_refl, Z.ltb_irrefl. cbn [andb orb]. eapply fields_set; eauto; try lia.
      intros x y Kx Ky. destruct (Z.eqb_spec x i); destruct (Z.eqb_spec y j); cbn [andb].
      * subst. rewrite Z.ltb_irrefl. cbn [orb]. destruct (Z.ltb_spec i (i + 1)); [|lia]. unfold G. rewrite Eb1, Ee1, Eb, Ee. auto.
      * now rewrite orb_false_r.
      * subst. rewrite Z.ltb_irrefl. cbn [orb]. destruct (Z.ltb_spec x (i + 1)); destruct (Z.ltb_spec x i); try lia; auto.
      * now rewrite orb_false_r.
    + exists g'. split; auto. eapply fields_ext; [|exact H]. intros x y Kx Ky. cbv beta. destruct (Z.ltb_spec x (0 + lx)); [|lia]. destruct (Z.ltb_spec y j); destruct (Z.eqb_spec y j); destruct (Z.ltb_spec y (j + 1)); cbn [andb orb]; try lia; auto.
  - exists err, G. split; auto. split.
    + eapply fields_ext; [|exact H]. intros x y Kx Ky. cbv beta. destruct (Z.ltb_spec y (0 + ly)); [auto|lia].
    + intros i j b e b' e' _ _ E1 E2 E3 E4. unfold G. now rewrite E1, E2, E3, E4.
Qed.

(** What every run is, up to the open boundaries. *)
Lemma run nx ny h bc wet lx ly arr svo bs :
  1 <= lx <= nx -> 1 <= ly <= ny -> lx <= zlen arr -> ly <= zlen arr -> zlen wet = nx * ny -> wide nx lx h -> wide ny ly h ->
  (cyclic_y bc = true -> cyclic_x bc = false /\ tripolar bc = false) ->
  exists ib ie jb je (m E : Z -> Z -> Z), mpp_compute_extent nx lx arr arr = Ok (ib, ie) /\ mpp_compute_extent ny ly arr arr = Ok (jb, je)
  /\ tiles nx lx ib ie /\ tiles ny ly jb je
  /\ (forall i j b e b' e', 0 <= i < lx -> 0 <= j < ly -> division ib ie i b e -> division jb je j b' e' -> (m i j <> 0 <-> has_water nx ny h bc wet b e b' e')
        /\ E i j = obc_domain nx ny h (h + b) (h + e) (h + b') (h + e') bs 0 0)
  /\ let L := filter (masked lx m) (zseq 0 (lx * ly)) in let nerr := if svo && (0 <? zlen bs) then zlen (filter (masked lx E) (zseq 0 (lx * ly))) else 0 in
     mask_table nx ny h bc wet lx ly arr svo bs = Ok (MkReport (if (zlen L >? 0) && negb (nerr >? 0) then Some (MkTable (zlen L) (lx, ly) (map (pr lx) L)) else None) false).
Proof.
  intros Hx Hy La La' Hw Wx Wy Hxy.
  destruct (C01_extents_tile nx lx arr arr Hx La La) as (ib & ie & E1 & T1). destruct (C01_extents_tile ny ly arr arr Hy La' La') as (jb & je & E2 & T2).
  destruct (edges nx lx h arr ib ie Hx La Wx E1 T1) as [Hhx EDx]. destruct (edges ny ly h arr jb je Hy La' Wy E2 T2) as [Hhy EDy].
  assert (Hh : 0 <= h) by (destruct Wx; lia).
  destruct (build_ok nx ny h ltac:(lia) ltac:(lia) Hh Hhx Hhy wet Hw bc) as (pw & Eb & Hp).
  assert (HI : forall i, 0 <= i < lx -> exists b e, zget (map (Z.add h) ib) i = Some b /\ zget (map (Z.add h) ie) i = Some e /\ 0 <= b - h /\ b - h <= e + h /\ e + h < nx + 2 * h).
  { intros i Hi. destruct T1 as (T1 & _). destruct (T1 i Hi) as (b & e & [Db De] & K1 & K2). exists (h + b), (h + e). rewrite !zget_map, Db, De. split; auto. split; auto. lia. }
  assert (HJ : forall i, 0 <= i < ly -> exists b e, zget (map (Z.add h) jb) i = Some b /\ zget (map (Z.add h) je) i = Some e /\ 0 <= b - h /\ b - h <= e + h /\ e + h < ny + 2 * h).
  { intros i Hi. destruct T2 as (T2 & _). destruct (T2 i Hi) as (b & e & [Db De] & K1 & K2). exists (h + b), (h + e). rewrite !zget_map, Db, De. split; auto. split; auto. lia. }
  destruct (domain_masks_ok pw _ _ _ h lx ly _ _ _ _ Hp ltac:(lia) ltac:(lia) HI HJ) as (mask & m & Em & Hm & _ & Hmw).
  destruct (obc_ok nx ny h lx ly (map (Z.add h) ib) (map (Z.add h) ie) (map (Z.add h) jb) (map (Z.add h) je) bs) as (err & E & Ee & He & HE); try lia.
  { intros i Hi. destruct (HI i Hi) as (b & e & A & B & _). eauto. } { intros i Hi. destruct (HJ i Hi) as (b & e & A & B & _). eauto. }
  exists ib, ie, jb, je, m, E. split; auto. split; auto. split; auto. split; auto. split.
  - intros i j b e b' e' Hi Hj [Db De] [Db' De']. split.
    + rewrite (Hmw i j (h + b) (h + e) (h + b') (h + e')) by (auto; rewrite zget_map, ?Db, ?De, ?Db', ?De'; auto).
      destruct (EDx i b e Hi (conj Db De)) as (X1 & X2 & X3 & X4). destruct (EDy j b' e' Hj (conj Db' De')) as (Y1 & Y2 & Y3 & Y4).
      rewrite <- (box_water nx ny h ltac:(lia) ltac:(lia) Hh Hhx Hhy wet Hw bc Hxy b e b' e'); auto.
      replace (h + b - h) with b by lia. replace (h + e + h) with (e + 2 * h) by lia. replace (h + b' - h) with b' by lia. replace (h + e' + h) with (e' + 2 * h) by lia. reflexivity.
    + apply (HE i j); auto; rewrite zget_map, ?Db, ?De, ?Db', ?De'; auto.
  - intros L nerr. unfold mask_table. rewrite Eb. cbn [bind]. destruct (Z.gtb_spec lx nx); [lia|]. destruct (Z.gtb_spec ly ny); [lia|]. cbn [orb]. rewrite E1, E2. cbn [bind]. rewrite Em, Ee. cbn [bind].
    rewrite (count_ok lx ly ltac:(lia) ltac:(lia) mask m Hm). cbn [bind]. fold L.
    destruct (Z.gtb_spec (zlen L) 0); [|reflexivity]. cbn [andb].
    destruct (list_ok lx ly ltac:(lia) ltac:(lia) mask m Hm (zlen L) eq_refl) as (l & El & Ll & Hl). rewrite El. cbn [bind].
    assert (En : (if svo && (0 <? zlen bs) then count_obc err (lx * ly) else Ok 0) = Ok nerr).
    { unfold nerr. destruct (svo && (0 <? zlen bs)); auto. exact (count_ok lx ly ltac:(lia) ltac:(lia) err E He). }
    rewrite En. cbn [bind]. destruct (Z.gtb_spec nerr 0); [reflexivity|]. cbn [negb].
    rewrite (write_ok lx ly l (map (pr lx) L)); [| |exact Hl]. 2: { now rewrite zlen_map. }
    cbn [bind]. rewrite andb_false_r. reflexivity.
Qed.

(** C23: without open boundaries the table is written exactly when some domain has no
    wet point in its halo-extended region; it announces the number of its lines, and
    lists each such domain once (numbered from 1) and nothing else. *)
Theorem C23_mask_table_partial : forall nx ny halo bc wet lx ly arr svo,
  1 <= lx <= nx -> 1 <= ly <= ny -> lx <= zlen arr -> ly <= zlen arr -> zlen wet = nx * ny ->
  wide nx lx halo -> wide ny ly halo -> (cyclic_y bc = true -> cyclic_x bc = false /\ tripolar bc = false) ->
  exists ib ie jb je rep,
    mpp_compute_extent nx lx arr arr = Ok (ib, ie) /\ mpp_compute_extent ny ly arr arr = Ok (jb, je)
    /\ mask_table nx ny halo bc wet lx ly arr svo [] = Ok rep /\
    let dry i j := 0 <= i < lx /\ 0 <= j < ly /\ exists b e b' e', division ib ie i b e /\ division jb je j b' e' /\ ~ has_water nx ny halo bc wet b e b' e' in
    match r_table rep with
    | None => forall i j, ~ dry i j
    | Some t => t_layout t = (lx, ly) /\ t_nmask t = zlen (t_lines t) /\ t_lines t <> [] /\ NoDup (t_lines t)
                /\ forall a b, In (a, b) (t_lines t) <-> dry (a - 1) (b - 1)
    end.
Proof.
  intros nx ny h bc wet lx ly arr svo Hx Hy La La' Hw Wx Wy Hxy.
  destruct (run nx ny h bc wet lx ly arr svo [] Hx Hy La La' Hw Wx Wy Hxy) as (ib & ie & jb & je & m & E & E1 & E2 & T1 & T2 & HM & R).
  exists ib, ie, jb, je. cbv zeta in R. change (zlen (@nil obc)) with 0 in R. change (0 <? 0) with false in R. rewrite andb_false_r in R. change (0 >? 0) with false in R. cbn [negb] in R. rewrite andb_true_r in R.
  eexists. split; auto. split; auto. split; [exact R|]. intros dry. cbn [r_table].
  assert (HD : forall i j, 0 <= i < lx -> 0 <= j < ly -> (dry i j <-> m i j = 0)).
  { intros i j Hi Hj. destruct T1 as (T1 & _). destruct T2 as (T2 & _). destruct (T1 i Hi) as (b & e & D & _). destruct (T2 j Hj) as (b' & e' & D' & _). split.
    - intros (_ & _ & b1 & e1 & b1' & e1' & D1 & D1' & K). destruct (HM i j b1 e1 b1' e1' Hi Hj D1 D1') as [K1 _]. destruct (Z.eq_dec (m i j) 0); auto. exfalso. tauto.
    - intros K. split; auto. split; auto. exists b, e, b', e'. split; auto. split; auto. destruct (HM i j b e b' e' Hi Hj D D') as [K1 _]. intros X. apply K1 in X. contradiction. }
  set (L := filter (masked lx m) (zseq 0 (lx * ly))) in *.
  assert (HL : forall n, In n L <-> 0 <= n < lx * ly /\ m (n mod lx) (n / lx) = 0). { intros n. unfold L. rewrite filter_In, In_zseq. unfold masked. rewrite Z.eqb_eq. lia. }
  assert (HL2 : forall i j, 0 <= i < lx -> 0 <= j < ly -> (In (j * lx + i) L <-> m i j = 0)). { intros i j Hi Hj. rewrite HL. rewrite rowmajor_div, rowmajor_mod by lia. pose proof (rowmajor_range ly lx j i Hj Hi). lia. }
  destruct (Z.gtb_spec (zlen L) 0) as [G|G].
  - cbn [t_layout t_nmask t_lines]. split; auto. split; [now rewrite zlen_map|]. split.
    { destruct L; [change (zlen (@nil Z)) with 0 in G; lia|discriminate]. }
    split.
    + assert (Hnd : NoDup L) by (unfold L; apply List.NoDup_filter, NoDup_zseq). assert (HR : forall n, In n L -> 0 <= n < ly * lx) by (intros n Hn; apply HL in Hn; lia). clear -Hnd HR Hx. induction Hnd as [|n l Hn Hnd IH]; cbn; constructor.
      * intros Hi. apply in_map_iff in Hi. destruct Hi as (k & Ek & Hk). unfold pr in Ek. injection Ek as Ea Eb. destruct (divmod_range ly lx n ltac:(lia) (HR n ltac:(left; auto))) as (_ & _ & _ & K1). destruct (divmod_range ly lx k ltac:(lia) (HR k ltac:(right; auto))) as (_ & _ & _ & K2).
        assert (n = k) by nia. subst. contradiction.
      * apply IH. intros; apply HR; right; auto.
    + intros a b. rewrite in_map_iff. split.
      * intros (n & En & Hn). unfold pr in En. injection En as <- <-. apply HL in Hn. destruct Hn as [Hn Hm]. destruct (divmod_range ly lx n ltac:(lia) ltac:(lia)) as (_ & K1 & K2 & K3). rewrite !Z.add_simpl_r. apply HD; auto.
      * intros Hd. pose proof Hd as (Hi & Hj & _). apply HD in Hd; auto. apply HL2 in Hd; auto. exists ((b - 1) * lx + (a - 1)). split; auto. unfold pr. rewrite rowmajor_div, rowmajor_mod by lia. f_equal; lia.
  - intros i j Hd. pose proof Hd as (Hi & Hj & _). apply HD in Hd; auto. apply HL2 in Hd; auto. destruct L; [contradiction|]. rewrite zlen_cons in G. pose proof (zlen_nonneg L). lia.
Qed.
Print Assumptions C23_mask_table_partial.

Definition xcyc := MkBc true false false.
Definition arr9 : list Z := repeat 0 9.
Example C23_example : mask_table 6 4 1 (MkBc true false true)
    [false;false;false;false;false;false; false;true;false;false;false;false; false;false;false;false;false;false; false;false;false;false;false;false] 3 2 arr9 false []
  = Ok (MkReport (Some (MkTable 2 (3, 2) [(3, 1); (3, 2)])) false).
Proof. vm_compute. reflexivity. Qed.
Example C23_wide : wide 6 3 1 /\ wide 4 2 1.
Proof. split; left; lia. Qed.

(** The full property fails when the grid is periodic in both directions: the corner
    points of the halo are not filled, so a domain that touches water only there is
    masked out. *)
Definition wet_corner : list bool := repeat false 15 ++ [true].
Theorem C23_corner_refuted :
  mask_table 4 4 1 (MkBc true true false) wet_corner 2 2 arr9 false [] = Ok (MkReport (Some (MkTable 1 (2, 2) [(1, 1)])) false)
  /\ mpp_compute_extent 4 2 arr9 arr9 = Ok (0 :: 2 :: repeat 0 7, 1 :: 3 :: repeat 0 7)
  /\ has_water 4 4 1 (MkBc true true false) wet_corner 0 1 0 1.
Proof.
  split; [vm_compute; reflexivity|]. split; [vm_compute; reflexivity|]. exists (-1), (-1), 3, 3. split; [lia|]. split; [lia|]. split; [|reflexivity].
  split; [lia|]. split; [lia|]. left. split; right; (split; [reflexivity|]); exists (-1); reflexivity.
Qed.
Print Assumptions C23_corner_refuted.

(** It also fails for a halo of two and narrow domains: the western halo is filled in
    reverse order, so the second domain misses the water of the last column. *)
Definition wet_last : list bool := [false;false;false;false;false;true; false;false;false;false;false;false].
Theorem C23_narrow_refuted :
  mask_table 6 2 2 xcyc wet_last 6 1 arr9 false [] = Ok (MkReport (Some (MkTable 2 (6, 1) [(2, 1); (3, 1)])) false)
  /\ mpp_compute_extent 6 6 arr9 arr9 = Ok (0 :: 1 :: 2 :: 3 :: 4 :: 5 :: repeat 0 3, 0 :: 1 :: 2 :: 3 :: 4 :: 5 :: repeat 0 3)
  /\ has_water 6 2 2 xcyc wet_last 1 1 0 1.
Proof.
  split; [vm_compute; reflexivity|]. split; [vm_compute; reflexivity|]. exists (-1), 0, 5, 0. split; [lia|]. split; [lia|]. split; [|reflexivity].
  split; [lia|]. split; [lia|]. left. split; [right; split; [reflexivity|]; exists (-1); reflexivity|left; reflexivity].
Qed.
Print Assumptions C23_narrow_refuted.

(** C24 fails.  With a single open boundary and --show_valid_only no layout at all is
    reported, whatever the boundary and the layout: the error mark of the first
    boundary is its number 0, which means "no error", and the layout is dropped when
    some domain has NO error. *)
Theorem C24_single_boundary_refuted : forall nx ny halo bc wet lx ly arr b,
  1 <= lx <= nx -> 1 <= ly <= ny -> lx <= zlen arr -> ly <= zlen arr -> zlen wet = nx * ny ->
  wide nx lx halo -> wide ny ly halo -> (cyclic_y bc = true -> cyclic_x bc = false /\ tripolar bc = false) ->
  mask_table nx ny halo bc wet lx ly arr true [b] = Ok (MkReport None false).
Proof.
  intros nx ny h bc wet lx ly arr b Hx Hy La La' Hw Wx Wy Hxy.
  destruct (run nx ny h bc wet lx ly arr true [b] Hx Hy La La' Hw Wx Wy Hxy) as (ib & ie & jb & je & m & E & E1 & E2 & T1 & T2 & HM & R).
  cbv zeta in R. change (true && (0 <? zlen [b])) with true in R. cbv iota in R. rewrite R. f_equal. f_equal.
  assert (HE : E 0 0 = 0).
  { destruct T1 as (T1 & _). destruct T2 as (T2 & _). destruct (T1 0 ltac:(lia)) as (c & e & D & _). destruct (T2 0 ltac:(lia)) as (c' & e' & D' & _). destruct (HM 0 0 c e c' e' ltac:(lia) ltac:(lia) D D') as [_ ->].
    cbn [obc_domain]. unfold obc_step. cbv zeta. match goal with |- (if ?c then _ else _) = _ => destruct c; auto end. destruct (o_dir b); repeat match goal with |- (if ?c then _ else _) = _ => destruct c; auto end. }
  assert (Hin : In 0 (filter (masked lx E) (zseq 0 (lx * ly)))). { apply filter_In. split; [apply In_zseq; nia|]. unfold masked. rewrite Z.mod_0_l, Z.div_0_l by lia. now rewrite HE. }
  destruct (filter (masked lx E) (zseq 0 (lx * ly))) as [|z l]; [contradiction|]. rewrite zlen_cons. pose proof (zlen_nonneg l). destruct (Z.gtb_spec (1 + zlen l) 0); [|lia]. now rewrite andb_false_r.
Qed.
Print Assumptions C24_single_boundary_refuted.

(** Without --show_valid_only the note about an invalid open boundary never appears,
    and the table does not depend on the boundaries. *)
Theorem C24_no_note_refuted : forall nx ny halo bc wet lx ly arr bs,
  1 <= lx <= nx -> 1 <= ly <= ny -> lx <= zlen arr -> ly <= zlen arr -> zlen wet = nx * ny ->
  wide nx lx halo -> wide ny ly halo -> (cyclic_y bc = true -> cyclic_x bc = false /\ tripolar bc = false) ->
  exists rep, mask_table nx ny halo bc wet lx ly arr false bs = Ok rep /\ r_obc_note rep = false.
Proof.
  intros nx ny h bc wet lx ly arr bs Hx Hy La La' Hw Wx Wy Hxy.
  destruct (run nx ny h bc wet lx ly arr false bs Hx Hy La La' Hw Wx Wy Hxy) as (ib & ie & jb & je & m & E & E1 & E2 & T1 & T2 & HM & R). eexists. split; [exact R|reflexivity].
Qed.
Print Assumptions C24_no_note_refuted.

(** With two boundaries, layouts where every domain has an error are the ones shown. *)
Theorem C24_inverted_refuted : exists nx ny halo bc wet lx ly arr b1 b2 rep,
  mask_table nx ny halo bc wet lx ly arr true [b1; b2] = Ok rep /\ r_table rep <> None
  /\ obc_domain nx ny halo (halo + 0) (halo + 1) (halo + 0) (halo + 1) [b1; b2] 0 0 = 1.
Proof.
  exists 2, 2, 1, (MkBc false false false), [false; false; false; false], 1, 1, arr9, (MkObc North 0 0 0 0), (MkObc South 0 1 3 3).
  eexists. split; [vm_compute; reflexivity|]. split; [discriminate|vm_compute; reflexivity].
Qed.
Print Assumptions C24_inverted_refuted.
