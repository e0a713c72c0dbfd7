From Verif Require Import Base Loops Grid2 M_Extent Spec_Extent T_Extent M_CheckMask Spec_CheckMask P_CheckMask P_Ncc.

Lemma any_wet_ok wet nxd nyd F isd ied jsd jed : fields wet nxd nyd F -> 0 <= isd -> ied < nxd -> 0 <= jsd -> jed < nyd -> isd <= ied -> jsd <= jed ->
  exists b, any_wet wet nxd isd ied jsd jed = Ok b /\ (b = true <-> exists x y, isd <= x <= ied /\ jsd <= y <= jed /\ F x y = true).
Proof.
  intros HF H1 H2 H3 H4 H5 H6. unfold any_wet.
  match goal with |- context [ofor jsd ?n ?f ?s] => destruct (ofor_inv (fun j (b : bool) => b = true <-> exists x y, isd <= x <= ied /\ jsd <= y < j /\ F x y = true) f jsd n s) as (b & E & H) end.
  - lia.
  - split; [discriminate|]. intros (x & y & _ & K & _). lia.
  - intros j b Hj IH. cbn beta.
    match goal with |- context [ofor isd ?n ?f ?s] => destruct (ofor_inv (fun i (b : bool) => b = true <-> exists x y, (isd <= x <= ied /\ jsd <= y < j \/ y = j /\ isd <= x < i) /\ F x y = true) f isd n s) as (b' & E & H) end.
    + lia.
    + rewrite IH. split; intros (x & y & K).
      * exists x, y. tauto.
      * exists x, y. split; [|split]; try tauto; lia.
    + intros i b0 Hi IH0. cbn beta. destruct b0.
      * exists true. split; auto. split; auto. intros _. destruct (proj1 IH0 eq_refl) as (x & y & K & Fx). exists x, y. split; auto. lia.
      * rewrite (fields_get _ _ _ _ i j HF) by lia. eexists. split; [reflexivity|]. split.
        -- intros Ft. exists i, j. split; auto. lia.
        -- intros (x & y & K & Fx). destruct (Z.eq_dec x i) as [Ex|Ex]; destruct (Z.eq_dec y j) as [Ey|Ey]; [subst; auto| | |]; exfalso; assert (false = true) by (apply IH0; exists x, y; split; auto; lia); discriminate.
    + exists b'. split; auto. rewrite H. split; intros (x & y & K & L); exists x, y.
      * split; [lia|]. split; [lia|auto].
      * split; [lia|tauto].
  - exists b. split; auto. rewrite H. split; intros (x & y & K & L & M); exists x, y; split; auto; split; auto; lia.
Qed.

(** The masks of all domains, given what each box holds. *)
Lemma domain_masks_ok wet nxd nyd F h lx ly ib ie jb je :
  fields wet nxd nyd F -> 0 <= lx -> 0 <= ly ->
  (forall i, 0 <= i < lx -> exists b e, zget ib i = Some b /\ zget ie i = Some e /\ 0 <= b - h /\ b - h <= e + h /\ e + h < nxd) ->
  (forall j, 0 <= j < ly -> exists b e, zget jb j = Some b /\ zget je j = Some e /\ 0 <= b - h /\ b - h <= e + h /\ e + h < nyd) ->
  exists mask (m : Z -> Z -> Z), domain_masks wet nxd h lx ly ib ie jb je = Ok mask /\ fields mask lx ly m
   /\ (forall i j, 0 <= i < lx -> 0 <= j < ly -> m i j = 0 \/ m i j = 1)
   /\ (forall i j b e b' e', 0 <= i < lx -> 0 <= j < ly -> zget ib i = Some b -> zget ie i = Some e -> zget jb j = Some b' -> zget je j = Some e' ->
       (m i j <> 0 <-> exists x y, b - h <= x <= e + h /\ b' - h <= y <= e' + h /\ F x y = true)).
Proof.
  intros HF Hlx Hly HI HJ. unfold domain_masks.
  set (good := fun i j (v : Z) => (v = 0 \/ v = 1) /\ forall b e b' e', zget ib i = Some b -> zget ie i = Some e -> zget jb j = Some b' -> zget je j = Some e' ->
       (v <> 0 <-> exists x y, b - h <= x <= e + h /\ b' - h <= y <= e' + h /\ F x y = true)).
  match goal with |- context [ofor 0 ly ?f ?s] => destruct (ofor_inv (fun j (g : list Z) => exists m, fields g lx ly m /\ forall a c, 0 <= a < lx -> 0 <= c < ly -> if c <? j then good a c (m a c) else m a c = 0) f 0 ly s) as (mask & E & m & Hm & Hg) end.
  - lia.
  - exists (fun _ _ => 0). split; [apply fields_repeat; lia|]. intros a c Ha Hc. destruct (Z.ltb_spec c 0); [lia|auto].
  - intros j g Hj (m & Hm & Hg). destruct (HJ j ltac:(lia)) as (b' & e' & Eb & Ee & J1 & J2 & J3). rewrite (proj2 (oget_Ok _ _ _) Eb), (proj2 (oget_Ok _ _ _) Ee). cbn [bind].
    match goal with |- context [ofor 0 lx ?f ?s] => destruct (ofor_inv (fun i (g : list Z) => exists m, fields g lx ly m /\ forall a c, 0 <= a < lx -> 0 <= c < ly -> if (c <? j) || ((c =? j) && (a <? i)) then good a c (m a c) else m a c = 0) f 0 lx s) as (g' & E & m' & Hm' & Hg') end.
    + lia.
    + exists m. split; auto. intros a c Ha Hc. specialize (Hg a c Ha Hc). destruct (Z.ltb_spec a 0); [lia|]. rewrite andb_false_r, orb_false_r. auto.
    + intros i g1 Hi (m1 & Hm1 & Hg1). destruct (HI i ltac:(lia)) as (b & e & Eb1 & Ee1 & I1 & I2 & I3). rewrite (proj2 (oget_Ok _ _ _) Eb1), (proj2 (oget_Ok _ _ _) Ee1). cbn [bind].
      destruct (any_wet_ok wet nxd nyd F (b - h) (e + h) (b' - h) (e' + h) HF) as (w & Ew & Hw); try lia. rewrite Ew. cbn [bind].
      assert (Hgood : good i j (if w then 1 else 0)).
      { split; [destruct w; auto|]. intros b0 e0 b1 e1 X1 X2 X3 X4. rewrite Eb1 in X1. rewrite Ee1 in X2. rewrite Eb in X3. rewrite Ee in X4. injection X1 as <-. injection X2 as <-. injection X3 as <-. injection X4 as <-. rewrite <- Hw. destruct w; split; try discriminate; try lia; auto. }
      destruct w.
      * destruct (fields_set g1 lx ly m1 (fun x y => if (x =? i) && (y =? j) then 1 else m1 x y) i j 1 Hm1) as (g2 & E2 & H2); try lia. 
        exists g2. split; auto. exists (fun x y => if (x =? i) && (y =? j) then 1 else m1 x y). split; auto. intros a c Ha Hc. specialize (Hg1 a c Ha Hc).
        revert Hg1. destruct (Z.eqb_spec c j) as [Ec|Ec]; destruct (Z.eqb_spec a i) as [Ea|Ea]; cbn [andb]; try subst c; try subst a; rewrite ?Z.ltb_irrefl, ?orb_false_r; cbn [orb andb]; auto.
        -- destruct (Z.ltb_spec i (i + 1)); [auto|lia].
        -- destruct (Z.ltb_spec a i); destruct (Z.ltb_spec a (i + 1)); try lia; auto.
      * exists g1. split; auto. exists m1. split; auto. intros a c Ha Hc. specialize (Hg1 a c Ha Hc).
        revert Hg1. destruct (Z.eqb_spec c j) as [Ec|Ec]; cbn [andb]; try subst c; rewrite ?Z.ltb_irrefl, ?orb_false_r; cbn [orb andb]; auto.
        destruct (Z.eqb_spec a i) as [Ea|Ea].
        -- subst a. rewrite Z.ltb_irrefl. destruct (Z.ltb_spec i (i + 1)); [|lia]. intros ->. auto.
        -- destruct (Z.ltb_spec a i); destruct (Z.ltb_spec a (i + 1)); try lia; auto.
    + exists g'. split; auto. exists m'. split; auto. intros a c Ha Hc. specialize (Hg' a c Ha Hc). destruct (Z.ltb_spec a (0 + lx)); [|lia]. rewrite andb_true_r in Hg'.
      destruct (Z.ltb_spec c (j + 1)); destruct (Z.ltb_spec c j); destruct (Z.eqb_spec c j); cbn [orb] in Hg'; try lia; auto.
  - exists mask, m. split; auto. split; auto. split.
    + intros i j Hi Hj. specialize (Hg i j Hi Hj). destruct (Z.ltb_spec j (0 + ly)); [|lia]. apply Hg.
    + intros i j b e b' e' Hi Hj. specialize (Hg i j Hi Hj). destruct (Z.ltb_spec j (0 + ly)); [|lia]. apply Hg.
Qed.

(** ** Counting and listing *)
Section List.
  Variables lx ly : Z.
  Hypothesis Hlx : 1 <= lx. Hypothesis Hly : 1 <= ly.
  Variable mask : list Z. Variable m : Z -> Z -> Z. Hypothesis Hm : fields mask lx ly m.
  Definition masked (n : Z) : bool := m (n mod lx) (n / lx) =? 0.
  Definition pr (n : Z) : Z * Z := (n mod lx + 1, n / lx + 1).

  Lemma mask_at n : 0 <= n < lx * ly -> oget mask n = Ok (m (n mod lx) (n / lx)).
  Proof. intros Hn. rewrite Z.mul_comm in Hn. destruct (divmod_range ly lx n ltac:(lia) Hn) as (K0 & K1 & K2 & K3). rewrite K3 at 1. apply (fields_get _ _ _ _ _ _ Hm); lia. Qed.

  Lemma count_ok : count_masked mask (lx * ly) = Ok (zlen (filter masked (zseq 0 (lx * ly)))).
  Proof.
    unfold count_masked. match goal with |- context [ofor 0 _ ?f ?s] => destruct (ofor_inv (fun k c => c = zlen (filter masked (zseq 0 k))) f 0 (lx * ly) s) as (c & E & H) end.
    - nia.
    - reflexivity.
    - intros k c Hk ->. cbn beta. rewrite mask_at by lia. cbn [bind]. eexists. split; [reflexivity|]. rewrite zseq_snoc by lia. rewrite filter_app, zlen_app. cbn [filter]. replace (0 + k) with k by lia. change (m (k mod lx) (k / lx) =? 0) with (masked k). destruct (masked k); [change (zlen [k]) with 1|change (zlen (@nil Z)) with 0]; lia.
    - rewrite E, H. f_equal.
  Qed.

  Lemma filter_len_le k n : 0 <= k <= n -> zlen (filter masked (zseq 0 k)) <= zlen (filter masked (zseq 0 n)).
  Proof. intros H. replace n with (k + (n - k)) by lia. rewrite zseq_app by lia. rewrite filter_app, zlen_app. pose proof (zlen_nonneg (filter masked (zseq (0 + k) (n - k)))). lia. Qed.

  Lemma list_ok nmask : nmask = zlen (filter masked (zseq 0 (lx * ly))) -> exists l, make_list mask nmask lx ly = Ok l /\ zlen l = 2 * nmask
    /\ forall k a b, zget (map pr (filter masked (zseq 0 (lx * ly)))) k = Some (a, b) -> zget l (2 * k) = Some a /\ zget l (2 * k + 1) = Some b.
  Proof.
    intros HN. unfold make_list.
    rewrite (ofor_nest2 0 ly 0 lx (fun j '(l, n) i => do m <- oget mask (j * lx + i) ; if m =? 0 then do l <- oset l (2 * n) (i + 1) ; do l <- oset l (2 * n + 1) (j + 1) ; Ok (l, n + 1) else Ok (l, n))) by lia.
    pose proof (zlen_nonneg (filter masked (zseq 0 (lx * ly)))) as HN0.
    match goal with |- context [ofor 0 _ ?f ?s] => destruct (ofor_inv (fun k (st : list Z * Z) => snd st = zlen (filter masked (zseq 0 k)) /\ zlen (fst st) = 2 * nmask /\
       forall q a b, zget (map pr (filter masked (zseq 0 k))) q = Some (a, b) -> zget (fst st) (2 * q) = Some a /\ zget (fst st) (2 * q + 1) = Some b) f 0 (ly * lx) s) as ([l n] & E & H1 & H2 & H3) end.
    - nia.
    - cbn [fst snd]. split; [reflexivity|]. split; [rewrite zlen_repeat; lia|]. intros q a b Hq. cbn in Hq. rewrite zget_nil in Hq. discriminate.
    - intros k [l n] Hk (H1 & H2 & H3). cbn [fst snd] in *. destruct (divmod_range ly lx k ltac:(lia) ltac:(lia)) as (K0 & K1 & K2 & K3).
      replace ((0 + k / lx) * lx + (0 + k mod lx)) with k by lia. rewrite mask_at by lia. cbn [bind]. fold (masked k).
      assert (EF : filter masked (zseq 0 (k + 1)) = filter masked (zseq 0 k) ++ if masked k then [k] else []). { rewrite zseq_snoc by lia. rewrite filter_app. cbn [filter]. replace (0 + k) with k by lia. destruct (masked k); auto. }
      change (m (k mod lx) (k / lx) =? 0) with (masked k). destruct (masked k) eqn:Ek.
      + assert (n < nmask). { pose proof (filter_len_le (k + 1) (lx * ly) ltac:(lia)). rewrite EF, zlen_app in H. change (zlen [k]) with 1 in H. lia. }
        pose proof (zlen_nonneg (filter masked (zseq 0 k))).
        destruct (zset_Some l (2 * n) (0 + k mod lx + 1) ltac:(lia)) as (l1 & E1). rewrite (proj2 (oset_Ok _ _ _ _) E1). cbn [bind]. pose proof (zset_len _ _ _ _ E1).
        destruct (zset_Some l1 (2 * n + 1) (0 + k / lx + 1) ltac:(lia)) as (l2 & E2). rewrite (proj2 (oset_Ok _ _ _ _) E2). cbn [bind]. pose proof (zset_len _ _ _ _ E2).
        eexists. split; [reflexivity|]. cbn [fst snd]. split; [rewrite EF, zlen_app; change (zlen [k]) with 1; lia|]. split; [lia|].
        intros q a b Hq. rewrite EF, map_app in Hq. cbn [map] in Hq. pose proof (zget_Some_range _ _ _ Hq) as Rq. rewrite zlen_app, zlen_map in Rq. change (zlen [pr k]) with 1 in Rq.
        destruct (Z.eq_dec q n) as [->|].
        * rewrite H1 in Hq at 1. rewrite zget_app_r in Hq by (rewrite zlen_map; lia). rewrite zlen_map, Z.sub_diag, zget_cons_0 in Hq. injection Hq as <- <-. split; [rewrite (zget_zset_ne _ _ _ _ _ E2) by lia; rewrite (zget_zset_eq _ _ _ _ E1)|rewrite (zget_zset_eq _ _ _ _ E2)]; f_equal; lia.
        * rewrite zget_app_l in Hq by (rewrite zlen_map; lia). rewrite !(zget_zset_ne _ _ _ _ _ E2), !(zget_zset_ne _ _ _ _ _ E1) by lia. apply H3. auto.
      + eexists. split; [reflexivity|]. cbn [fst snd]. rewrite EF, app_nil_r. auto.
    - cbn [fst snd] in *. rewrite E. cbn [bind]. exists l. split; auto. split; auto. rewrite Z.add_0_l, Z.mul_comm in H3. auto.
  Qed.

  Lemma write_ok l (ps : list (Z * Z)) nmask : nmask = zlen ps -> (forall k a b, zget ps k = Some (a, b) -> zget l (2 * k) = Some a /\ zget l (2 * k + 1) = Some b) ->
    write_table nmask lx ly l = Ok (MkTable nmask (lx, ly) ps).
  Proof.
    intros -> H. unfold write_table. pose proof (zlen_nonneg ps).
    match goal with |- context [ofor 0 _ ?f ?s] => destruct (ofor_inv (fun k (out : list (Z * Z)) => zlen out = k /\ forall q, 0 <= q < k -> zget out q = zget ps q) f 0 (zlen ps) s) as (out & E & H1 & H2) end.
    - lia.
    - split; [reflexivity|lia].
    - intros k out Hk [H1 H2]. cbn beta. destruct (zget_in_range ps k ltac:(lia)) as ([a b] & Ep). destruct (H k a b Ep) as [A1 A2]. rewrite (proj2 (oget_Ok _ _ _) A1), (proj2 (oget_Ok _ _ _) A2). cbn [bind].
      eexists. split; [reflexivity|]. split; [rewrite zlen_app; change (zlen [(a, b)]) with 1; lia|]. intros q Hq. destruct (Z.eq_dec q k) as [->|]; [rewrite zget_app_r by lia; rewrite H1, Z.sub_diag, zget_cons_0; auto|rewrite zget_app_l by lia; apply H2; lia].
    - rewrite E. cbn [bind]. f_equal. f_equal. apply zget_ext; [lia|]. intros q Hq. apply H2. lia.
  Qed.
End List.

(** ** The padded mask against the grid's periodicity *)
Section Period.
  Variables nx ny h : Z.
  Hypothesis Hnx : 1 <= nx. Hypothesis Hny : 1 <= ny. Hypothesis Hh : 0 <= h. Hypothesis Hhx : h <= nx. Hypothesis Hhy : h <= ny.
  Variable wet_in : list bool. Hypothesis Hw : zlen wet_in = nx * ny.
  Variable bc : bctype.
  Hypothesis Hxy : cyclic_y bc = true -> cyclic_x bc = false /\ tripolar bc = false.
  Notation Wt := (W nx wet_in). Notation F := (F4 nx ny h wet_in (cyclic_x bc) (cyclic_y bc) (tripolar bc)).

  Ltac tests := repeat match goal with
    | |- context [?a <=? ?b] => destruct (Z.leb_spec a b); cbn [andb orb]; try lia
    | |- context [?a <? ?b] => destruct (Z.ltb_spec a b); cbn [andb orb]; try lia end.

  (** Reversal of the halo columns on the west, and beyond the fold on the east. *)
  Definition tw (x : Z) : Z := if x <? 0 then - h - 1 - x else x.
  Definition te (x : Z) : Z := if nx <=? x then 2 * nx + h - 1 - x else x.

  Lemma W_true x y : 0 <= x < nx -> 0 <= y < ny -> (Wt x y = true <-> zget wet_in (y * nx + x) = Some true).
  Proof. clear Hxy. intros Hx Hy. unfold W. pose proof (rowmajor_range ny nx y x Hy Hx). destruct (zget_in_range wet_in (y * nx + x) ltac:(lia)) as (b & ->). split; congruence. Qed.

  Definition X2 (x y : Z) : bool := (* the mask with cyclic x, in grid coordinates *)
    if (0 <=? y) && (y <? ny) then
      if (0 <=? x) && (x <? nx) then Wt x y
      else if cyclic_x bc then (if x <? 0 then Wt (nx - 1 - (x + h)) y else Wt (x - nx) y) else false
    else false.

  Lemma F2_eq x y : - h <= x < nx + h -> - h <= y < ny + h -> F2 nx ny h wet_in (cyclic_x bc) (x + h) (y + h) = X2 x y.
  Proof.
    clear Hxy. intros Hx Hy. unfold F2, X2, F1. destruct (cyclic_x bc); cbn [andb].
    - tests; auto; f_equal; lia.
    - tests; auto; f_equal; lia.
  Qed.

  Lemma F_true x y : - h <= x < nx + h -> - h <= y < ny + h ->
    (F (x + h) (y + h) = true <-> exists x' y', stands bc nx ny (if (ny <=? y) && tripolar bc then te x else tw x) (if cyclic_y bc then (if y <? 0 then - h - 1 - y else y) else y) x' y' /\ zget wet_in (y' * nx + x') = Some true).
  Proof.
    intros Hx Hy. unfold F4, F3.
    assert (SX : forall x0 x', - h <= x0 < nx + h -> 0 <= x' < nx -> same (cyclic_x bc) nx x0 x' -> (x' = x0 \/ (cyclic_x bc = true /\ (x0 < 0 /\ x' = x0 + nx \/ nx <= x0 /\ x' = x0 - nx)))).
    { intros x0 x' Hx0 Hx' [-> | [Hc [k Hk]]]; auto. assert (k = -1 \/ k = 0 \/ k = 1) by nia. destruct H as [-> | [-> | ->]]; [right|left|right]; try lia; split; auto; lia. }
    destruct (cyclic_y bc) eqn:Ecy.
    - (* cyclic in y only *)
      destruct (Hxy eq_refl) as [Ecx Etr]. rewrite Etr. cbn [andb]. rewrite andb_false_r.
      assert (SYc : forall y0 y', - h <= y0 < ny + h -> 0 <= y' < ny -> same true ny y0 y' -> y' = y0 \/ (y0 < 0 /\ y' = y0 + ny \/ ny <= y0 /\ y' = y0 - ny)).
      { intros y0 y' Hy0 Hy' [-> | [_ [k Hk]]]; auto. assert (k = -1 \/ k = 0 \/ k = 1) by nia. destruct H as [-> | [-> | ->]]; [right|left|right]; lia. }
      unfold stands. rewrite Ecx, Ecy, Etr.
      assert (Key : forall v, (v = true <-> exists x' y', (0 <= x' < nx /\ 0 <= y' < ny /\ (same false nx (tw x) x' /\ same true ny (if y <? 0 then - h - 1 - y else y) y' \/ false = true /\ ny <= (if y <? 0 then - h - 1 - y else y) /\ y' = 2 * ny - 1 - (if y <? 0 then - h - 1 - y else y) /\ same false nx (nx - 1 - tw x) x')) /\ zget wet_in (y' * nx + x') = Some true) <->
         (v = true <-> (0 <= x < nx /\ Wt x (if y <? 0 then ny - 1 - (y + h) else if ny <=? y then y - ny else y) = true))).
      { intros v. assert (Q : (exists x' y', (0 <= x' < nx /\ 0 <= y' < ny /\ (same false nx (tw x) x' /\ same true ny (if y <? 0 then - h - 1 - y else y) y' \/ false = true /\ ny <= (if y <? 0 then - h - 1 - y else y) /\ y' = 2 * ny - 1 - (if y <? 0 then - h - 1 - y else y) /\ same false nx (nx - 1 - tw x) x')) /\ zget wet_in (y' * nx + x') = Some true) <-> (0 <= x < nx /\ Wt x (if y <? 0 then ny - 1 - (y + h) else if ny <=? y then y - ny else y) = true)); [|rewrite Q; tauto].
        split.
        - intros (x' & y' & (A & B & [[C D]|[C _]]) & E); [|discriminate]. destruct C as [C | [C _]]; [|discriminate]. unfold tw in C.
          assert (x' = x /\ 0 <= x) as [-> Hx0] by (revert C; destruct (Z.ltb_spec x 0); lia). split; [lia|].
          assert (y' = (if y <? 0 then ny - 1 - (y + h) else if ny <=? y then y - ny else y)) as Ey'.
          { revert D. destruct (Z.ltb_spec y 0); intros D; apply SYc in D; auto; destruct (Z.leb_spec ny y); lia. }
          rewrite <- Ey'. apply W_true; auto; lia.
        - intros [A B]. exists x. eexists. split; [split; [auto|split; [|left; split]]|apply W_true in B; [exact B|auto|]].
          + destruct (Z.ltb_spec y 0); [lia|]. destruct (Z.leb_spec ny y); lia.
          + left. unfold tw. destruct (Z.ltb_spec x 0); lia.
          + unfold same. destruct (Z.ltb_spec y 0); [right; split; auto; exists (-1); lia|]. destruct (Z.leb_spec ny y); [right; split; auto; exists 1; lia|left; lia].
          + destruct (Z.ltb_spec y 0); [lia|]. destruct (Z.leb_spec ny y); lia. }
      apply Key. clear Key. unfold F2. cbn [andb]. unfold F1. tests; rewrite ?Z.add_simpl_r; split; try (intros [? ?]); try discriminate; try lia; auto; try (intros K; split; [lia|]); try (rewrite <- K; f_equal; lia); match goal with K : Wt _ _ = true |- _ => rewrite <- K; f_equal; lia end.
    - cbn [andb]. destruct (tripolar bc) eqn:Etr; cbn [andb]; rewrite ?andb_true_r, ?andb_false_r.
      + destruct (Z.leb_spec (ny + h) (y + h)); destruct (Z.leb_spec ny y); try lia.
        * (* beyond the fold *)
          replace (nx + 2 * h - 1 - (x + h)) with ((nx - 1 - x) + h) by lia. replace (2 * (ny + h) - 1 - (y + h)) with ((2 * ny - 1 - y) + h) by lia. rewrite F2_eq by lia.
          unfold X2, stands. rewrite Ecy, Etr. assert (Ey0 : (0 <=? 2 * ny - 1 - y) && (2 * ny - 1 - y <? ny) = true) by lia. rewrite Ey0. split.
          -- intros K. destruct ((0 <=? nx - 1 - x) && (nx - 1 - x <? nx)) eqn:Eb.
             ++ exists (nx - 1 - x), (2 * ny - 1 - y). split; [|apply W_true; auto; lia]. split; [lia|]. split; [lia|]. right. split; auto. split; auto. split; auto. left. unfold te. destruct (Z.leb_spec nx x); lia.
             ++ destruct (cyclic_x bc) eqn:Ecx; [|discriminate]. destruct (Z.ltb_spec (nx - 1 - x) 0).
                ** exists (nx - 1 - (nx - 1 - x + h)), (2 * ny - 1 - y). split; [|apply W_true; auto; lia]. split; [lia|]. split; [lia|]. right. split; auto. split; auto. split; auto. right. split; auto. unfold te. destruct (Z.leb_spec nx x); [|lia]. exists (-1). lia.
                ** exists (nx - 1 - x - nx), (2 * ny - 1 - y). split; [|apply W_true; auto; lia]. split; [lia|]. split; [lia|]. right. split; auto. split; auto. split; auto. right. split; auto. unfold te. destruct (Z.leb_spec nx x); [lia|]. exists 1. lia.
          -- intros (x' & y' & (A & B & [[_ [C | [C _]]]|(_ & _ & C & D)]) & E); [lia|discriminate|]. subst y'. apply W_true in E; auto.
             apply SX in D; auto; [|unfold te; destruct (Z.leb_spec nx x); lia]. unfold te in D.
             revert D. destruct (Z.leb_spec nx x); intros D.
             ++ destruct ((0 <=? nx - 1 - x) && (nx - 1 - x <? nx)) eqn:Eb; [lia|]. destruct D as [D|[Ecx D]]; [lia|]. rewrite Ecx. destruct (Z.ltb_spec (nx - 1 - x) 0); [|lia]. replace (nx - 1 - (nx - 1 - x + h)) with x' by lia. auto.
             ++ destruct ((0 <=? nx - 1 - x) && (nx - 1 - x <? nx)) eqn:Eb; [destruct D as [D|D]; [|lia]; replace (nx - 1 - x) with x' by lia; auto|]. destruct D as [D|[Ecx D]]; [lia|]. rewrite Ecx. destruct (Z.ltb_spec (nx - 1 - x) 0); [lia|]. replace (nx - 1 - x - nx) with x' by lia. auto.
        * rewrite F2_eq by lia. unfold X2, stands. rewrite Ecy, Etr. cbn [andb]. split.
          -- intros K. destruct ((0 <=? y) && (y <? ny)) eqn:Eyy; [|discriminate]. destruct ((0 <=? x) && (x <? nx)) eqn:Eb.
             ++ exists x, y. split; [|apply W_true; auto; lia]. split; [lia|]. split; [lia|]. left. split; left; auto. unfold tw. destruct (Z.ltb_spec x 0); lia.
             ++ destruct (cyclic_x bc) eqn:Ecx; [|discriminate]. destruct (Z.ltb_spec x 0).
                ** exists (nx - 1 - (x + h)), y. split; [|apply W_true; auto; lia]. split; [lia|]. split; [lia|]. left. split; [|left; auto]. right. split; auto. unfold tw. destruct (Z.ltb_spec x 0); [|lia]. exists (-1). lia.
                ** exists (x - nx), y. split; [|apply W_true; auto; lia]. split; [lia|]. split; [lia|]. left. split; [|left; auto]. right. split; auto. unfold tw. destruct (Z.ltb_spec x 0); [lia|]. exists 1. lia.
          -- intros (x' & y' & (A & B & [[C [D|[D _]]]|(_ & D & _)]) & E); [|discriminate|lia]. subst y'. apply W_true in E; auto. destruct ((0 <=? y) && (y <? ny)) eqn:Eyy; [|lia].
             apply SX in C; auto; [|unfold tw; destruct (Z.ltb_spec x 0); lia]. unfold tw in C. destruct ((0 <=? x) && (x <? nx)) eqn:Eb.
             ++ revert C. destruct (Z.ltb_spec x 0); [lia|]. intros C. destruct C as [C|C]; [|lia]. now subst.
             ++ revert C. destruct (Z.ltb_spec x 0); intros C; destruct C as [C|[Ecx C]]; try lia; rewrite Ecx; [replace (nx - 1 - (x + h)) with x' by lia|replace (x - nx) with x' by lia]; auto.
      + rewrite F2_eq by lia. unfold X2, stands. rewrite Ecy, Etr. split.
          -- intros K. destruct ((0 <=? y) && (y <? ny)) eqn:Eyy; [|discriminate]. destruct ((0 <=? x) && (x <? nx)) eqn:Eb.
             ++ exists x, y. split; [|apply W_true; auto; lia]. split; [lia|]. split; [lia|]. left. split; left; auto. unfold tw. destruct (Z.ltb_spec x 0); lia.
             ++ destruct (cyclic_x bc) eqn:Ecx; [|discriminate]. destruct (Z.ltb_spec x 0).
                ** exists (nx - 1 - (x + h)), y. split; [|apply W_true; auto; lia]. split; [lia|]. split; [lia|]. left. split; [|left; auto]. right. split; auto. unfold tw. destruct (Z.ltb_spec x 0); [|lia]. exists (-1). lia.
                ** exists (x - nx), y. split; [|apply W_true; auto; lia]. split; [lia|]. split; [lia|]. left. split; [|left; auto]. right. split; auto. unfold tw. destruct (Z.ltb_spec x 0); [lia|]. exists 1. lia.
          -- intros (x' & y' & (A & B & [[C [D|[D _]]]|(D & _)]) & E); [|discriminate|discriminate]. subst y'. apply W_true in E; auto. destruct ((0 <=? y) && (y <? ny)) eqn:Eyy; [|lia].
             apply SX in C; auto; [|unfold tw; destruct (Z.ltb_spec x 0); lia]. unfold tw in C. destruct ((0 <=? x) && (x <? nx)) eqn:Eb.
             ++ revert C. destruct (Z.ltb_spec x 0); [lia|]. intros C. destruct C as [C|C]; [|lia]. now subst.
             ++ revert C. destruct (Z.ltb_spec x 0); intros C; destruct C as [C|[Ecx C]]; try lia; rewrite Ecx; [replace (nx - 1 - (x + h)) with x' by lia|replace (x - nx) with x' by lia]; auto.
  Qed.

  (** A box whose halo covers a whole global halo or none of it. *)
  Lemma box_water ib ie jb je : 0 <= ib <= ie -> ie < nx -> 0 <= jb <= je -> je < ny ->
    (ib = 0 \/ h <= ib) -> (ie = nx - 1 \/ ie + h < nx) -> (jb = 0 \/ h <= jb) ->
    ((exists X Y, ib <= X <= ie + 2 * h /\ jb <= Y <= je + 2 * h /\ F X Y = true) <-> has_water nx ny h bc wet_in ib ie jb je).
  Proof.
    intros I1 I2 J1 J2 B1 B2 B3. unfold has_water. split.
    - intros (X & Y & HX & HY & HF). replace X with ((X - h) + h) in HF by lia. replace Y with ((Y - h) + h) in HF by lia. apply F_true in HF; try lia.
      destruct HF as (x' & y' & HS & HW'). eexists _, _, x', y'. split; [|split; [|split; [exact HS|exact HW']]].
      + destruct ((ny <=? Y - h) && tripolar bc); unfold te, tw; [destruct (Z.leb_spec nx (X - h))|destruct (Z.ltb_spec (X - h) 0)]; lia.
      + destruct (cyclic_y bc); [|lia]. destruct (Z.ltb_spec (Y - h) 0); lia.
    - intros (x & y & x' & y' & Hx & Hy & HS & HW').
      exists ((if (ny <=? y) && tripolar bc then te x else tw x) + h), ((if cyclic_y bc then (if y <? 0 then - h - 1 - y else y) else y) + h).
      set (x1 := if (ny <=? y) && tripolar bc then te x else tw x). set (y1 := if cyclic_y bc then (if y <? 0 then - h - 1 - y else y) else y).
      assert (Rx : ib - h <= x1 <= ie + h). { unfold x1, te, tw. destruct ((ny <=? y) && tripolar bc); [destruct (Z.leb_spec nx x)|destruct (Z.ltb_spec x 0)]; lia. }
      assert (Ry : jb - h <= y1 <= je + h). { unfold y1. destruct (cyclic_y bc); [destruct (Z.ltb_spec y 0)|]; lia. }
      split; [lia|]. split; [lia|]. apply F_true; try lia. exists x', y'. split; auto.
      assert (Ey : (ny <=? y1) && tripolar bc = (ny <=? y) && tripolar bc). { unfold y1. destruct (cyclic_y bc) eqn:Ecy; auto. destruct (Hxy eq_refl) as [_ ->]. now rewrite !andb_false_r. }
      rewrite Ey.
      assert (Ex1 : (if (ny <=? y) && tripolar bc then te x1 else tw x1) = x). { unfold x1. destruct ((ny <=? y) && tripolar bc); unfold te, tw; [destruct (Z.leb_spec nx x)|destruct (Z.ltb_spec x 0)]; [destruct (Z.leb_spec nx (2 * nx + h - 1 - x))|destruct (Z.leb_spec nx x)|destruct (Z.ltb_spec (- h - 1 - x) 0)|destruct (Z.ltb_spec x 0)]; lia. }
      rewrite Ex1. assert (Ey1 : (if cyclic_y bc then (if y1 <? 0 then - h - 1 - y1 else y1) else y1) = y). { unfold y1. destruct (cyclic_y bc); auto. destruct (Z.ltb_spec y 0); [destruct (Z.ltb_spec (- h - 1 - y) 0)|destruct (Z.ltb_spec y 0)]; lia. }
      rewrite Ey1. exact HS.
  Qed.
End Period.
