From Coq Require Import ZArith List Bool Lia.
From Verif Require Import Base Loops Grid2 M_Extent Spec_Extent T_Extent M_CheckMask P_CheckMask2 P_GridHalo M_LandMask Spec_LandMask P_LandMask.
Import ListNotations.
Open Scope Z_scope.

(** ** Lists made tile after tile *)
Lemma ofor_flat {A} (g : Z -> list A) N step : 0 <= N -> (forall l k, 0 <= k < N -> step l k = Ok (l ++ g k)) -> ofor 0 N step [] = Ok (flat_map g (zseq 0 N)).
Proof.
  intros HN H. destruct (ofor_inv (fun k l => l = flat_map g (zseq 0 k)) step 0 N []) as (l & E & Hl); auto.
  - intros k l Hk ->. rewrite H by lia. eexists. split; [reflexivity|]. rewrite zseq_snoc by lia. rewrite flat_map_app. cbn [flat_map]. now rewrite app_nil_r.
  - rewrite E, Hl. reflexivity.
Qed.

Lemma ofor_sum {A} (g : Z -> list A) N step : 0 <= N -> (forall c k, 0 <= k < N -> step c k = Ok (c + zlen (g k))) -> ofor 0 N step 0 = Ok (zlen (flat_map g (zseq 0 N))).
Proof.
  intros HN H. destruct (ofor_inv (fun k c => c = zlen (flat_map g (zseq 0 k))) step 0 N 0) as (c & E & Hc); auto.
  - intros k c Hk ->. rewrite H by lia. eexists. split; [reflexivity|]. rewrite zseq_snoc by lia. rewrite flat_map_app, zlen_app. cbn [flat_map]. now rewrite app_nil_r.
  - rewrite E, Hc. reflexivity.
Qed.

Lemma NoDup_flat_map {A} (g : Z -> list A) (tag : A -> Z) L : NoDup L -> (forall k, In k L -> NoDup (g k)) -> (forall k y, In y (g k) -> tag y = k) -> NoDup (flat_map g L).
Proof.
  intros HL Hg Ht. induction L as [|k L IH]; [constructor|]. cbn [flat_map]. inversion HL as [|? ? Hk HL']; subst.
  assert (N1 : NoDup (g k)) by (apply Hg; now left). assert (N2 : NoDup (flat_map g L)) by (apply IH; auto; intros; apply Hg; now right).
  assert (D : forall y, In y (g k) -> ~ In y (flat_map g L)). { intros y Hy H. apply in_flat_map in H. destruct H as (k' & Hk' & Hy'). apply Ht in Hy, Hy'. congruence. }
  clear -N1 N2 D. induction (g k) as [|y l IH]; auto. cbn [app]. inversion N1; subst. constructor.
  - rewrite in_app_iff. intros [K|K]; [contradiction|]. exact (D y (or_introl eq_refl) K).
  - apply IH; auto. intros z Hz. apply D. now right.
Qed.

Lemma copy_list {A} (l : list A) : ofor 0 (zlen l) (fun out k => do e <- oget l k ; Ok (out ++ [e])) [] = Ok l.
Proof.
  destruct l as [|x0 l0]; [reflexivity|]. set (l := x0 :: l0).
  rewrite (ofor_grow (zlen l) _ (fun k => rd x0 l k)).
  - f_equal. apply zget_ext.
    + rewrite zlen_map, zlen_zseq; auto. apply zlen_nonneg.
    + intros k Hk. rewrite zlen_map, zlen_zseq in Hk by apply zlen_nonneg. rewrite zget_map, zget_zseq by auto. cbn [option_map]. symmetry. apply zget_rd. lia.
  - apply zlen_nonneg.
  - intros b k Hk. rewrite (oget_rd x0) by auto. reflexivity.
Qed.

(** ** The land with its halo *)
Section Land.
Variables (n : Z) (land : list (list bool)).
Hypothesis Hn : 1 <= n.
Hypothesis HL : zlen land = 6.
Hypothesis Hd : forall t d, zget land t = Some d -> zlen d = n * n.
Definition cell (t j i : Z) : bool := match zget land t with Some d => rd false d (j * n + i) | None => false end.
Let F := haloed false n cell.

Lemma cell_land t j i : is_land n land t j i <-> cell t j i = true.
Proof.
  unfold is_land, cell, rd. split.
  - intros (d & -> & ->). reflexivity.
  - destruct (zget land t) as [d|]; [|discriminate]. destruct (zget d (j * n + i)) as [v|] eqn:E; [|discriminate]. intros ->. exists d. auto.
Qed.

Lemma pad_ok t d : zget land t = Some d -> exists a, pad_land n n d = Ok a /\ good (place_val false n cell t) ((n + 2) * (n + 2)) (known0 n t) a.
Proof.
  intros Et. pose proof (Hd t d Et) as Ld. unfold pad_land. set (W := n + 2).
  set (v := fun x y => cell t (y - 1) (x - 1)).
  match goal with |- context [ofor 1 n ?b ?s] => destruct (ofor_fields b W W 1 n (fun j x y => if (1 <=? x) && (x <=? n) && (1 <=? y) && (y <? j) then v x y else false) s) as (a & E & Ha) end.
  - lia.
  - eapply fields_ext; [|apply (fields_repeat false W W); unfold W; lia]. intros x y _ _. cbv beta.
    destruct (Z.leb_spec 1 y); destruct (Z.ltb_spec y 1); rewrite ?andb_false_r; auto; lia.
  - intros j g Hj Hg. cbv beta.
    match goal with |- context [ofor 1 n ?b ?s] => destruct (ofor_fields b W W 1 n (fun i x y => if (1 <=? x) && (x <=? n) && (1 <=? y) && ((y <? j) || ((y =? j) && (x <? i))) then v x y else false) s) as (g' & E & Hg') end.
    + lia.
    + eapply fields_ext; [|exact Hg]. intros x y Kx Ky. cbv beta. destruct (Z.leb_spec 1 x); destruct (Z.ltb_spec x 1); cbn [andb]; rewrite ?andb_false_r, ?orb_false_r; auto; lia.
    + intros i g1 Hi Hg1. cbv beta. rewrite (oget_rd false). 2:{ pose proof (rowmajor_range n n (j - 1) (i - 1) ltac:(lia) ltac:(lia)). lia. }
      cbn [bind]. eapply fields_set; [exact Hg1|unfold W; lia|unfold W; lia|].
      intros x y Kx Ky. destruct (Z.eqb_spec x i) as [Ex|Ex]; destruct (Z.eqb_spec y j) as [Ey|Ey]; cbn [andb].
      * subst. rewrite Z.ltb_irrefl. cbn [orb]. rewrite (proj2 (Z.leb_le 1 i)), (proj2 (Z.leb_le i n)), (proj2 (Z.leb_le 1 j)), (proj2 (Z.ltb_lt i (i + 1))) by lia. cbn [andb].
        unfold v, cell. rewrite Et. f_equal. lia.
      * now rewrite !orb_false_r.
      * subst y. rewrite Z.ltb_irrefl. cbn [orb]. destruct (Z.ltb_spec x (i + 1)); destruct (Z.ltb_spec x i); auto; lia.
      * now rewrite !orb_false_r.
    + exists g'. split; [exact E|]. eapply fields_ext; [|exact Hg']. intros x y Kx Ky. cbv beta.
      destruct (Z.leb_spec x n); rewrite ?andb_false_r; cbn [andb]; auto. rewrite (proj2 (Z.ltb_lt x (1 + n))) by lia. rewrite !andb_true_r.
      destruct (Z.ltb_spec y (j + 1)); destruct (Z.ltb_spec y j); destruct (Z.eqb_spec y j); cbn [orb]; auto; lia.
  - exists a. split; [exact E|]. destruct Ha as [La Ha]. split; [exact La|]. intros x (j & i & -> & K).
    fold W. rewrite Ha by (unfold W; lia). unfold W. rewrite place_at by lia. f_equal. destruct K as [[Kj Ki]|[Kj Ki]].
    + rewrite H_in by auto. rewrite (proj2 (Z.leb_le 1 i)), (proj2 (Z.leb_le i n)), (proj2 (Z.leb_le 1 j)), (proj2 (Z.ltb_lt j (1 + n))) by lia. reflexivity.
    + rewrite H_corner by auto. destruct Ki as [->| ->]; [reflexivity|]. rewrite (proj2 (Z.leb_gt (n + 1) n)) by lia. now rewrite andb_false_r.
Qed.

Lemma area_ok : exists area, (do area <- ofor 0 6 (fun area t => do tmp <- oget land t ; do a <- pad_land n n tmp ; Ok (area ++ [a])) [] ; update_cubic_halo 6 n n area) = Ok area
  /\ forall t, 0 <= t < 6 -> exists a, zget area t = Some a /\ fields a (n + 2) (n + 2) (fun x y => F t y x).
Proof.
  set (val := fun t => match zget land t with Some d => match pad_land n n d with Ok a => a | _ => [] end | None => [] end).
  rewrite (ofor_grow 6 _ val); [|lia|].
  2:{ intros b t Ht. destruct (zget_in_range land t ltac:(lia)) as (d & E). rewrite (proj2 (oget_Ok _ _ _) E). cbn [bind]. unfold val. rewrite E. destruct (pad_ok t d E) as (a & -> & _). reflexivity. }
  cbn [bind]. destruct (update_ok false n cell Hn (map val (zseq 0 6))) as (area & E & Ea).
  - split; [reflexivity|]. intros t Ht. exists (val t). split; [rewrite zget_map, zget_zseq by auto; reflexivity|].
    destruct (zget_in_range land t ltac:(lia)) as (d & E). unfold val. rewrite E. destruct (pad_ok t d E) as (a & -> & K). exact K.
  - exists area. split; [exact E|]. intros t Ht. destruct (proj2 Ea t Ht) as (a & Et & La & K). exists a. split; [exact Et|]. split; [exact La|].
    intros x y Hx Hy. pose proof (rowmajor_range (n + 2) (n + 2) y x Hy Hx). rewrite K by auto. rewrite place_at by lia. reflexivity.
Qed.

(** ** What the halo stands for *)
Definition nb (t : Z) (s : side) : Z * side * bool :=
  let odd := Z.rem t 2 =? 1 in
  match s with
  | West => if odd then (Z.rem (t + 5) 6, East, false) else (Z.rem (t + 4) 6, North, true)
  | East => if odd then (Z.rem (t + 2) 6, South, true) else (Z.rem (t + 1) 6, West, false)
  | South => if odd then (Z.rem (t + 4) 6, East, true) else (Z.rem (t + 5) 6, North, false)
  | North => if odd then (Z.rem (t + 1) 6, South, false) else (Z.rem (t + 2) 6, West, true)
  end.
Lemma nb_spec t s t' s' r : 0 <= t < 6 -> (neighbour t s t' s' r <-> nb t s = (t', s', r)).
Proof.
  intros Ht. unfold neighbour, cube_edges. cbn [In].
  assert (C : t = 0 \/ t = 1 \/ t = 2 \/ t = 3 \/ t = 4 \/ t = 5) by lia.
  destruct C as [->|[->|[->|[->|[->| ->]]]]]; destruct s; (split;
   [ intros D; cbn; repeat match goal with H : _ \/ _ |- _ => destruct H as [H|H] end; try contradiction; try discriminate; injection D; intros; subst; reflexivity
   | intros E; cbn in E; injection E as <- <- <-; tauto ]).
Qed.

Lemma haloed_side t s k t' s' r : 0 <= k < n -> nb t s = (t', s', r) ->
  F t (fst (outside n s k) + 1) (snd (outside n s k) + 1)
  = cell t' (fst (inside n s' (if r then n - 1 - k else k))) (snd (inside n s' (if r then n - 1 - k else k))).
Proof.
  intros Hk. unfold nb, F. destruct s; cbn [outside fst snd]; change (-1 + 1) with 0.
  - rewrite H_s by lia. destruct (Z.rem t 2 =? 1); intros E; injection E as <- <- <-; cbn [inside fst snd]; f_equal; lia.
  - rewrite H_n by lia. destruct (Z.rem t 2 =? 1); intros E; injection E as <- <- <-; cbn [inside fst snd]; f_equal; lia.
  - rewrite H_w by lia. destruct (Z.rem t 2 =? 1); intros E; injection E as <- <- <-; cbn [inside fst snd]; f_equal; lia.
  - rewrite H_e by lia. destruct (Z.rem t 2 =? 1); intros E; injection E as <- <- <-; cbn [inside fst snd]; f_equal; lia.
Qed.

Lemma haloed_spec t j i : 0 <= t < 6 -> -1 <= j <= n -> -1 <= i <= n ->
  (F t (j + 1) (i + 1) = true <-> exists t' j' i', stands_for n t j i t' j' i' /\ is_land n land t' j' i').
Proof.
  intros Ht Hj Hi. split.
  - assert (S : forall s k, 0 <= k < n -> (j, i) = outside n s k -> F t (j + 1) (i + 1) = true -> exists t' j' i', stands_for n t j i t' j' i' /\ is_land n land t' j' i').
    { intros s k Hk E T. destruct (nb t s) as [[t' s'] r] eqn:En. pose proof (haloed_side t s k t' s' r Hk En) as Q. rewrite <- E in Q. cbn [fst snd] in Q. rewrite T in Q.
      exists t', (fst (inside n s' (if r then n - 1 - k else k))), (snd (inside n s' (if r then n - 1 - k else k))). split; [|now apply cell_land].
      right. exists s, s', r, k. split; [now apply nb_spec|]. split; [exact Hk|]. split; [exact E|]. destruct (inside n s' (if r then n - 1 - k else k)). reflexivity. }
    assert (X : (0 <= j < n /\ 0 <= i < n) \/ (0 <= j < n /\ i = -1) \/ (0 <= j < n /\ i = n) \/ (0 <= i < n /\ j = -1) \/ (0 <= i < n /\ j = n) \/ ((j = -1 \/ j = n) /\ (i = -1 \/ i = n))) by lia.
    destruct X as [[A B]|[[A ->]|[[A ->]|[[A ->]|[[A ->]|[A B]]]]]].
    + intros T. unfold F in T. rewrite H_in in T by lia. exists t, j, i. split; [left; auto|]. apply cell_land. rewrite <- T. f_equal; lia.
    + apply (S West j); auto. + apply (S East j); auto. + apply (S South i); auto. + apply (S North i); auto.
    + intros T. unfold F in T. rewrite H_corner in T by lia. discriminate.
  - intros (t' & j' & i' & [(-> & -> & -> & Bj & Bi)|(s & s' & r & k & N & Hk & E & E')] & T).
    + unfold F. rewrite H_in by lia. apply cell_land in T. rewrite <- T. f_equal; lia.
    + apply nb_spec in N; auto. pose proof (haloed_side t s k t' s' r Hk N) as Q. rewrite <- E, <- E' in Q. cbn [fst snd] in Q. rewrite Q. now apply cell_land.
Qed.
End Land.

(** ** The masks *)
Lemma oget_map {A B} (g : A -> B) l k : oget (map g l) k = (do v <- oget l k ; Ok (g v)).
Proof. unfold oget. rewrite zget_map. destruct (zget l k); reflexivity. Qed.
Lemma land_masks_eq a nx lx ly ib ie jb je : land_masks a nx lx ly ib ie jb je
  = domain_masks a (nx + 2) 1 lx ly (map (Z.add 1) ib) (map (Z.add 1) ie) (map (Z.add 1) jb) (map (Z.add 1) je).
Proof.
  unfold land_masks, domain_masks. apply ofor_ext. intros s k Hk. rewrite !oget_map. destruct (oget jb k) as [b| |]; cbn [bind]; auto. destruct (oget je k) as [e| |]; cbn [bind]; auto.
  apply ofor_ext. intros s' k' Hk'. rewrite !oget_map. destruct (oget ib k') as [b'| |]; cbn [bind]; auto. destruct (oget ie k') as [e'| |]; cbn [bind]; auto.
  replace (1 + b' - 1) with b' by lia. replace (1 + e' + 1) with (e' + 2) by lia. replace (1 + b - 1) with b by lia. replace (1 + e + 1) with (e + 2) by lia. reflexivity.
Qed.

Lemma land_masks_ok n a F lx ly ib ie jb je : fields a (n + 2) (n + 2) (fun x y => F y x) -> 1 <= lx -> 1 <= ly -> tiles n lx ib ie -> tiles n ly jb je ->
  exists mask m, land_masks a n lx ly ib ie jb je = Ok mask /\ fields mask lx ly m
  /\ forall i j b e b' e', 0 <= i < lx -> 0 <= j < ly -> division ib ie i b e -> division jb je j b' e' ->
     (m i j <> 0 <-> exists j i, b' - 1 <= j <= e' + 1 /\ b - 1 <= i <= e + 1 /\ F (j + 1) (i + 1) = true).
Proof.
  intros Ha Hx Hy Ti Tj. rewrite land_masks_eq.
  destruct (domain_masks_ok a (n + 2) (n + 2) (fun x y => F y x) 1 lx ly (map (Z.add 1) ib) (map (Z.add 1) ie) (map (Z.add 1) jb) (map (Z.add 1) je)) as (mask & m & E & Hm & _ & K); auto; try lia.
  - intros i Hi. destruct Ti as (T & _). destruct (T i Hi) as (b & e & [D1 D2] & B1 & B2). exists (1 + b), (1 + e). rewrite !zget_map, D1, D2. repeat split; lia.
  - intros i Hi. destruct Tj as (T & _). destruct (T i Hi) as (b & e & [D1 D2] & B1 & B2). exists (1 + b), (1 + e). rewrite !zget_map, D1, D2. repeat split; lia.
  - exists mask, m. split; [exact E|]. split; [exact Hm|]. intros i j b e b' e' Hi Hj [D1 D2] [D3 D4].
    rewrite (K i j (1 + b) (1 + e) (1 + b') (1 + e')) by (auto; rewrite zget_map, ?D1, ?D2, ?D3, ?D4; reflexivity).
    split.
    + intros (x & y & Bx & By & T). exists (y - 1), (x - 1). split; [lia|]. split; [lia|]. rewrite <- T. f_equal; lia.
    + intros (y & x & By & Bx & T). exists (x + 1), (y + 1). split; [lia|]. split; [lia|]. exact T.
Qed.

Definition tri (lx t k : Z) : Z * Z * Z := (k mod lx + 1, k / lx + 1, t + 1).

Lemma tile_lines mask M m lx ly t l : 1 <= lx -> 1 <= ly -> zget mask t = Some M -> fields M lx ly m ->
  ofor 0 ly (fun l j => ofor 0 lx (fun l i => do v <- get2 mask t (j * lx + i) ; Ok (if v =? 0 then l ++ [(i + 1, j + 1, t + 1)] else l)) l) l
  = Ok (l ++ map (tri lx t) (filter (masked lx m) (zseq 0 (lx * ly)))).
Proof.
  intros Hx Hy Et Hm.
  rewrite (ofor_nest2 0 ly 0 lx (fun j l i => do v <- get2 mask t (j * lx + i) ; Ok (if v =? 0 then l ++ [(i + 1, j + 1, t + 1)] else l))) by lia.
  match goal with |- ofor 0 _ ?f ?s = _ => destruct (ofor_inv (fun k l' => l' = l ++ map (tri lx t) (filter (masked lx m) (zseq 0 k))) f 0 (ly * lx) s) as (l' & E & H) end.
  - nia.
  - cbn. now rewrite app_nil_r.
  - intros k l' Hk ->. destruct (divmod_range ly lx k ltac:(lia) ltac:(lia)) as (K0 & K1 & K2 & K3).
    replace ((0 + k / lx) * lx + (0 + k mod lx)) with k by lia. unfold get2. rewrite (proj2 (oget_Ok _ _ _) Et). cbn [bind].
    rewrite (mask_at lx ly ltac:(lia) M m Hm k ltac:(lia)). cbn [bind]. eexists. split; [reflexivity|].
    rewrite zseq_snoc by lia. rewrite filter_app, map_app. cbn [filter]. rewrite !Z.add_0_l. change (m (k mod lx) (k / lx) =? 0) with (masked lx m k).
    destruct (masked lx m k); cbn [map]; [now rewrite app_assoc|now rewrite app_nil_r].
  - rewrite E, H. now rewrite Z.add_0_l, (Z.mul_comm ly lx).
Qed.
