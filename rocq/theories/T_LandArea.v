(** C90: the land mask table from the exchange grid files *)
From Coq Require Import String Reals Lra Lia.
From Verif Require Import Base Str Loops Vec Lst M_Interp M_Extent Spec_Extent M_Supergrid M_LandDomain Spec_Interp Spec_Supergrid Spec_LandDomain P_Interp2 P_Supergrid P_LandDomain
  M_LandMask Spec_LandMask T_LandMask M_LandArea Spec_LandArea.
Open Scope list_scope. Open Scope Z_scope.

(** The files that are read for tile [t]. *)
Definition path_sel (d : land_input) (dir : str) (t : Z) (f : str * list lcell) : bool := strstr (dir ++ chars "/" ++ fst f) (face_name (d_mosaic d) t).
(** The area of the exchange cells of the files [sel] on cell [k]. *)
Definition sel_area (d : land_input) (sel : str * list lcell -> bool) (k : Z) : R :=
  rsum l_area (filter (fun c => l_j c * d_nx d + l_i c =? k) (flat_map snd (filter sel (d_files d)))).

Lemma get_land_area_run d dir tile : 0 < d_nx d -> 0 < d_ny d -> 1 < d_nfaces d -> cells_inside d ->
  exists a, get_land_area d dir tile = Ok a
  /\ vec a (d_nx d * d_ny d) (fun k => sel_area d (path_sel d dir (tile - 1)) k * K)%R.
Proof.
  intros Hx Hy Hf Hin. unfold get_land_area. rewrite (proj2 (Z.ltb_lt 1 (d_nfaces d))) by lia. cbn [andb].
  set (sel := path_sel d dir (tile - 1)).
  match goal with |- context [ofold ?g ?fs ?s] => destruct (ofold_inv (fun l a => (forall f, In f l -> In f (d_files d)) -> vec a (d_nx d * d_ny d) (fun k => rsum l_area (filter (fun c => l_j c * d_nx d + l_i c =? k) (flat_map snd (filter sel l))))) g fs s) as (a & E & H) end.
  - intros _. eapply vec_ext; [|apply vec_repeat; nia]. intros i Hi. reflexivity.
  - intros l1 f l2 a El Ha.
    assert (Hff : In f (d_files d)) by (rewrite El; apply in_or_app; right; left; auto).
    assert (Hl1 : forall f0, In f0 l1 -> In f0 (d_files d)) by (intros f0 H0; rewrite El; apply in_or_app; left; auto).
    specialize (Ha Hl1). cbv beta. change (strstr (dir ++ chars "/" ++ fst f) (face_name (d_mosaic d) (tile - 1))) with (sel f). destruct (sel f) eqn:Es; cbn [negb].
    + destruct (accumulate (fun c => l_j c * d_nx d + l_i c) l_area (d_nx d * d_ny d) (snd f) (fun area c => do v <- oget area (l_j c * d_nx d + l_i c) ; oset area (l_j c * d_nx d + l_i c) (v + l_area c)%R) a _ Ha) as (a' & E' & V').
      * intros c Hc. destruct (Hin f c Hff Hc). nia.
      * intros a0 c Hc. reflexivity.
      * exists a'. split; [exact E'|]. intros _. eapply vec_ext; [|exact V']. intros k Hk. cbv beta.
        rewrite filter_app. cbn [filter]. rewrite Es. rewrite flat_map_app. cbn [flat_map]. rewrite app_nil_r, filter_app, rsum_app. reflexivity.
    + exists a. split; [reflexivity|]. intros _. eapply vec_ext; [|exact Ha]. intros k Hk. cbv beta. rewrite filter_app. cbn [filter]. rewrite Es, app_nil_r. reflexivity.
  - match goal with |- context [bind ?o _] => replace o with (Ok a) by (symmetry; exact E) end. cbn [bind]. specialize (H (fun f Hff => Hff)).
    match goal with |- context [ofor 0 _ ?g _] => destruct (ofor_vec g (d_nx d * d_ny d) 0 (d_nx d * d_ny d) (fun i k => if k <? i then sel_area d sel k * K else sel_area d sel k)%R a) as (a' & E' & V') end.
    + nia.
    + eapply vec_ext; [|exact H]. intros i Hi. rewrite (proj2 (Z.ltb_ge i 0)) by lia. reflexivity.
    + intros i g Hi Hg. cbv beta. rewrite (vec_get _ _ _ i Hg) by lia. cbn [bind]. rewrite Z.ltb_irrefl. eapply vec_set; [exact Hg|lia|].
      intros k Hk. destruct (Z.eqb_spec k i) as [->|N].
      * rewrite (proj2 (Z.ltb_lt i (i + 1))) by lia. reflexivity.
      * destruct (Z.ltb_spec k (i + 1)); destruct (Z.ltb_spec k i); try lia; reflexivity.
    + exists a'. split; [exact E'|]. eapply vec_ext; [|exact V']. intros k Hk. cbv beta. rewrite (proj2 (Z.ltb_lt k (0 + d_nx d * d_ny d))) by lia. reflexivity.
Qed.

(** The land that check_land_mask is given, whatever the names are. *)
Definition land_seen (d : land_input) (dir : str) : list (list bool) :=
  map (fun t => map (fun k => rlt 0 (sel_area d (path_sel d dir t) k)) (zseq 0 (d_nx d * d_ny d))) (zseq 0 6).

Lemma check_land_run d dir lx ly arr : 0 < d_nx d -> d_ny d = d_nx d -> d_nfaces d = 6 -> cells_inside d ->
  check_land d dir lx ly arr = land_mask (d_nx d) lx ly arr (land_seen d dir).
Proof.
  intros Hx Hy Hf Hin. unfold check_land. rewrite Hf, Hy, !Z.eqb_refl. cbn [negb].
  rewrite (ofor_grow 6 _ (fun t => map (fun k => rlt 0 (sel_area d (path_sel d dir t) k)) (zseq 0 (d_nx d * d_ny d)))); [reflexivity|lia|].
  intros b t Ht. destruct (get_land_area_run d dir (t + 1) Hx ltac:(lia) ltac:(lia) Hin) as (a & -> & V). cbn [bind]. rewrite Z.add_simpl_r in V.
  do 3 f_equal. apply zget_ext.
  - rewrite !zlen_map, zlen_zseq by nia. apply V.
  - intros k Hk. rewrite zlen_map, (proj1 V) in Hk. rewrite !zget_map, zget_zseq by auto. rewrite (proj2 V k Hk). cbn [option_map]. rewrite Rmult_comm, rlt_K. reflexivity.
Qed.

Lemma neighbour_range t s t' s' r : neighbour t s t' s' r -> 0 <= t' < 6.
Proof.
  unfold neighbour, cube_edges. cbn [In]. intros H. repeat match goal with H : _ \/ _ |- _ => destruct H as [H|H] end; try contradiction; injection H; intros; subst; lia.
Qed.

(** The table lists, once each, numbered from 1, exactly the domains without a positive area of
    exchange cells in or beside them. *)
Theorem C90_land_mask_partial : forall d dir owner lx ly arr,
  1 <= lx <= d_nx d -> 1 <= ly <= d_nx d -> lx <= zlen arr -> ly <= zlen arr -> d_ny d = d_nx d -> d_nfaces d = 6 -> cells_inside d -> paths_tell d dir owner ->
  exists ib ie jb je result, mpp_compute_extent (d_nx d) lx arr arr = Ok (ib, ie) /\ mpp_compute_extent (d_nx d) ly arr arr = Ok (jb, je)
  /\ tiles (d_nx d) lx ib ie /\ tiles (d_nx d) ly jb je /\ check_land d dir lx ly arr = Ok result
  /\ match result with
     | Some table => l_layout table = (lx, ly, 6) /\ l_nmask table = zlen (l_lines table) /\ 1 <= l_nmask table /\ NoDup (l_lines table)
       /\ forall x y z, In (x, y, z) (l_lines table) <->
          1 <= x <= lx /\ 1 <= y <= ly /\ 1 <= z <= 6
          /\ forall b e b' e', division ib ie (x - 1) b e -> division jb je (y - 1) b' e' -> ~ has_land_area d owner (z - 1) b e b' e'
     | None => forall x y z b e b' e', 1 <= x <= lx -> 1 <= y <= ly -> 1 <= z <= 6 ->
          division ib ie (x - 1) b e -> division jb je (y - 1) b' e' -> has_land_area d owner (z - 1) b e b' e'
     end.
Proof.
  intros d dir owner lx ly arr Hx Hy La La' Hsq Hf Hin Hp.
  rewrite (check_land_run d dir lx ly arr) by (auto; lia).
  destruct (C89_land_table (d_nx d) lx ly arr (land_seen d dir) Hx Hy La La') as (ib & ie & jb & je & result & E1 & E2 & T1 & T2 & E & C).
  - reflexivity.
  - intros t l Hl. pose proof (zget_Some_range _ _ _ Hl) as B. unfold land_seen in Hl, B. rewrite zlen_map, zlen_zseq in B by lia. rewrite zget_map, zget_zseq in Hl by lia. injection Hl as <-.
    rewrite zlen_map, zlen_zseq by nia. now rewrite Hsq.
  - assert (Q : forall t b e b' e', 0 <= t < 6 -> (has_land (d_nx d) (land_seen d dir) t b e b' e' <-> has_land_area d owner t b e b' e')).
    { intros t b e b' e' Ht. unfold has_land, has_land_area.
      assert (S : forall t' k, 0 <= t' < 6 -> ((exists l, zget (land_seen d dir) t' = Some l /\ zget l k = Some true) <-> Spec_LandDomain.is_land d owner t' k)).
      { intros t' k Ht'. unfold land_seen. rewrite zget_map, zget_zseq by auto. cbn [option_map]. rewrite Z.add_0_l.
        assert (A : sel_area d (path_sel d dir t') k = land_area d owner t' k).
        { unfold sel_area, land_area, exchange_cells. do 3 f_equal. apply filter_ext_in. intros f Hff. pose proof (Hp f Hff t' Ht') as P. rewrite <- strstr_spec in P. change (path_sel d dir t' f = true <-> owner f = t') in P.
          destruct (path_sel d dir t' f); destruct (Z.eqb_spec (owner f) t') as [Eo|Eo]; auto; exfalso; [apply Eo, P; auto|]. apply P in Eo. discriminate. }
        unfold Spec_LandDomain.is_land. split.
        - intros (l & E0 & E3). injection E0 as <-. pose proof (zget_Some_range _ _ _ E3) as B. rewrite zlen_map, zlen_zseq in B by nia. split; [exact B|].
          rewrite zget_map, zget_zseq in E3 by auto. cbn [option_map] in E3. rewrite Z.add_0_l, A in E3. injection E3 as E3. unfold rlt in E3. destruct (Rlt_dec _ _); [auto|discriminate].
        - intros (B & P). eexists. split; [reflexivity|]. rewrite zget_map, zget_zseq by auto. cbn [option_map]. rewrite Z.add_0_l, A. unfold rlt. destruct (Rlt_dec _ _); [auto|contradiction]. }
      assert (R : forall j i t' j' i', stands_for (d_nx d) t j i t' j' i' -> 0 <= t' < 6).
      { intros j i t' j' i' [(-> & _)|(s & s' & r & k & N & _)]; [exact Ht|exact (neighbour_range _ _ _ _ _ N)]. }
      split; intros (j & i & t' & j' & i' & Bj & Bi & St & L); exists j, i, t', j', i'; repeat (split; [assumption|]); apply S; eauto. }
    exists ib, ie, jb, je, result. split; [exact E1|]. split; [exact E2|]. split; [exact T1|]. split; [exact T2|]. split; [exact E|].
    destruct result as [T|].
    + destruct C as (C1 & C2 & C3 & C4 & C5). repeat (split; [assumption|]). intros x y z. rewrite C5. split; intros (B1 & B2 & B3 & H); repeat (split; [assumption|]); intros b e b' e' D D' N; apply (H b e b' e' D D'); apply Q; auto; lia.
    + intros x y z b e b' e' B1 B2 B3 D D'. apply Q; [lia|]. eauto.
Qed.

(** Finding: the tile is searched in the path, so that a directory with the name of a tile gives
    this tile the land of all tiles.  One cell per tile, land on tile 4 alone: tile 1 on the
    opposite side of the cube should be left out, but no table is written. *)
Definition C90_ex (a : R) : land_input := {| d_mosaic := chars "land"; d_nx := 1; d_ny := 1; d_nfaces := 6;
  d_files := [(chars "atmos_tile4Xland_tile4.nc", [{| l_i := 0; l_j := 0; l_area := a |}])]; d_restart := [] |}.
Lemma C90_seen a dir : (0 < a)%R -> land_seen (C90_ex a) dir = map (fun t => [strstr (dir ++ chars "/" ++ chars "atmos_tile4Xland_tile4.nc") (face_name (chars "land") t)]) (zseq 0 6).
Proof.
  intros Ha. unfold land_seen. apply map_ext. intros t. cbn [C90_ex d_nx d_ny]. change (zseq 0 (1 * 1)) with [0]. cbn [map]. f_equal.
  unfold sel_area. cbn [C90_ex d_files filter d_nx]. unfold path_sel. cbn [fst C90_ex d_mosaic]. destruct (strstr _ _); cbn; unfold rlt; destruct (Rlt_dec _ _); auto; exfalso; lra.
Qed.
Lemma C90_inside a : cells_inside (C90_ex a).
Proof. intros f c [<-|[]] [<-|[]]. cbn. lia. Qed.
Lemma C90_no_land a : ~ has_land_area (C90_ex a) (fun _ => 3) 0 0 0 0 0.
Proof.
  intros (j & i & t' & j' & i' & _ & _ & S & _ & L). cbn [C90_ex d_nx] in S.
  assert (N : t' <> 3).
  { destruct S as [(-> & _)|(s & s' & r & k & N & _)]; [lia|]. unfold neighbour, cube_edges in N. cbn [In] in N. repeat match goal with H : _ \/ _ |- _ => destruct H as [H|H] end; try contradiction; try discriminate; injection N; intros; subst; lia. }
  unfold land_area, exchange_cells in L. cbn [C90_ex d_files filter] in L. destruct (Z.eqb_spec 3 t'); [congruence|]. cbn in L. lra.
Qed.
Theorem C90_directory_refuted : forall a, (0 < a)%R -> exists dir owner,
  names_tell (C90_ex a) owner /\ cells_inside (C90_ex a) /\ ~ has_land_area (C90_ex a) owner 0 0 0 0 0 /\ check_land (C90_ex a) dir 1 1 [0] = Ok None.
Proof.
  intros a Ha. exists (chars "run/land_tile1"), (fun _ => 3). split; [|split; [apply C90_inside|split; [apply C90_no_land|]]].
  - intros f [<-|[]] face Hf. cbn in Hf. rewrite <- strstr_spec. assert (C : face = 0 \/ face = 1 \/ face = 2 \/ face = 3 \/ face = 4 \/ face = 5) by lia.
    cbn [fst C90_ex d_mosaic]. destruct C as [->|[->|[->|[->|[->| ->]]]]]; vm_compute; split; auto; discriminate.
  - rewrite check_land_run; [|cbn; lia|reflexivity|reflexivity|apply C90_inside]. rewrite C90_seen by exact Ha. vm_compute. reflexivity.
Qed.
(** In another directory the table is right. *)
Example C90_example : paths_tell (C90_ex 1) (chars "run/grid") (fun _ => 3) /\ cells_inside (C90_ex 1)
  /\ check_land (C90_ex 1) (chars "run/grid") 1 1 [0] = Ok (Some (MkLand 1 (1, 1, 6) [(1, 1, 1)])).
Proof.
  split; [|split; [apply C90_inside|]].
  - intros f [<-|[]] face Hf. rewrite <- strstr_spec. assert (C : face = 0 \/ face = 1 \/ face = 2 \/ face = 3 \/ face = 4 \/ face = 5) by lia.
    cbn [fst C90_ex d_mosaic]. destruct C as [->|[->|[->|[->|[->| ->]]]]]; vm_compute; split; auto; discriminate.
  - rewrite check_land_run; [|cbn; lia|reflexivity|reflexivity|apply C90_inside]. rewrite C90_seen by lra. vm_compute. reflexivity.
Qed.
