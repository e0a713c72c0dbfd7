(** C89: the mask table of the land model on a cubed sphere *)
From Coq Require Import ZArith List Bool Lia.
From Verif Require Import Base Loops Grid2 M_Extent Spec_Extent T_Extent M_CheckMask P_CheckMask2 M_LandMask Spec_LandMask P_LandMask P_LandMask2.
Import ListNotations.
Open Scope Z_scope.

(** The table lists, once each, numbered from 1, exactly the domains without land in or beside
    them; no table is written exactly if there is none. *)
Theorem C89_land_table n lx ly arr land :
  1 <= lx <= n -> 1 <= ly <= n -> lx <= zlen arr -> ly <= zlen arr -> zlen land = 6 -> (forall t d, zget land t = Some d -> zlen d = n * n) ->
  exists ib ie jb je result, mpp_compute_extent n lx arr arr = Ok (ib, ie) /\ mpp_compute_extent n ly arr arr = Ok (jb, je)
  /\ tiles n lx ib ie /\ tiles n ly jb je /\ land_mask n lx ly arr land = Ok result
  /\ match result with
     | Some table => l_layout table = (lx, ly, 6) /\ l_nmask table = zlen (l_lines table) /\ 1 <= l_nmask table /\ NoDup (l_lines table)
       /\ forall x y z, In (x, y, z) (l_lines table) <->
          1 <= x <= lx /\ 1 <= y <= ly /\ 1 <= z <= 6
          /\ forall b e b' e', division ib ie (x - 1) b e -> division jb je (y - 1) b' e' -> ~ has_land n land (z - 1) b e b' e'
     | None => forall x y z b e b' e', 1 <= x <= lx -> 1 <= y <= ly -> 1 <= z <= 6 ->
          division ib ie (x - 1) b e -> division jb je (y - 1) b' e' -> has_land n land (z - 1) b e b' e'
     end.
Proof.
  intros Hx Hy La La' HL Hd.
  destruct (C01_extents_tile n lx arr arr Hx La La) as (ib & ie & E1 & T1). destruct (C01_extents_tile n ly arr arr Hy La' La') as (jb & je & E2 & T2).
  destruct (area_ok n land ltac:(lia) HL Hd) as (area & Ea & Ka).
  set (F := haloed false n (cell n land)) in *.
  set (val := fun t => match zget area t with Some a => match land_masks a n lx ly ib ie jb je with Ok m => m | _ => [] end | None => [] end).
  set (mf := fun t x y => match zget (val t) (y * lx + x) with Some v => v | None => 0 end).
  assert (KM : forall t, 0 <= t < 6 -> exists a, zget area t = Some a /\ land_masks a n lx ly ib ie jb je = Ok (val t) /\ fields (val t) lx ly (mf t)
     /\ forall i j b e b' e', 0 <= i < lx -> 0 <= j < ly -> division ib ie i b e -> division jb je j b' e' -> (mf t i j <> 0 <-> has_land n land t b e b' e')).
  { intros t Ht. destruct (Ka t Ht) as (a & Et & Ha). exists a. split; [exact Et|].
    destruct (land_masks_ok n a (F t) lx ly ib ie jb je Ha ltac:(lia) ltac:(lia) T1 T2) as (M & m & EM & HM & KM).
    assert (EV : val t = M) by (unfold val; rewrite Et, EM; reflexivity).
    assert (Em : forall i j, 0 <= i < lx -> 0 <= j < ly -> mf t i j = m i j). { intros i j Hi Hj. unfold mf. rewrite EV. rewrite (proj2 HM i j Hi Hj). reflexivity. }
    rewrite EV. split; [exact EM|]. split.
    - eapply fields_ext; [|exact HM]. intros x y Kx Ky. symmetry. auto.
    - intros i j b e b' e' Hi Hj D D'. rewrite Em by auto. rewrite (KM i j b e b' e' Hi Hj D D').
      pose proof (proj1 T1 i Hi) as (b0 & e0 & [D0 D0'] & B0 & B0'). pose proof (proj1 T2 j Hj) as (b1 & e1 & [D1 D1'] & B1 & B1').
      destruct D as [D Da]. destruct D' as [D' Da']. assert (b0 = b /\ e0 = e /\ b1 = b' /\ e1 = e') as (-> & -> & -> & ->) by (repeat split; congruence).
      unfold has_land. split.
      + intros (y & x & By & Bx & T). apply haloed_spec in T; auto; try lia. destruct T as (t' & j' & i' & S & I). exists y, x, t', j', i'. auto.
      + intros (y & x & t' & j' & i' & By & Bx & S & I). exists y, x. split; [exact By|]. split; [exact Bx|]. apply haloed_spec; auto; try lia. exists t', j', i'. auto. }
  set (g := fun t => map (tri lx t) (filter (masked lx (mf t)) (zseq 0 (lx * ly)))).
  set (lines := flat_map g (zseq 0 6)).
  exists ib, ie, jb, je, (if zlen lines >? 0 then Some (MkLand (zlen lines) (lx, ly, 6) lines) else None).
  split; [exact E1|]. split; [exact E2|]. split; [exact T1|]. split; [exact T2|]. split.
  - unfold land_mask. match type of Ea with bind ?o _ = _ => destruct o as [area0| |] eqn:E0; [|discriminate|discriminate] end. cbn [bind] in Ea |- *. rewrite Ea. cbn [bind].
    unfold check_land_mask. rewrite E1. cbn [bind]. rewrite E2. cbn [bind].
    rewrite (ofor_grow 6 _ val); [|lia|].
    2:{ intros l t Ht. destruct (KM t Ht) as (a & Et & EM & _). rewrite (proj2 (oget_Ok _ _ _) Et). cbn [bind]. rewrite EM. reflexivity. }
    cbn [bind]. set (mask := map val (zseq 0 6)).
    assert (Gm : forall t, 0 <= t < 6 -> zget mask t = Some (val t)) by (intros t Ht; unfold mask; rewrite zget_map, zget_zseq by auto; reflexivity).
    rewrite (ofor_sum g 6); [|lia|].
    2:{ intros c t Ht. rewrite (proj2 (oget_Ok _ _ _) (Gm t Ht)). cbn [bind]. destruct (KM t Ht) as (a & _ & _ & HM & _).
        rewrite (count_ok lx ly ltac:(lia) ltac:(lia) (val t) (mf t) HM). cbn [bind]. unfold g. now rewrite zlen_map. }
    cbn [bind]. fold lines. destruct (zlen lines >? 0); [|reflexivity].
    rewrite (ofor_flat g 6); [|lia|].
    2:{ intros l t Ht. destruct (KM t Ht) as (a & _ & _ & HM & _). apply (tile_lines mask (val t) (mf t) lx ly t l); auto; lia. }
    cbn [bind]. fold lines. rewrite copy_list. reflexivity.
  - assert (IN : forall x y z, In (x, y, z) lines <-> 1 <= x <= lx /\ 1 <= y <= ly /\ 1 <= z <= 6 /\ mf (z - 1) (x - 1) (y - 1) = 0).
    { intros x y z. unfold lines. rewrite in_flat_map. split.
      - intros (t & Ht & H). apply In_zseq in Ht. unfold g in H. apply in_map_iff in H. destruct H as (k & Ek & Hk). apply filter_In in Hk. destruct Hk as [Hk Mk]. apply In_zseq in Hk.
        destruct (divmod_range ly lx k ltac:(lia) ltac:(lia)) as (K0 & K1 & K2 & K3). unfold tri in Ek. injection Ek as <- <- <-. unfold masked in Mk. apply Z.eqb_eq in Mk.
        rewrite !Z.add_simpl_r. repeat split; try lia.
      - intros (Bx & By & Bz & M). exists (z - 1). split; [apply In_zseq; lia|]. unfold g. apply in_map_iff. exists ((y - 1) * lx + (x - 1)).
        unfold tri, masked. rewrite rowmajor_div, rowmajor_mod by lia. split; [f_equal; [f_equal|]; lia|]. apply filter_In. split.
        + apply In_zseq. pose proof (rowmajor_range ly lx (y - 1) (x - 1) ltac:(lia) ltac:(lia)). lia.
        + rewrite rowmajor_div, rowmajor_mod by lia. now apply Z.eqb_eq. }
    destruct (zlen lines >? 0) eqn:Ez.
    + cbn [l_layout l_nmask l_lines]. split; [reflexivity|]. split; [reflexivity|]. split; [apply Z.gtb_lt in Ez; lia|]. split.
      * apply (NoDup_flat_map g (fun e => snd e - 1)); [apply NoDup_zseq| |].
        -- intros t _. unfold g. assert (ND : NoDup (filter (masked lx (mf t)) (zseq 0 (lx * ly)))) by (apply NoDup_filter, NoDup_zseq).
           apply FinFun.Injective_map_NoDup; [|exact ND]. intros k k' E. unfold tri in E. injection E as Ek Ek'. rewrite (Z.div_mod k lx), (Z.div_mod k' lx) by lia. assert (k / lx = k' / lx) by lia. assert (k mod lx = k' mod lx) by lia. congruence.
        -- intros t [[x y] z] H. unfold g in H. apply in_map_iff in H. destruct H as (k & Ek & _). unfold tri in Ek. injection Ek as _ _ <-. cbn [snd]. lia.
      * intros x y z. rewrite IN. split.
        -- intros (Bx & By & Bz & M). split; [exact Bx|]. split; [exact By|]. split; [exact Bz|]. intros b e b' e' D D' H.
           destruct (KM (z - 1) ltac:(lia)) as (_ & _ & _ & _ & K). apply (K (x - 1) (y - 1) b e b' e') in H; auto; lia.
        -- intros (Bx & By & Bz & H). split; [exact Bx|]. split; [exact By|]. split; [exact Bz|].
           destruct (proj1 T1 (x - 1) ltac:(lia)) as (b & e & D & _). destruct (proj1 T2 (y - 1) ltac:(lia)) as (b' & e' & D' & _).
           destruct (Z.eq_dec (mf (z - 1) (x - 1) (y - 1)) 0) as [E|E]; [exact E|]. exfalso. apply (H b e b' e' D D').
           destruct (KM (z - 1) ltac:(lia)) as (_ & _ & _ & _ & K). apply (K (x - 1) (y - 1) b e b' e'); auto; lia.
    + intros x y z b e b' e' Bx By Bz D D'. destruct (KM (z - 1) ltac:(lia)) as (_ & _ & _ & _ & K). apply (K (x - 1) (y - 1) b e b' e'); auto; try lia.
      intros M. assert (H : In (x, y, z) lines) by (apply IN; auto). destruct lines as [|l0 ls]; [contradiction|]. rewrite zlen_cons in Ez. pose proof (zlen_nonneg ls).
      destruct (Z.gtb_spec (1 + zlen ls) 0); [discriminate|lia].
Qed.

(** Two domains per direction, land only in the first cell of tile 1: the first domain of tile 1
    is used, and of tiles 5 and 6, which touch that cell, one domain each. *)
Definition example_land : list (list bool) :=
  [[true; false; false; false; false; false; false; false; false; false; false; false; false; false; false; false];
   repeat false 16; repeat false 16; repeat false 16; repeat false 16; repeat false 16].
Example C89_case : exists lines, land_mask 4 2 2 [0; 0] example_land = Ok (Some (MkLand 21 (2, 2, 6) lines))
  /\ ~ In (1, 1, 1) lines /\ ~ In (2, 2, 5) lines /\ ~ In (1, 2, 6) lines /\ In (1, 2, 1) lines
  /\ (forall t d, zget example_land t = Some d -> zlen d = 4 * 4) /\ zlen example_land = 6.
Proof.
  eexists. split; [vm_compute; reflexivity|]. cbn [In].
  split; [intuition discriminate|]. split; [intuition discriminate|]. split; [intuition discriminate|]. split; [intuition|]. split; [|reflexivity].
  intros t d H. pose proof (zget_Some_range _ _ _ H) as B. change (zlen example_land) with 6 in B.
  assert (C : t = 0 \/ t = 1 \/ t = 2 \/ t = 3 \/ t = 4 \/ t = 5) by lia. destruct C as [->|[->|[->|[->|[->| ->]]]]]; vm_compute in H; injection H as <-; reflexivity.
Qed.
(** With land everywhere no table is written. *)
Example C89_no_table : land_mask 2 1 1 [0] (repeat (repeat true 4) 6) = Ok None.
Proof. vm_compute. reflexivity. Qed.
