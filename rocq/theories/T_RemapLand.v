(** * C69-C71: remap_land gives every destination cell the tiles of the nearest source cell *)
From Coq Require Import Reals Lra Sorting.Sorted.
From Verif Require Import Base Loops Lst Vec M_Interp M_RemapLand Spec_Interp P_Interp2 Spec_RemapLand P_RemapLand P_RemapLand4 P_RemapLand5 P_RemapLand6 P_RemapLand7 P_RemapLand8.
Open Scope Z_scope.

(** ** C69 *)

(** The tile index written for any number of processors. *)
Theorem C69_index ft z near npes :
  wf_input z -> room z -> nearest_map z near -> fits z near -> 1 <= npes <= ncell_dst z ->
  exists pes, all_pes ft z npes = Ok pes /\
    write_tile_index ft z pes = Ok (map (fun '(n, i, _) => Some (n * ncell_dst z + i)) (file_order ft z near)).
Proof. intros W R Hn F Hp. destruct (write_index_run ft z near W R Hn F npes Hp) as (pes & E & Ew). exists pes. split; auto. Qed.

(** The file has every tile of the destination once: the tile indices increase, and (n, i, o) is in
    the file iff tile number n of cell i comes from o and belongs in files of this type. *)
Theorem C69_order ft z near : wf_input z -> fits z near ->
  StronglySorted Z.lt (map (fun '(n, i, _) => n * ncell_dst z + i) (file_order ft z near)) /\
  forall n i o, In (n, i, o) (file_order ft z near) <->
    0 <= i < ncell_dst z /\ zget (dest_tiles z near i) n = Some o /\ holds ft (o_kind o) = true.
Proof.
  intros W F. split.
  - assert (forall (b : Z -> Z) (f : Z -> list Z), (forall i, b i <= b (i + 1)) ->
      (forall i, StronglySorted Z.lt (f i) /\ Forall (fun x => b i <= x < b (i + 1)) (f i)) ->
      forall n lo, 0 <= n -> StronglySorted Z.lt (flat_map f (zseq lo n)) /\ Forall (fun x => b lo <= x < b (lo + n)) (flat_map f (zseq lo n))) as HS.
    { intros b f Hb Hf n lo Hn. pattern n. apply natlike_ind; auto.
      - cbn. split; constructor.
      - intros m Hm (I1 & I2). unfold Z.succ. rewrite zseq_snoc by lia. rewrite flat_map_app. cbn [flat_map]. rewrite app_nil_r. destruct (Hf (lo + m)) as (J1 & J2).
        assert (b lo <= b (lo + m)) as Hmono.
        { clear - Hb Hm. pattern m. apply natlike_ind; auto; [rewrite Z.add_0_r; lia|]. intros q Hq IH. pose proof (Hb (lo + q)). unfold Z.succ. rewrite Z.add_assoc. lia. }
        pose proof (Hb (lo + m)) as Hb1. rewrite Z.add_assoc. split.
        + clear Hn n. revert I1 I2. generalize (flat_map f (zseq lo m)). intros l. induction l as [|x l IH]; intros I1 I2; cbn; auto.
          inversion I1; subst. inversion I2; subst. constructor; [apply IH; auto|]. apply Forall_app. split; auto. eapply Forall_impl; [|exact J2]. cbn. intros; lia.
        + apply Forall_app. split; (eapply Forall_impl; [|eassumption]); cbn; intros; lia. }
    unfold file_order. rewrite map_flat_map. destruct W as (_ & _ & _ & W4 & W5 & W6 & _). assert (0 < ncell_dst z) as HN by (unfold ncell_dst; nia). set (N := ncell_dst z) in *.
    apply (HS (fun n => n * N)); [nia| |lia]. intros n. rewrite map_flat_map.
    destruct (HS (fun i => n * N + i) (fun i => map (fun '(n, i, _) => n * N + i) match zget (dest_tiles z near i) n with Some o => if holds ft (o_kind o) then [(n, i, o)] else [] | None => [] end)) with (n := N) (lo := 0) as (K1 & K2); try lia.
    + intros i. destruct (zget (dest_tiles z near i) n) as [o|]; [destruct (holds ft (o_kind o))|]; cbn; split; repeat constructor; lia.
    + split; auto. eapply Forall_impl; [|exact K2]. cbn. intros; lia.
  - intros n i o. exact (In_order ft z near F n i o).
Qed.

(** Integer and double fields: every tile has the value of its origin. *)
Theorem C69_int ft z near npes (src : list (list Z)) : ft <> FIRE ->
  wf_input z -> room z -> nearest_map z near -> fits z near -> 1 <= npes <= ncell_dst z -> complete ft z src ->
  (use_all_tile ft = false -> forall l v, In l src -> In v l -> v <> missing_int) ->
  exists pes, all_pes ft z npes = Ok pes /\
    write_int ft z src pes = Ok (map (fun '(_, _, o) => source_value ft z src o) (file_order ft z near)).
Proof.
  intros _ W R Hn F Hp Hc Hm. apply (write_field_good ft z near W R Hn F FILL_INT src Hc int_fill (Some FILL_INT) None eq_refl); auto.
  intros v (l & Hl & Hv). unfold int_fill. destruct (Z.eqb_spec v FILL_INT) as [->|]; auto. right. split; auto.
  destruct (use_all_tile ft) eqn:E; auto. exfalso. exact (Hm eq_refl l _ Hl Hv eq_refl).
Qed.
Theorem C69_double ft z near npes (src : list (list R)) : ft <> FIRE ->
  wf_input z -> room z -> nearest_map z near -> fits z near -> 1 <= npes <= ncell_dst z -> complete ft z src ->
  (forall l v, In l src -> In v l -> v <> missing_real) ->
  exists pes, all_pes ft z npes = Ok pes /\
    write_double ft z src pes = Ok (map (fun '(_, _, o) => source_value ft z src o) (file_order ft z near)).
Proof.
  intros _ W R Hn F Hp Hc Hm. apply (write_field_good ft z near W R Hn F FILL_DOUBLE src Hc real_fill None (Some FILL_DOUBLE)); auto.
  - unfold real_fill. destruct (P_Runoff.reqb_spec FILL_DOUBLE FILL_DOUBLE); auto.
  - intros v (l & Hl & Hv). left. unfold real_fill. destruct (P_Runoff.reqb_spec v FILL_DOUBLE) as [->|]; auto. exfalso. exact (Hm l _ Hl Hv eq_refl).
Qed.

(** The number of processors does not change what is written, whatever the values are. *)
Theorem C69_processors ft z near n1 n2 p1 p2 (si : list (list Z)) (sr : list (list R)) :
  wf_input z -> room z -> nearest_map z near -> fits z near -> 1 <= n1 <= ncell_dst z -> 1 <= n2 <= ncell_dst z ->
  all_pes ft z n1 = Ok p1 -> all_pes ft z n2 = Ok p2 ->
  write_tile_index ft z p1 = write_tile_index ft z p2 /\
  (complete ft z si -> write_int ft z si p1 = write_int ft z si p2) /\
  (complete ft z sr -> write_double ft z sr p1 = write_double ft z sr p2).
Proof.
  intros W R Hn F H1 H2 E1 E2. split; [|split].
  - destruct (C69_index ft z near n1 W R Hn F H1) as (q1 & A1 & B1).
    destruct (C69_index ft z near n2 W R Hn F H2) as (q2 & A2 & B2). congruence.
  - intros Hc. destruct (write_field_all ft z near W R Hn F FILL_INT si Hc int_fill (Some FILL_INT) None eq_refl n1 H1) as (q1 & A1 & B1).
    destruct (write_field_all ft z near W R Hn F FILL_INT si Hc int_fill (Some FILL_INT) None eq_refl n2 H2) as (q2 & A2 & B2). unfold write_int. congruence.
  - intros Hc. assert (real_fill FILL_DOUBLE = true) as Hf by (unfold real_fill; destruct (P_Runoff.reqb_spec FILL_DOUBLE FILL_DOUBLE); auto).
    destruct (write_field_all ft z near W R Hn F FILL_DOUBLE sr Hc real_fill None (Some FILL_DOUBLE) Hf n1 H1) as (q1 & A1 & B1).
    destruct (write_field_all ft z near W R Hn F FILL_DOUBLE sr Hc real_fill None (Some FILL_DOUBLE) Hf n2 H2) as (q2 & A2 & B2). unfold write_double. congruence.
Qed.

(** Missing values in a file of one kind are dropped: all later values move up, and the end of
    the variable is never set. *)
Theorem C69_missing ft z near npes (src : list (list Z)) : use_all_tile ft = false ->
  wf_input z -> room z -> nearest_map z near -> fits z near -> 1 <= npes <= ncell_dst z -> complete ft z src ->
  exists pes, all_pes ft z npes = Ok pes /\
    let vs := flat_map (fun '(_, _, o) => match source_value ft z src o with Some v => if v =? missing_int then [] else [v] | None => [] end) (file_order ft z near) in
    write_int ft z src pes = Ok (map Some vs ++ repeat None (Z.to_nat (zlen (file_order ft z near) - zlen vs))).
Proof.
  intros Ha W R Hn F Hp Hc.
  destruct (write_field_all ft z near W R Hn F FILL_INT src Hc int_fill (Some FILL_INT) None eq_refl npes Hp) as (pes & E & Ew). exists pes. split; auto.
  intros vs. unfold write_int. rewrite Ew. f_equal. rewrite Ha.
  assert (flat_map (fun '(n, i, o) => match source_value ft z src o with Some v => if int_fill v then [] else [Some v] | None => [] end) (file_order ft z near) = map Some vs) as Ev.
  { unfold vs. rewrite map_flat_map. apply flat_map_ext_in. intros ((n, i), o) _. destruct (source_value ft z src o) as [v|]; auto. unfold int_fill. change FILL_INT with missing_int. now destruct (v =? missing_int). }
  rewrite Ev, zlen_map. reflexivity.
Qed.
Theorem C69_missing_refuted ft z near npes (src : list (list Z)) : use_all_tile ft = false ->
  wf_input z -> room z -> nearest_map z near -> fits z near -> 1 <= npes <= ncell_dst z -> complete ft z src ->
  (exists n i o, In (n, i, o) (file_order ft z near) /\ source_value ft z src o = Some missing_int) ->
  exists pes out, all_pes ft z npes = Ok pes /\ write_int ft z src pes = Ok out /\
    zget out (zlen (file_order ft z near) - 1) = Some None.
Proof.
  intros Ha W R Hn F Hp Hc (n & i & o & Hin & Hv). destruct (C69_missing ft z near npes src Ha W R Hn F Hp Hc) as (pes & E & Ew). cbv zeta in Ew. exists pes. eexists. split; [exact E|]. split; [exact Ew|].
  match goal with |- context [flat_map ?h _] => set (g := h) in * end.
  assert (zlen (flat_map g (file_order ft z near)) < zlen (file_order ft z near)) as Hlt.
  { assert (forall l, zlen (flat_map g l) <= zlen l) as Hle.
    { induction l as [|((a, b), c) l IH]; [cbn; lia|]. cbn [flat_map]. rewrite zlen_app, zlen_cons. unfold g at 1. destruct (source_value ft z src c) as [v|]; [destruct (v =? missing_int)|]; rewrite ?zlen_cons; change (zlen (@nil Z)) with 0; lia. }
    apply in_split in Hin. destruct Hin as (l1 & l2 & ->). rewrite flat_map_app, !zlen_app. cbn [flat_map]. rewrite zlen_app, zlen_cons.
    pose proof (Hle l1). pose proof (Hle l2). unfold g at 2. rewrite Hv, Z.eqb_refl. change (zlen (@nil Z)) with 0. lia. }
  rewrite zget_app_r by (rewrite zlen_map; lia). rewrite zlen_map. pose proof (zlen_nonneg (flat_map g (file_order ft z near))).
  rewrite zget_repeat by lia. reflexivity.
Qed.

(** ** C70: fractions and tags *)
Theorem C70_frac ft z near npes :
  wf_input z -> room z -> nearest_map z near -> fits z near -> 1 <= npes <= ncell_dst z ->
  (forall i o, 0 <= i < ncell_dst z -> In o (dest_tiles z near i) -> dest_frac z near i o <> missing_real) ->
  exists pes, all_pes ft z npes = Ok pes /\
    write_frac ft z pes = Ok (map (fun '(_, i, o) => Some (dest_frac z near i o)) (file_order ft z near)).
Proof. intros W R Hn F Hp Hm. exact (write_frac_run ft z near W R Hn F npes Hp Hm). Qed.

(** The part of a cell covered by a kind is that of the cold restart file. *)
Theorem C70_sum z near k i :
  wf_input z -> room z -> nearest_map z near -> 0 <= i < ncell_dst z -> present z k = true ->
  (k = Soil -> cold_entries z Soil i <> [] -> forall f, zget (i_files z) (fst (near Soil i)) = Some f ->
     sum_over f (source_entries z Soil (fst (near Soil i)) (snd (near Soil i))) <> 0%R) ->
  rsum (dest_frac z near i) (filter (fun o => same_kind k (o_kind o)) (dest_tiles z near i)) = sum_over (i_cold z) (cold_entries z k i).
Proof. intros W R Hn. apply frac_sum; auto. Qed.

(** The tags of files with all tiles. *)
Theorem C70_tags ft z near npes : use_all_tile ft = true ->
  wf_input z -> room z -> nearest_map z near -> fits z near -> 1 <= npes <= ncell_dst z ->
  exists pes, all_pes ft z npes = Ok pes /\
    write_tag ft z d_soil pes = Ok (map (fun '(_, _, o) => tag_value z Soil l_soil o) (file_order ft z near)) /\
    write_tag ft z d_vegn pes = Ok (map (fun '(_, _, o) => tag_value z Soil l_vegn o) (file_order ft z near)) /\
    write_tag ft z d_glac pes = Ok (map (fun '(_, _, o) => tag_value z Glacier l_glac o) (file_order ft z near)) /\
    write_tag ft z d_lake pes = Ok (map (fun '(_, _, o) => tag_value z Lake l_lake o) (file_order ft z near)).
Proof.
  intros Ha W R Hn F Hp.
  assert (forall f, wf_land f -> zlen (l_vegn f) = zlen (tags Soil f)) as Hl by (intros f (_ & _ & H & _); exact H).
  assert (forall k (var : landfile -> list Z) (g : dtile -> Z),
    (forall i o f, zget (i_files z) (o_face o) = Some f -> g (dt ft z near i o) = if same_kind k (o_kind o) then zat (var f) (o_entry o) else FILL_INT) ->
    g no_dtile = FILL_INT -> (forall f, wf_land f -> zlen (var f) = zlen (tags k f)) ->
    exists pes, all_pes ft z npes = Ok pes /\ write_tag ft z g pes = Ok (map (fun '(_, _, o) => tag_value z k var o) (file_order ft z near))) as HT.
  { intros k var g Hg Hno Hlen. exact (write_tag_run ft z near W R Hn F npes k var g Ha Hp Hg Hno Hlen). }
  destruct (HT Soil l_soil d_soil) as (p1 & E1 & T1); auto; [intros i o f Ef; unfold dt; rewrite Ef; now destruct (o_kind o)|].
  destruct (HT Soil l_vegn d_vegn) as (p2 & E2 & T2); auto; [intros i o f Ef; unfold dt; rewrite Ef; now destruct (o_kind o)|].
  destruct (HT Glacier l_glac d_glac) as (p3 & E3 & T3); auto; [intros i o f Ef; unfold dt; rewrite Ef; now destruct (o_kind o)|].
  destruct (HT Lake l_lake d_lake) as (p4 & E4 & T4); auto; [intros i o f Ef; unfold dt; rewrite Ef; now destruct (o_kind o)|].
  exists p1. split; auto. split; auto. split; [|split]; congruence.
Qed.

(** ** C71: the search *)

(** There is a nearest source cell wherever it is needed if the source has tiles of each kind at all. *)
Theorem C71_exists z : wf_input z ->
  (forall k i, 0 <= i < ncell_dst z -> present z k = true -> cold_entries z k i <> [] ->
     exists f c, 0 <= f < i_nface z /\ 0 <= c < ncell_src z /\ source_entries z k f c <> []) ->
  exists near, nearest_map z near.
Proof. intros W H. exists (near_of z). intros k i Hi Hp Hc. apply near_of_run; auto. exact (H k i Hi Hp Hc). Qed.

(** Otherwise the run is aborted by every processor that needs one. *)
Theorem C71_abort ft z isc iec k i0 : wf_input z -> room z -> 0 <= isc -> iec < ncell_dst z -> isc <= i0 <= iec ->
  present z k = true -> cold_entries z k i0 <> [] ->
  (forall f c, 0 <= f < i_nface z -> 0 <= c < ncell_src z -> source_entries z k f c = []) ->
  (forall k', k' <> k -> present z k' = true -> exists f c, 0 <= f < i_nface z /\ 0 <= c < ncell_src z /\ source_entries z k' f c <> []) ->
  one_pe ft z isc iec = Err 2.
Proof.
  intros W R H0 Hd Hi Hp Hc Hno Hoth. apply (one_pe_err z W R isc iec H0 Hd ltac:(lia) ft k i0); auto.
  - intros (f & c & Hf & Hcc & Hne). apply Hne. now apply Hno.
  - intros Hk. exact (Hoth Soil (not_eq_sym Hk) eq_refl).
  - intros ->. intros Hg. apply Hoth; auto. easy.
Qed.

(** A second glacier (or lake) in a cell is not noticed: it replaces the one of the next cell. *)
Theorem C71_room_refuted : exists tag idx frac count tiles,
  entries 2 tag idx 0 = [0; 2] /\ entries 2 tag idx 1 = [1] /\
  get_land_tile_info 2 1 1 0 1 tag tag idx frac true = Ok (count, tiles) /\ count = [2; 1] /\
  exists t, zget tiles 1 = Some t /\ t_idx t = 2.
Proof.
  exists [5; 6; 7], [0; 1; 2], [1; 1; 1]%R. eexists _, _. split; [reflexivity|]. split; [reflexivity|]. split; [reflexivity|]. split; [reflexivity|]. eexists; split; reflexivity.
Qed.

(** ** The hypotheses are met *)
(** Two source cells at longitudes 0 and pi with 1 and 2 soil tiles, a glacier in the first; two
    destination cells at pi and 0, a glacier in the first. *)
Definition ex_src : landfile := LandFile [0; 1; 3; 2] [1; 1/4; 3/4; 1]%R [1; 2; 3; missing_int] [4; 5; 6; missing_int] [missing_int; missing_int; missing_int; 7] [missing_int; missing_int; missing_int; missing_int].
Definition ex_cold : landfile := LandFile [0; 1; 2] [1/2; 1; 1/2]%R [1; 1; missing_int] [1; 1; missing_int] [missing_int; missing_int; 1] [missing_int; missing_int; missing_int].
Definition ex_in : input := Input 1 2 1 3 [0; PI]%R [0; 0]%R [ex_src] 2 1 1 [PI; 0]%R [0; 0]%R ex_cold true false.
Definition ex_near (k : kind) (i : Z) : Z * Z := match k with Soil => (0, 1 - i) | _ => (0, 0) end.

Example C69_example : wf_input ex_in /\ room ex_in /\ nearest_map ex_in ex_near /\ fits ex_in ex_near /\
  file_order LAND ex_in ex_near = [(0, 0, Origin Soil 0 1); (0, 1, Origin Soil 0 0); (1, 0, Origin Soil 0 2); (2, 0, Origin Glacier 0 3)].
Proof.
  assert (forall f, zget [ex_src] f = if f =? 0 then Some ex_src else None) as Ez.
  { intros f. destruct (Z.eqb_spec f 0) as [->|]; [reflexivity|]. unfold zget. destruct (Z.ltb_spec f 0); auto. cbn. destruct (Z.to_nat f) as [|[|m]] eqn:E; auto; lia. }
  split; [|split; [|split; [|split]]].
  - assert (wf_land ex_src /\ wf_land ex_cold) as (W1 & W2) by (split; (split; [reflexivity|]; split; [reflexivity|]; split; [reflexivity|]; split; [reflexivity|]; split; [reflexivity|]; intros g H; cbn in H; lia)).
    do 7 (split; [cbn; lia|]). split; [reflexivity|]. split; [intros f [<-|[]]; exact W1|]. split; [exact W2|]. repeat split; reflexivity.
  - split; [|split].
    + intros f c. unfold source_entries. change (i_files ex_in) with [ex_src]. rewrite Ez. destruct (f =? 0); [|cbn; lia]. destruct c as [|[q|q|]|q]; vm_compute; discriminate.
    + intros i. destruct i as [|[q|q|]|q]; vm_compute; discriminate.
    + intros k Hk Hp. split.
      * intros f c. unfold source_entries. change (i_files ex_in) with [ex_src]. rewrite Ez. destruct (f =? 0); [|cbn; lia]. destruct k; [easy| |discriminate]. destruct c as [|[q|q|]|q]; vm_compute; discriminate.
      * intros i. destruct k; [easy| |discriminate]. destruct i as [|[q|q|]|q]; vm_compute; discriminate.
  - intros k i Hi Hp Hc. change (ncell_dst ex_in) with 2 in Hi.
    assert (forall f' c', 0 <= f' < 1 -> 0 <= c' < 2 -> f' = 0 /\ (c' = 0 \/ c' = 1)) as Hfc by (intros; lia).
    assert (cell_gap ex_in 0 0 0 = 4%R /\ cell_gap ex_in 0 0 1 = 0%R /\ cell_gap ex_in 1 0 0 = 0%R /\ cell_gap ex_in 1 0 1 = 4%R) as (g1 & g2 & g3 & g4).
    { unfold cell_gap, gap, at_. cbn. change (Pos.to_nat 1) with 1%nat. cbn. rewrite ?sin_PI, ?cos_PI, ?sin_0, ?cos_0. repeat split; lra. }
    assert (i = 0 \/ i = 1) as [-> | ->] by lia; destruct k; try discriminate; cbn [fst snd ex_near].
    all: try (exfalso; apply Hc; reflexivity).
    all: split; [cbn; lia|]; split; [cbn; lia|]; split; [intros H; discriminate H|].
    all: intros f' c' Hf' Hc' Hne; destruct (Hfc f' c' Hf' Hc') as (-> & [-> | ->]); cbn [Z.sub Z.add Z.opp Z.pos_sub Pos.pred_double] in *;
      try (exfalso; apply Hne; reflexivity); change (1 - 0) with 1; change (1 - 1) with 0; rewrite ?g1, ?g2, ?g3, ?g4; split; intros; try lra; try lia.
  - intros i Hi. change (ncell_dst ex_in) with 2 in Hi. assert (i = 0 \/ i = 1) as [-> | ->] by lia; vm_compute; discriminate.
  - reflexivity.
Qed.
(** The fields of this example. *)
Example C69_example_fields : complete LAND ex_in [[10; 11; 12; 13]] /\ complete SOIL ex_in [[20; 21; 22]] /\
  map (fun '(_, _, o) => source_value LAND ex_in [[10; 11; 12; 13]] o) (file_order LAND ex_in ex_near) = [Some 11; Some 10; Some 12; Some 13] /\
  map (fun '(_, _, o) => source_value SOIL ex_in [[20; 21; 22]] o) (file_order SOIL ex_in ex_near) = [Some 21; Some 20; Some 22].
Proof.
  assert (forall f, zget [ex_src] f = if f =? 0 then Some ex_src else None) as Ez.
  { intros f. destruct (Z.eqb_spec f 0) as [->|]; [reflexivity|]. unfold zget. destruct (Z.ltb_spec f 0); auto. cbn. destruct (Z.to_nat f) as [|[|m]] eqn:E; auto; lia. }
  assert (forall tag l, zlen tag = 4 -> tagged tag l = true -> l = 0 \/ l = 1 \/ l = 2 \/ l = 3) as Hl.
  { intros tag l H1 H2. unfold tagged in H2. destruct (zget tag l) eqn:E; [|discriminate]. apply zget_Some_range in E. lia. }
  split; [|split; [|split; reflexivity]].
  - split; [reflexivity|]. intros (k, f, e) file v. cbn [o_kind o_face o_entry]. change (i_files ex_in) with [ex_src]. rewrite Ez. destruct (Z.eqb_spec f 0) as [->|]; [|discriminate].
    intros H1 H2 Hh Ht. inversion H1; subst file. assert (zlen (tags k ex_src) = 4) as H4 by (destruct k; reflexivity). destruct (Hl _ _ H4 Ht) as [-> | [-> | [-> | ->]]]; destruct k; discriminate.
  - split; [reflexivity|]. intros (k, f, e) file v. cbn [o_kind o_face o_entry]. change (i_files ex_in) with [ex_src]. rewrite Ez. destruct (Z.eqb_spec f 0) as [->|]; [|discriminate].
    intros H1 H2 Hh Ht. inversion H1; subst file. assert (zlen (tags k ex_src) = 4) as H4 by (destruct k; reflexivity). destruct k; try discriminate. destruct (Hl _ _ H4 Ht) as [-> | [-> | [-> | ->]]]; discriminate.
Qed.

Print Assumptions C69_index.
Print Assumptions C69_order.
Print Assumptions C69_int.
Print Assumptions C69_double.
Print Assumptions C69_processors.
Print Assumptions C69_missing.
Print Assumptions C69_missing_refuted.
Print Assumptions C70_frac.
Print Assumptions C70_sum.
Print Assumptions C70_tags.
Print Assumptions C71_exists.
Print Assumptions C71_abort.
Print Assumptions C71_room_refuted.
