(** * C53: the packed land index *)
From Coq Require Import String Reals Sorted Lra.
From Verif Require Import Base Str Loops M_Interp M_Supergrid M_LandDomain Spec_Interp Spec_Supergrid Spec_LandDomain P_LandDomain P_Supergrid.
Open Scope list_scope. Open Scope Z_scope.

Lemma sorted_zseq lo n : StronglySorted Z.lt (zseq lo n).
Proof.
  unfold zseq. generalize (Z.to_nat n). intros m. revert lo. induction m as [|m IH]; intros lo; cbn; constructor; auto.
  apply Forall_forall. intros x Hx. apply In_zseq_nat in Hx. lia.
Qed.
Lemma sorted_filter p l : StronglySorted Z.lt l -> StronglySorted Z.lt (filter p l).
Proof.
  induction 1 as [|a l H IH F]; cbn; [constructor|]. destruct (p a); auto. constructor; auto. apply Forall_forall. intros x Hx. apply filter_In in Hx. rewrite Forall_forall in F. apply F. tauto.
Qed.
Lemma land_iff d owner f n : land d owner f n = true <-> (0 < land_area d owner f n)%R.
Proof. unfold land, rlt. destruct (Rlt_dec _ _); split; auto; try discriminate; intros; contradiction. Qed.
Lemma cells_land d owner : lists_land d owner (cells d owner).
Proof.
  intros f. unfold cells. split; [apply sorted_filter, sorted_zseq|]. intros n. rewrite filter_In, In_zseq, land_iff. unfold is_land. rewrite Z.add_0_l. tauto.
Qed.
Lemma zlen_flat {A} (f : Z -> list A) l : zlen (flat_map f l) = fold_right (fun x s => zlen (f x) + s) 0 l.
Proof. induction l; cbn [flat_map fold_right]; auto. rewrite zlen_app. lia. Qed.

(** C53, for two or more faces and file names that identify the face: if the restart files have
    tiles in exactly the land cells, the output lists the land cells face by face in
    increasing order (so each once), the counts per face, and the tiles of every listed cell,
    all positive; the counts add up to the number of cells listed. *)
Theorem C53_packed_partial : forall d owner, 0 < d_nx d -> 0 < d_ny d -> 1 < d_nfaces d -> zlen (d_restart d) = d_nfaces d ->
  names_tell d owner -> cells_inside d -> consistent d owner ->
  exists cells, lists_land d owner cells /\
    make_land_domain d = Ok (map (fun f => zlen (cells f)) (zseq 0 (d_nfaces d)),
                             flat_map cells (zseq 0 (d_nfaces d)),
                             flat_map (fun f => map (ntiles d f) (cells f)) (zseq 0 (d_nfaces d))) /\
    fold_right (fun f s => zlen (cells f) + s) 0 (zseq 0 (d_nfaces d)) = zlen (flat_map cells (zseq 0 (d_nfaces d))) /\
    Forall (fun t => 0 < t) (flat_map (fun f => map (ntiles d f) (cells f)) (zseq 0 (d_nfaces d))).
Proof.
  intros d owner Hx Hy Hf Hr Hn Hi Hc. exists (cells d owner). split; [apply cells_land|]. split; [|split].
  - unfold make_land_domain. rewrite (land_masks_run d owner Hx Hy Hn Hi) by lia. cbn [bind].
    destruct (tile_counts_run d Hx Hy Hf Hr) as [[_ ->]|[(f & Hff & Hne) _]]; [|elim Hne; intros idx i E H; exact (proj1 (Hc f Hff) idx i E H)]. cbn [bind].
    destruct (check_run d owner Hx Hy ltac:(lia)) as [[_ ->]|[(f & Hff & Hne) _]].
    + cbn [bind]. rewrite (pack_run d owner Hx Hy) by lia. reflexivity.
    + elim Hne. intros n Hnn. rewrite land_iff. rewrite <- (proj2 (Hc f Hff) n Hnn). unfold is_land. tauto.
  - symmetry. apply zlen_flat.
  - apply Forall_forall. intros t Ht. apply in_flat_map in Ht. destruct Ht as (f & Hff & Ht). apply in_map_iff in Ht. destruct Ht as (n & <- & Hnn).
    apply In_zseq in Hff. apply (cells_land d owner f) in Hnn. apply (Hc f); [lia|apply Hnn|exact Hnn].
Qed.
(** Else an error is reported and nothing is written. *)
Theorem C53_inconsistent : forall d owner, 0 < d_nx d -> 0 < d_ny d -> 1 < d_nfaces d -> zlen (d_restart d) = d_nfaces d ->
  names_tell d owner -> cells_inside d -> ~ consistent d owner -> exists e, make_land_domain d = Err e.
Proof.
  intros d owner Hx Hy Hf Hr Hn Hi Hc. unfold make_land_domain. rewrite (land_masks_run d owner Hx Hy Hn Hi) by lia. cbn [bind].
  destruct (tile_counts_run d Hx Hy Hf Hr) as [[Hok ->]|[_ ->]]; [|eexists; reflexivity]. cbn [bind].
  destruct (check_run d owner Hx Hy ltac:(lia)) as [[Hs ->]|[_ (e & ->)]]; [|exists e; reflexivity].
  elim Hc. intros f Hff. split; [exact (Hok f Hff)|]. intros n Hnn. rewrite <- (Hs f Hff n Hnn), land_iff. unfold is_land. tauto.
Qed.
(** Finding: with a single face the name of the restart file is never set (swapped arguments of
    strcpy), whatever the input. *)
Theorem C53_one_face_refuted : forall d owner, 0 < d_nx d -> 0 < d_ny d -> d_nfaces d = 1 ->
  names_tell d owner -> cells_inside d -> make_land_domain d = UB.
Proof.
  intros d owner Hx Hy Hf Hn Hi. unfold make_land_domain. rewrite (land_masks_run d owner Hx Hy Hn Hi) by lia. cbn [bind]. unfold tile_counts. rewrite Hf. reflexivity.
Qed.
(** Finding: with ten faces the name of face 10's file contains the name of face 1: its cells count
    for both, and correct input is refused. *)
Theorem C53_ten_faces_refuted : exists d owner, d_nfaces d = 10 /\ d_nx d = 1 /\ d_ny d = 1 /\ zlen (d_restart d) = d_nfaces d /\
  cells_inside d /\ consistent d owner /\
  (forall f, In f (d_files d) -> exists a, fst f = a ++ d_mosaic d ++ chars "_tile" ++ print_int 0 (owner f + 1) ++ chars ".nc") /\
  make_land_domain d = Err 2.
Proof.
  set (d := {| d_mosaic := chars "land"; d_nx := 1; d_ny := 1; d_nfaces := 10; d_files := [(chars "atmos_tile1Xland_tile10.nc", [{| l_i := 0; l_j := 0; l_area := 1%R |}])];
     d_restart := [[]; []; []; []; []; []; []; []; []; [0]] |}). exists d, (fun _ => 9). split; [reflexivity|]. split; [reflexivity|]. split; [reflexivity|]. split; [reflexivity|]. split; [|split; [|split]].
  - intros f c [<-|[]] [<-|[]]. cbn. lia.
  - intros face Hf. cbn in Hf. split.
    + intros idx i E Hi. apply zget_In in E. cbn in E. repeat destruct E as [<-|E]; cbn in Hi; try tauto. destruct Hi as [<-|[]]; lia.
    + intros n Hn. cbn in Hn. assert (n = 0) as -> by lia. unfold is_land, land_area, exchange_cells. cbn [d_files d filter].
      assert (C : face = 0 \/ face = 1 \/ face = 2 \/ face = 3 \/ face = 4 \/ face = 5 \/ face = 6 \/ face = 7 \/ face = 8 \/ face = 9) by lia.
      repeat destruct C as [->|C]; [..|subst face]; match goal with |- context [ntiles ?d ?f ?n] => let t := eval vm_compute in (ntiles d f n) in change (ntiles d f n) with t end; cbn; (split; [intros [_ Q]; first [exfalso; lra|lia]|intros Q; split; first [exfalso; lia|lia|lra]]).
  - intros f [<-|[]]. exists (chars "atmos_tile1X"). vm_compute. reflexivity.
  - assert (T1 : rlt 0 (0 + 1 * 4 * PI * RADIUS * RADIUS) = true). { unfold rlt. destruct (Rlt_dec _ _) as [|N]; auto. elim N. unfold RADIUS. pose proof PI_RGT_0. nra. }
    assert (T0 : rlt 0 0 = false). { unfold rlt. destruct (Rlt_dec _ _) as [N|]; auto. lra. }
    unfold make_land_domain, land_masks.
    assert (A : forall face, face_area d face = if strstr (chars "atmos_tile1Xland_tile10.nc") (face_name (chars "land") face) then Ok [(0 + 1 * 4 * PI * RADIUS * RADIUS)%R] else Ok [0%R]).
    { intros face. unfold face_area. cbn [d_files d ofold fst snd]. destruct (strstr _ _); reflexivity. }
    assert (S1 : ofor 0 10 (fun b face => Ok (b ++ [strstr (chars "atmos_tile1Xland_tile10.nc") (face_name (chars "land") face)])) [] = Ok [true; false; false; false; false; false; false; false; false; true]) by (vm_compute; reflexivity).
    cbn [d d_nfaces d_nx d_ny]. change (zseq 0 10) with [0;1;2;3;4;5;6;7;8;9].
    assert (S2 : forall k, In k [0; 9] -> strstr (chars "atmos_tile1Xland_tile10.nc") (face_name (chars "land") k) = true) by (intros k [<-|[<-|[]]]; vm_compute; reflexivity).
    assert (S3 : forall k, In k [1;2;3;4;5;6;7;8] -> strstr (chars "atmos_tile1Xland_tile10.nc") (face_name (chars "land") k) = false) by (intros k Hk; cbn in Hk; repeat destruct Hk as [<-|Hk]; try contradiction; vm_compute; reflexivity).
    unfold ofor at 1. change (zseq 0 10) with [0;1;2;3;4;5;6;7;8;9]. cbn [ofold].
    rewrite !A, (S2 0), (S2 9), !S3 by (cbn; auto 10). cbn [bind].
    change (1 * 1) with 1. unfold ofor at 1 2 3 4 5 6 7 8 9 10. change (zseq 0 1) with [0]. cbn [ofold oget zget Z.ltb Z.compare bind Z.to_nat nth_error]. 
    rewrite T1, T0. vm_compute. reflexivity.
Qed.

(** Hypotheses met: two faces of two cells, one exchange cell each *)
Definition C53_ex : land_input := {| d_mosaic := chars "land_mosaic"; d_nx := 2; d_ny := 1; d_nfaces := 2;
  d_files := [(chars "atmos_mosaic_tile1Xland_mosaic_tile2.nc", [{| l_i := 0; l_j := 0; l_area := 3%R |}]);
              (chars "atmos_mosaic_tile1Xland_mosaic_tile1.nc", [{| l_i := 1; l_j := 0; l_area := 2%R |}])];
  d_restart := [[1; 3; 5]; [2]] |}.
Definition C53_owner (f : str * list lcell) : Z := if strstr (fst f) (chars "land_mosaic_tile1") then 0 else 1.
Example C53_example : names_tell C53_ex C53_owner /\ cells_inside C53_ex /\ consistent C53_ex C53_owner /\
  is_land C53_ex C53_owner 0 1 /\ ntiles C53_ex 0 1 = 3 /\ ~ is_land C53_ex C53_owner 0 0.
Proof.
  assert (N : names_tell C53_ex C53_owner).
  { intros f Hf face Hface. cbn in Hface. rewrite <- strstr_spec. assert (face = 0 \/ face = 1) as [->| ->] by lia; destruct Hf as [<-|[<-|[]]]; vm_compute; split; auto; discriminate. }
  split; auto. split. { intros f c [<-|[<-|[]]] [<-|[]]; cbn; lia. }
  assert (O1 : C53_owner (chars "atmos_mosaic_tile1Xland_mosaic_tile2.nc", [{| l_i := 0; l_j := 0; l_area := 3%R |}]) = 1) by (vm_compute; reflexivity).
  assert (O2 : C53_owner (chars "atmos_mosaic_tile1Xland_mosaic_tile1.nc", [{| l_i := 1; l_j := 0; l_area := 2%R |}]) = 0) by (vm_compute; reflexivity).
  assert (X0 : exchange_cells C53_ex C53_owner 0 = [{| l_i := 1; l_j := 0; l_area := 2%R |}]).
  { unfold exchange_cells, C53_ex. cbn [d_files filter]. rewrite O1, O2. reflexivity. }
  assert (X1 : exchange_cells C53_ex C53_owner 1 = [{| l_i := 0; l_j := 0; l_area := 3%R |}]).
  { unfold exchange_cells, C53_ex. cbn [d_files filter]. rewrite O1, O2. reflexivity. }
  assert (A : forall f n, is_land C53_ex C53_owner f n <-> 0 <= n < 2 /\ (0 < rsum l_area (filter (fun c => l_j c * 2 + l_i c =? n)%Z (exchange_cells C53_ex C53_owner f)))%R) by (intros; unfold is_land; tauto).
  split; [|split; [|split]].
  - intros face Hf. cbn in Hf. split.
    + intros idx i E Hi. apply zget_In in E. cbn in E. repeat destruct E as [<-|E]; cbn in Hi; try tauto; lia.
    + intros n Hn. cbn in Hn. rewrite A. assert (face = 0 \/ face = 1) as [->| ->] by lia; rewrite ?X0, ?X1; assert (n = 0 \/ n = 1) as [->| ->] by lia; match goal with |- context [ntiles ?d ?f ?n] => let t := eval vm_compute in (ntiles d f n) in change (ntiles d f n) with t end; cbn; (split; [intros [_ Q]; first [exfalso; lra|lia]|intros Q; split; first [exfalso; lia|lia|lra]]).
  - rewrite A, X0. cbn. split; [lia|lra].
  - reflexivity.
  - rewrite A, X0. cbn. intros [_ Q]. lra.
Qed.
Print Assumptions C53_packed_partial.
Print Assumptions C53_inconsistent.
Print Assumptions C53_one_face_refuted.
Print Assumptions C53_ten_faces_refuted.
