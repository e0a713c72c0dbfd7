(** * Properties C59 and C60: the exchange grid of conservative regridding *)
From Coq Require Import Lra Psatz Permutation.
From Verif Require Import Base Loops Vec M_Interp M_Domain2D M_Fregrid M_Remap Spec_Remap P_Interp P_Interp2 P_Fregrid P_Fregrid2 P_Remap T_Fregrid.
Local Open Scope R_scope.

(** The exchange cells of an output tile are the pieces of the input tiles, one tile after the other, with
    their offsets from the centroid of the input cell: the centroid of all its pieces together, or of the
    polygon if the pieces do not fill it. *)
Theorem C59_cells : forall clip ctr npes nout me T, wf_clip clip npes nout T -> (0 <= nout)%Z -> (0 <= me < npes)%Z ->
  exists outs, setup true clip ctr npes nout me T = Ok outs /\ zlen outs = nout /\ forall n, (0 <= n < nout)%Z ->
    Forall2 (fun '(q, p) c => made_from q p c
      /\ (filled clip npes nout T q (c_j p) (c_i p) ->
          let l := pieces clip npes nout q (c_j p) (c_i p) in offset_from p (rsum c_lon l / rsum c_a l) (rsum c_lat l / rsum c_a l) c)
      /\ (~ filled clip npes nout T q (c_j p) (c_i p) ->
          let v := ctr q (c_j p * t_nx (tile_at T q) + c_i p)%Z in let a := cell_area T q (c_j p) (c_i p) in offset_from p (fst v / a) (snd v / a) c))
      (flat_map (fun q => map (pair q) (clip me n q)) (zseq 0 (zlen T))) (nth (Z.to_nat n) outs []).
Proof.
  intros clip ctr npes nout me T HW Hno Hme. rewrite setup_run by auto. eexists. split; [reflexivity|]. split; [apply vec_map; auto|].
  intros n Hn. rewrite nth_map_zseq by auto. unfold raw.
  replace (flat_map (fun m => map (mk true m) (clip me n m)) (zseq 0 (zlen T))) with (map (fun qp => mk true (fst qp) (snd qp)) (flat_map (fun q => map (pair q) (clip me n q)) (zseq 0 (zlen T)))).
  2:{ generalize (zseq 0 (zlen T)) as l. induction l as [|q l IH]; [reflexivity|]. cbn [flat_map]. rewrite map_app, IH, map_map. reflexivity. }
  apply Forall2_map_r. intros (q, p) Hqp. apply in_flat_map in Hqp. destruct Hqp as (q' & Hq & Hp). apply In_zseq in Hq. apply in_map_iff in Hp. destruct Hp as (p' & E & Hp). injection E as -> ->.
  destruct HW as (HT & HP). destruct (HP me n q p ltac:(lia) ltac:(lia) ltac:(lia) Hp) as (Hj & Hi & Ha).
  assert (HI : input_cell T q (c_j p) (c_i p)) by (repeat split; lia).
  assert (EG : G2 clip ctr npes nout T q (c_j p * t_nx (tile_at T q) + c_i p) = let l := pieces clip npes nout q (c_j p) (c_i p) in let ca := cell_area T q (c_j p) (c_i p) in let v := ctr q (c_j p * t_nx (tile_at T q) + c_i p)%Z in
     if rlt 0 (rsum c_a l) then (if rlt (Rabs (rsum c_a l - ca) / ca) AREA_RATIO then (rsum c_a l, rsum c_lon l / rsum c_a l, rsum c_lat l / rsum c_a l) else (rsum c_a l, fst v / ca, snd v / ca)) else (rsum c_a l, rsum c_lon l, rsum c_lat l)).
  { unfold G2, centre_of. rewrite (cut_pieces clip npes nout T q (c_j p) (c_i p)) by (auto; split; auto). reflexivity. }
  assert (PP : 0 < rsum c_a (pieces clip npes nout q (c_j p) (c_i p))).
  { apply rsum_pos.
    - intros N. assert (Hin : In p (pieces clip npes nout q (c_j p) (c_i p))); [|rewrite N in Hin; contradiction].
      unfold pieces. apply in_flat_map. exists n. split; [apply In_zseq; lia|]. apply in_flat_map. exists me. split; [apply In_zseq; lia|]. apply filter_In. split; auto. now rewrite !Z.eqb_refl.
    - intros x Hx. unfold pieces in Hx. apply in_flat_map in Hx. destruct Hx as (n' & Hn' & Hx). apply in_flat_map in Hx. destruct Hx as (r' & Hr' & Hx). apply filter_In in Hx. destruct Hx as (Hx & _). apply In_zseq in Hn', Hr'. destruct (HP r' n' q x ltac:(lia) ltac:(lia) ltac:(lia) Hx) as (_ & _ & ?). lra. }
  cbv zeta in EG. destruct (rlt_spec 0 (rsum c_a (pieces clip npes nout q (c_j p) (c_i p)))); [|contradiction].
  unfold shifted. cbn [fst snd mk x_t x_i x_j x_io x_jo x_a x_di x_dj]. rewrite EG. split; [repeat split|]. unfold filled, covered, offset_from, AREA_RATIO in *. destruct (rlt_spec (Rabs (rsum c_a (pieces clip npes nout q (c_j p) (c_i p)) - cell_area T q (c_j p) (c_i p)) / cell_area T q (c_j p) (c_i p)) (1 / 1000)) as [F|F].
  - split; [intros _; split; reflexivity|]. intros N. exfalso. apply N. auto.
  - split; [intros (_ & F'); contradiction|]. intros _. split; reflexivity.
Qed.
(** First order: the same pieces. *)
Theorem C59_cells_order1 : forall clip ctr npes nout me T, wf_clip clip npes nout T -> (0 <= nout)%Z -> (0 <= me < npes)%Z ->
  exists outs, setup false clip ctr npes nout me T = Ok outs /\ zlen outs = nout /\ forall n, (0 <= n < nout)%Z ->
    Forall2 (fun '(q, p) c => made_from q p c) (flat_map (fun q => map (pair q) (clip me n q)) (zseq 0 (zlen T))) (nth (Z.to_nat n) outs []).
Proof.
  intros clip ctr npes nout me T HW Hno Hme. rewrite setup_run by auto. eexists. split; [reflexivity|]. split; [apply vec_map; auto|].
  intros n Hn. rewrite nth_map_zseq by auto. unfold raw.
  replace (flat_map (fun m => map (mk false m) (clip me n m)) (zseq 0 (zlen T))) with (map (fun x => x) (map (fun qp => mk false (fst qp) (snd qp)) (flat_map (fun q => map (pair q) (clip me n q)) (zseq 0 (zlen T))))).
  2:{ rewrite map_id. generalize (zseq 0 (zlen T)) as l. induction l as [|q l IH]; [reflexivity|]. cbn [flat_map]. rewrite map_app, IH, map_map. reflexivity. }
  apply Forall2_map_r. intros (q, p) Hqp. repeat split.
Qed.

(** The offsets of the pieces of a filled cell, on all processors together, average to zero. *)
Theorem C59_centred : forall clip ctr npes nout T O outs, wf_clip clip npes nout T -> (0 <= nout)%Z ->
  (forall r, (0 <= r < npes)%Z -> setup true clip ctr npes nout r T = Ok (outs r)) ->
  all_cells O = flat_map (fun r => concat (outs r)) (zseq 0 npes) ->
  forall q j i, input_cell T q j i -> filled clip npes nout T q j i ->
    rsum (fun c => x_a c * x_di c) (from O q j i) = 0 /\ rsum (fun c => x_a c * x_dj c) (from O q j i) = 0.
Proof.
  intros clip ctr npes nout T O outs HW Hno HS HO q j i HI (HF1 & HF2).
  assert (Ho : forall r, (0 <= r < npes)%Z -> outs r = map (fun n => flat_map (fun m => map (fun p => shifted T (G2 clip ctr npes nout T) (mk true m p)) (clip r n m)) (zseq 0 (zlen T))) (zseq 0 nout)).
  { intros r Hr. specialize (HS r Hr). rewrite setup_run in HS by auto. injection HS as <-. apply map_ext. intros n. unfold raw. generalize (zseq 0 (zlen T)) as l. induction l as [|m l IH]; [reflexivity|]. cbn [flat_map]. rewrite map_app, IH, map_map. reflexivity. }
  set (K := fun m p => shifted T (G2 clip ctr npes nout T) (mk true m p)) in *.
  assert (HK : forall m p, x_t (K m p) = m /\ x_j (K m p) = c_j p /\ x_i (K m p) = c_i p) by (intros; repeat split).
  set (L := pieces clip npes nout q j i).
  assert (EG : G2 clip ctr npes nout T q (j * t_nx (tile_at T q) + i) = (rsum c_a L, rsum c_lon L / rsum c_a L, rsum c_lat L / rsum c_a L)).
  { unfold G2, centre_of. rewrite (cut_pieces clip npes nout T q j i HW HI). fold L. unfold tri. fold (covered clip npes nout q j i) in *. unfold covered in HF1, HF2. fold L in HF1, HF2. destruct (rlt_spec 0 (rsum c_a L)); [|contradiction].
    unfold AREA_RATIO. fold (cell_area T q j i). destruct (rlt_spec (Rabs (rsum c_a L - cell_area T q j i) / cell_area T q j i) (1 / 1000)); [reflexivity|contradiction]. }
  unfold covered in HF1. fold L in HF1.
  assert (PA : forall r n p, (0 <= r < npes)%Z -> (0 <= n < nout)%Z -> In p (clip r n q) -> c_a p <> 0). { intros r n p Hr Hn Hp. destruct HW as (_ & HP). destruct (HP r n q p Hr Hn ltac:(apply HI) Hp) as (_ & _ & ?). lra. }
  split.
  - rewrite (pieces_sum clip npes nout T O outs K _ (fun p => c_lon p + - (rsum c_lon L / rsum c_a L) * c_a p) q j i Ho HO HK); [|apply HI|].
    + fold L. rewrite rsum_plus, rsum_scal. field. lra.
    + intros r n p Hr Hn Hp <- <-. unfold K, shifted. cbn [x_a x_di x_t x_j x_i mk]. rewrite EG. cbn [fst snd]. field. split; [lra|eauto].
  - rewrite (pieces_sum clip npes nout T O outs K _ (fun p => c_lat p + - (rsum c_lat L / rsum c_a L) * c_a p) q j i Ho HO HK); [|apply HI|].
    + fold L. rewrite rsum_plus, rsum_scal. field. lra.
    + intros r n p Hr Hn Hp <- <-. unfold K, shifted. cbn [x_a x_dj x_t x_j x_i mk]. rewrite EG. cbn [fst snd]. field. split; [lra|eauto].
Qed.
(** Hence second-order regridding conserves the total whenever the pieces cover the input. *)
Theorem C59_conserved : forall clip ctr npes nout p T O outs res k, wf_clip clip npes nout T -> (0 <= nout)%Z ->
  (forall r, (0 <= r < npes)%Z -> setup true clip ctr npes nout r T = Ok (outs r)) ->
  all_cells O = flat_map (fun r => concat (outs r)) (zseq 0 npes) ->
  wf Order2 p T O -> areas_known Order2 p T O -> p_sum p = false -> p_target p = false -> nonneg p T O -> complete T O ->
  do_scalar Order2 p T O = Ok res -> (0 <= k < p_nz p)%Z ->
  out_sum O (fun q n => out_at O res q k n * weight_on Order2 p T (otile_at O q) n) = in_total Order2 p T k.
Proof.
  intros clip ctr npes nout p T O outs res k HW Hno HS HO H1 H2 H3 H4 H5 HC E Hk.
  apply C57_conserved; auto. right. split; auto. intros q j i HI.
  assert (Ho : forall r, (0 <= r < npes)%Z -> outs r = map (fun n => flat_map (fun m => map (fun p => shifted T (G2 clip ctr npes nout T) (mk true m p)) (clip r n m)) (zseq 0 (zlen T))) (zseq 0 nout)).
  { intros r Hr. specialize (HS r Hr). rewrite setup_run in HS by auto. injection HS as <-. apply map_ext. intros n. unfold raw. generalize (zseq 0 (zlen T)) as l. induction l as [|m l IH]; [reflexivity|]. cbn [flat_map]. rewrite map_app, IH, map_map. reflexivity. }
  set (K := fun m p => shifted T (G2 clip ctr npes nout T) (mk true m p)) in *.
  assert (HK : forall m p, x_t (K m p) = m /\ x_j (K m p) = c_j p /\ x_i (K m p) = c_i p) by (intros; repeat split).
  assert (EA : covered clip npes nout q j i = cell_area T q j i).
  { rewrite <- (HC q j i HI). unfold covered. symmetry. apply (pieces_sum clip npes nout T O outs K x_a c_a q j i Ho HO HK); [apply HI|]. intros; reflexivity. }
  apply (C59_centred clip ctr npes nout T O outs); auto. split.
  - destruct (Rle_or_lt (covered clip npes nout q j i) 0) as [N|]; auto. exfalso. destruct H5 as (_ & HZ). apply (HZ q j i HI). rewrite <- EA. apply Rle_antisym; auto. apply rsum_nonneg. intros x Hx. unfold pieces in Hx. apply in_flat_map in Hx. destruct Hx as (n' & Hn' & Hx). apply in_flat_map in Hx. destruct Hx as (r' & Hr' & Hx). apply filter_In in Hx. destruct Hx as (Hx & _). apply In_zseq in Hn', Hr'. destruct HW as (_ & HP). destruct (HP r' n' q x ltac:(lia) ltac:(lia) ltac:(apply HI) Hx) as (_ & _ & ?). lra.
  - rewrite EA. unfold Rminus. rewrite Rplus_opp_r, Rabs_R0. unfold Rdiv. rewrite Rmult_0_l. lra.
Qed.

(** ** Saving the exchange grid *)
(** A file is written if there is an exchange cell on any processor. *)
Theorem C60_written : forall order2 fi fd ranks, whole ranks <> [] -> exists f, write_file order2 fi fd ranks = Ok (Some f).
Proof. intros order2 fi fd ranks H. destruct (write_run order2 fi fd ranks) as (_ & W). destruct (W H) as (f & E & _). eauto. Qed.
(** Whoever reads it gets the cells of their part of the output tile, unchanged and in order, however the
    tile was divided when the file was written. *)
Theorem C60_read : forall order2 fi fd ranks f isc iec jsc jec, has_offsets order2 ranks -> write_file order2 fi fd ranks = Ok (Some f) ->
  exists l, read_file order2 isc iec jsc jec (Some f) = Ok l /\ map (placed isc jsc) l = filter (inside isc iec jsc jec) (whole ranks).
Proof.
  intros order2 fi fd ranks f isc iec jsc jec H0 E. destruct (write_run order2 fi fd ranks) as (W1 & W2). destruct (whole ranks) as [|c0 w0] eqn:Ew. { rewrite W1 in E by reflexivity. discriminate. }
  rewrite <- Ew in *. destruct W2 as (f' & E' & HS). { rewrite Ew. discriminate. } rewrite E in E'. injection E' as <-.
  eexists. split; [apply (read_run order2 (whole ranks) f isc iec jsc jec HS)|].
  - intros Eo c Hc. unfold whole in Hc. apply in_flat_map in Hc. destruct Hc as (r & Hr & Hc). apply in_map_iff in Hc. destruct Hc as (c' & <- & Hc). apply (H0 Eo r c'); auto.
  - rewrite map_map. rewrite <- (map_id (filter _ _)) at 2. apply map_ext. intros c. unfold placed. cbn [x_t x_i x_j x_io x_jo x_a x_di x_dj]. destruct c. cbn. f_equal; lia.
Qed.
(** With the same division everybody gets back exactly what they had. *)
Theorem C60_same_division : forall order2 fi fd before r after iec jec f, has_offsets order2 (before ++ r :: after) ->
  write_file order2 fi fd (before ++ r :: after) = Ok (Some f) ->
  (forall c, In c (s_cells r) -> inside (s_isc r) iec (s_jsc r) jec (placed (s_isc r) (s_jsc r) c) = true) ->
  (forall c, In c (whole (before ++ after)) -> inside (s_isc r) iec (s_jsc r) jec c = false) ->
  read_file order2 (s_isc r) iec (s_jsc r) jec (Some f) = Ok (s_cells r).
Proof.
  intros order2 fi fd before r after iec jec f H0 E HI HO. destruct (C60_read _ _ _ _ _ (s_isc r) iec (s_jsc r) jec H0 E) as (l & EL & HL). rewrite EL. f_equal.
  assert (EW : whole (before ++ r :: after) = whole before ++ map (placed (s_isc r) (s_jsc r)) (s_cells r) ++ whole after) by (unfold whole; rewrite flat_map_app; reflexivity).
  assert (EW' : whole (before ++ after) = whole before ++ whole after) by (unfold whole; apply flat_map_app).
  assert (FN : forall l0, (forall c, In c l0 -> inside (s_isc r) iec (s_jsc r) jec c = false) -> filter (inside (s_isc r) iec (s_jsc r) jec) l0 = []).
  { induction l0 as [|c l0 IH]; intros H; [reflexivity|]. cbn [filter]. rewrite H by (now left). apply IH. intros; apply H; now right. }
  assert (FA : forall l0, (forall c, In c l0 -> inside (s_isc r) iec (s_jsc r) jec c = true) -> filter (inside (s_isc r) iec (s_jsc r) jec) l0 = l0).
  { induction l0 as [|c l0 IH]; intros H; [reflexivity|]. cbn [filter]. rewrite H by (now left). f_equal. apply IH. intros; apply H; now right. }
  rewrite EW, !filter_app in HL. rewrite (FN (whole before)), (FN (whole after)) in HL. 2,3: intros c Hc; apply HO; rewrite EW'; apply in_or_app; auto.
  rewrite FA in HL. 2:{ intros c Hc. apply in_map_iff in Hc. destruct Hc as (c' & <- & Hc). auto. }
  rewrite app_nil_r in HL. cbn [app] in HL. clear -HL. revert HL. generalize (s_cells r) as l'. induction l as [|c l IH]; intros [|c' l'] HL; cbn in HL; try discriminate; auto.
  injection HL as E1 E2 E3 E4 E5 E6 E7 E8 HL. f_equal; [|now apply IH]. destruct c, c'. cbn in *. f_equal; try lia; auto.
Qed.
(** With any division of the output tile every exchange cell is read by exactly one processor. *)
Theorem C60_any_division : forall order2 fi fd ranks f (doms : list (Z * Z * Z * Z)) got, has_offsets order2 ranks -> write_file order2 fi fd ranks = Ok (Some f) ->
  (forall c, In c (whole ranks) -> length (filter (fun '(isc, iec, jsc, jec) => inside isc iec jsc jec c) doms) = 1%nat) ->
  (forall isc iec jsc jec, In (isc, iec, jsc, jec) doms -> read_file order2 isc iec jsc jec (Some f) = Ok (got (isc, iec, jsc, jec))) ->
  Permutation (flat_map (fun '(isc, iec, jsc, jec) => map (placed isc jsc) (got (isc, iec, jsc, jec))) doms) (whole ranks).
Proof.
  intros order2 fi fd ranks f doms got H0 E H1 HG.
  transitivity (flat_map (fun d => filter (fun c => let '(isc, iec, jsc, jec) := d in inside isc iec jsc jec c) (whole ranks)) doms).
  - apply Permutation_refl'. clear H1. induction doms as [|(((isc, iec), jsc), jec) doms IH]; [reflexivity|]. cbn [flat_map]. rewrite IH by (intros; apply HG; now right). f_equal.
    destruct (C60_read _ _ _ _ _ isc iec jsc jec H0 E) as (l & EL & HL). rewrite (HG isc iec jsc jec (or_introl eq_refl)) in EL. injection EL as ->. exact HL.
  - clear E HG H0. revert H1. generalize (whole ranks) as w. induction w as [|c w IH]; intros H1.
    + clear H1. induction doms as [|d doms IH]; auto. 
    + specialize (IH ltac:(intros; apply H1; now right)). specialize (H1 c (or_introl eq_refl)).
      assert (G : forall ds, Permutation (flat_map (fun d => filter (fun c0 => let '(isc, iec, jsc, jec) := d in inside isc iec jsc jec c0) (c :: w)) ds)
        (repeat c (length (filter (fun '(isc, iec, jsc, jec) => inside isc iec jsc jec c) ds)) ++ flat_map (fun d => filter (fun c0 => let '(isc, iec, jsc, jec) := d in inside isc iec jsc jec c0) w) ds)).
      { induction ds as [|(((isc, iec), jsc), jec) ds IHd]; [constructor|]. cbn [flat_map filter]. destruct (inside isc iec jsc jec c); cbn [length repeat app].
        - constructor. rewrite IHd. rewrite !app_assoc. apply Permutation_app_tail. apply Permutation_app_comm.
        - rewrite IHd. rewrite !app_assoc. apply Permutation_app_tail. apply Permutation_app_comm. }
      rewrite G, H1. cbn [repeat app]. constructor. exact IH.
Qed.
(** One processor, several output tiles, all with exchange cells: a second run with the saved files works
    with the same exchange grid as the first. *)
Theorem C60_reuse : forall order2 (doms : list (Z * Z)) computed files fi fd, length doms = length computed ->
  (forall X, In X computed -> X <> [] /\ (order2 = false -> forall c, In c X -> x_di c = 0 /\ x_dj c = 0)) ->
  Forall2 (fun '(nx, ny) X => forall c, In c X -> (0 <= x_io c < nx /\ 0 <= x_jo c < ny)%Z) doms computed ->
  Forall2 (fun X f => write_file order2 fi fd [MkPart 0 0 X] = Ok f) computed files ->
  computed <> [] -> forall other, reuse order2 (map (fun '(nx, ny) => (0, nx - 1, 0, ny - 1)%Z) doms) files other = Ok computed.
Proof.
  intros order2 doms computed files fi fd _ HX HD HF NC other. unfold reuse.
  replace (existsb _ files) with true.
  2:{ symmetry. destruct HF as [|X f computed files Ew HF]; [congruence|]. destruct (HX X (or_introl eq_refl)) as (NX & _). destruct (C60_written order2 fi fd [MkPart 0 0 X]) as (g & Eg); [|rewrite Eg in Ew; injection Ew as <-; reflexivity].
    unfold whole. cbn [flat_map s_cells]. rewrite app_nil_r. destruct X; [congruence|discriminate]. }
  clear NC.
  match goal with |- ofold ?f _ _ = _ => enough (G : forall acc, ofold f (combine (map (fun '(nx, ny) => (0, nx - 1, 0, ny - 1)%Z) doms) files) acc = Ok (acc ++ computed)) by apply (G []) end.
  revert files HF. induction HD as [|(nx, ny) X doms computed HX1 HD IH]; intros files HF acc; inversion HF as [|X' f computed' files' Ew HF']; subst; cbn [map combine ofold]; [now rewrite app_nil_r|].
  assert (EX : whole [MkPart 0 0 X] = X). { unfold whole. cbn [flat_map s_isc s_jsc s_cells]. rewrite app_nil_r. rewrite <- (map_id X) at 2. apply map_ext. intros c. unfold placed. rewrite !Z.add_0_r. now destruct c. }
  destruct (HX X (or_introl eq_refl)) as (NX & H0).
  destruct (C60_written order2 fi fd [MkPart 0 0 X]) as (g & Eg); [now rewrite EX|]. rewrite Eg in Ew. injection Ew as <-.
  pose proof (C60_same_division order2 fi fd [] (MkPart 0 0 X) [] (nx - 1) (ny - 1) g) as SD. cbn [s_isc s_jsc s_cells app] in SD. rewrite SD; clear SD.
  - cbn [bind s_cells]. rewrite IH; auto; [|intros; apply HX; now right]. rewrite <- app_assoc. reflexivity.
  - intros Eo r c [<-|[]] Hc. now apply H0.
  - exact Eg.
  - cbn [s_cells s_isc s_jsc]. intros c Hc. destruct (HX1 c Hc). unfold inside, placed. cbn [x_io x_jo]. rewrite !Z.add_0_r. rewrite !andb_true_iff, !Z.leb_le. lia.
  - cbn. intros c [].
Qed.
(** Without any saved file, in particular if no output tile has exchange cells, the exchange grid is the computed one. *)
Theorem C60_computed : forall order2 doms computed fi fd files, (forall X, In X computed -> X = []) ->
  Forall2 (fun X f => write_file order2 fi fd [MkPart 0 0 X] = Ok f) computed files -> forall other, reuse order2 doms files other = Ok other.
Proof.
  intros order2 doms computed fi fd files HX HF other. unfold reuse. replace (existsb _ files) with false; [reflexivity|]. symmetry.
  induction HF as [|X f computed files Ew HF IH]; [reflexivity|]. cbn [existsb]. rewrite (HX X (or_introl eq_refl)) in Ew. injection Ew as <-. apply IH. intros; apply HX; now right.
Qed.
(** An output tile without exchange cells has no file; the next run works with whatever memory holds. *)
Theorem C60_empty_tile_refuted : ~ (forall order2 (doms : list (Z * Z)) computed files fi fd, length doms = length computed ->
  (forall X, In X computed -> order2 = false -> forall c, In c X -> x_di c = 0 /\ x_dj c = 0) ->
  Forall2 (fun '(nx, ny) X => forall c, In c X -> (0 <= x_io c < nx /\ 0 <= x_jo c < ny)%Z) doms computed ->
  Forall2 (fun X f => write_file order2 fi fd [MkPart 0 0 X] = Ok f) computed files ->
  reuse order2 (map (fun '(nx, ny) => (0, nx - 1, 0, ny - 1)%Z) doms) files computed = Ok computed).
Proof.
  intros C. set (X := [MkXc 0 0 0 0 0 1 0 0]). destruct (C60_written true 0 0 [MkPart 0 0 X]) as (f & Ef); [discriminate|].
  specialize (C true [(1, 1); (1, 1)]%Z [[]; X] [None; Some f] 0%Z 0 eq_refl). unfold reuse in C. cbn [existsb orb map combine ofold bind read_file] in C.
  discriminate C.
  - intros; discriminate.
  - repeat constructor; cbn in *; intuition (subst; cbn; lia).
  - constructor; [reflexivity|]. constructor; [exact Ef|]. constructor.
Qed.

(** One input cell of area 2 in two pieces; two processors, each with one output cell. *)
Local Definition eclip (r n m : Z) : list pc := if (r =? 0)%Z then [MkPc 0 0 0 0 1 1 3] else [MkPc 0 0 0 0 1 5 3].
Local Definition etile : tile := MkTile 1 1 [2] [] [0; 0; 0; 0; 7; 0; 0; 0; 0] [] [2] [0] [0%Z].
Example C59_example :
  wf_clip eclip 2 1 [etile] /\ filled eclip 2 1 [etile] 0 0 0
  /\ exists o0 o1, setup true eclip (fun _ _ => (0, 0)) 2 1 0 [etile] = Ok o0 /\ setup true eclip (fun _ _ => (0, 0)) 2 1 1 [etile] = Ok o1
     /\ map (map x_di) o0 = [[-2]] /\ map (map x_di) o1 = [[2]].
Proof.
  assert (W : wf_clip eclip 2 1 [etile]).
  { split. - intros t [<-|[]]. repeat split; cbn; lia. - intros r n q p Hr Hn Hq Hp. unfold zlen in Hq. cbn in Hq. assert (q = 0%Z) by lia. subst q. unfold eclip in Hp. unfold tile_at. cbn. destruct (r =? 0)%Z; destruct Hp as [<-|[]]; cbn; repeat split; try lia; lra. }
  assert (F : filled eclip 2 1 [etile] 0 0 0).
  { unfold filled, covered. assert (E : rsum c_a (pieces eclip 2 1 0 0 0) = 2) by (change (pieces eclip 2 1 0 0 0) with [MkPc 0 0 0 0 1 1 3; MkPc 0 0 0 0 1 5 3]; unfold rsum; cbn; lra).
    change (cell_area [etile] 0 0 0) with 2. rewrite E. replace (2 - 2) with 0 by lra. rewrite Rabs_R0. split; lra. }
  split; auto. split; auto.
  destruct (C59_cells eclip (fun _ _ => (0, 0)) 2 1 0 [etile] W ltac:(lia) ltac:(lia)) as (o0 & E0 & L0 & H0).
  destruct (C59_cells eclip (fun _ _ => (0, 0)) 2 1 1 [etile] W ltac:(lia) ltac:(lia)) as (o1 & E1 & L1 & H1).
  exists o0, o1. split; auto. split; auto. specialize (H0 0%Z ltac:(lia)). specialize (H1 0%Z ltac:(lia)).
  destruct o0 as [|x0 [|? ?]]; unfold zlen in L0; cbn in L0; try lia. destruct o1 as [|x1 [|? ?]]; unfold zlen in L1; cbn in L1; try lia.
  change (flat_map (fun q => map (pair q) (eclip 0 0 q)) (zseq 0 (zlen [etile]))) with [(0%Z, MkPc 0 0 0 0 1 1 3)] in H0. change (flat_map (fun q => map (pair q) (eclip 1 0 q)) (zseq 0 (zlen [etile]))) with [(0%Z, MkPc 0 0 0 0 1 5 3)] in H1. cbn [nth Z.to_nat] in H0, H1.
  inversion H0 as [|a b l l' HA HB]; subst. inversion HB; subst. inversion H1 as [|a' b' l l' HA' HB']; subst. inversion HB'; subst.
  destruct HA as (_ & HA & _). destruct HA' as (_ & HA' & _). cbn [c_j c_i] in HA, HA'. specialize (HA F). specialize (HA' F). cbv zeta in HA, HA'. destruct HA as (HA & _). destruct HA' as (HA' & _).
  change (pieces eclip 2 1 0 0 0) with [MkPc 0 0 0 0 1 1 3; MkPc 0 0 0 0 1 5 3] in *. cbn in HA, HA'. cbn [map]. rewrite HA, HA'. split; repeat f_equal; field.
Qed.
(** Written by two processors, read by one. *)
Example C60_example :
  let c := MkXc 0 4 5 0 0 3 1 2 in let ranks := [MkPart 0 0 [c]; MkPart 1 0 [c]] in
  has_offsets true ranks /\ exists f, write_file true 0 0 ranks = Ok (Some f)
    /\ read_file true 0 1 0 0 (Some f) = Ok [c; MkXc 0 4 5 1 0 3 1 2] /\ read_file true 1 1 0 0 (Some f) = Ok [c].
Proof.
  cbv zeta. set (c := MkXc 0 4 5 0 0 3 1 2). set (ranks := [_; _]). assert (H0 : has_offsets true ranks) by (intros E; discriminate E). split; auto.
  destruct (C60_written true 0 0 ranks) as (f & Ef); [discriminate|]. exists f. split; auto. split.
  - destruct (C60_read _ _ _ _ _ 0 1 0 0 H0 Ef) as (l & E & HL). rewrite E. f_equal. rewrite <- (map_id l). rewrite <- (map_ext (placed 0 0)); [rewrite HL; reflexivity|]. intros a. unfold placed. rewrite !Z.add_0_r. now destruct a.
  - apply (C60_same_division true 0 0 [MkPart 0 0 [c]] (MkPart 1 0 [c]) [] 1 0 f H0 Ef). + intros a [<-|[]]. reflexivity. + intros a [<-|[]]. reflexivity.
Qed.
Print Assumptions C59_cells.
Print Assumptions C59_cells_order1.
Print Assumptions C59_centred.
Print Assumptions C59_conserved.
Print Assumptions C60_written.
Print Assumptions C60_read.
Print Assumptions C60_same_division.
Print Assumptions C60_any_division.
Print Assumptions C60_reuse.
Print Assumptions C60_empty_tile_refuted.
Print Assumptions C60_computed.
