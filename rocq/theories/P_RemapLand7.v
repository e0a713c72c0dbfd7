(** * Proofs about remap_land: the fields, the search and its failure *)
From Coq Require Import Reals Lra.
From Verif Require Import Base Loops Lst Vec Grid2 M_Interp M_Runoff M_Extent M_RemapLand Spec_Interp P_Interp P_Interp2 P_Runoff P_Extent Spec_RemapLand P_RemapLand P_RemapLand2 P_RemapLand3 P_RemapLand4 P_RemapLand5 P_RemapLand6.
Open Scope Z_scope.

Section Fields.
  Variables (ft : ftype) (z : input) (near : kind -> Z -> Z * Z).
  Hypothesis Hwf : wf_input z.
  Hypothesis Hroom : room z.
  Hypothesis Hnear : nearest_map z near.
  Hypothesis Hfits : fits z near.
  Let N := ncell_dst z.
  Let out {A} (g : Z -> Z -> origin -> A) : list A := map (fun '(n, i, o) => g n i o) (file_order ft z near).

  Lemma In_dest i o : 0 <= i < N -> In o (dest_tiles z near i) ->
    present z (o_kind o) = true /\ cold_entries z (o_kind o) i <> [] /\ o_face o = fst (near (o_kind o) i) /\
    In (o_entry o) (source_entries z (o_kind o) (fst (near (o_kind o) i)) (snd (near (o_kind o) i))) /\
    exists f, zget (i_files z) (o_face o) = Some f /\ wf_land f /\ 0 <= o_entry o < zlen (tags (o_kind o) f) /\ tagged (tags (o_kind o) f) (o_entry o) = true.
  Proof.
    intros Hi Ho. unfold dest_tiles in Ho. apply in_flat_map in Ho. destruct Ho as (k & _ & Ho). pose proof (kind_of z near k i o Ho) as Ek. rewrite Ek.
    unfold tiles_of_kind in Ho. destruct (cold_entries z k i) eqn:Ec; [easy|]. destruct (present z k) eqn:Ep; [|easy].
    apply in_map_iff in Ho. destruct Ho as (e & <- & He). cbn [o_face o_entry]. split; auto. split; [easy|]. split; auto. split; auto.
    unfold source_entries in He. destruct (zget (i_files z) (fst (near k i))) as [f|] eqn:Ef; [|easy]. exists f. split; auto.
    destruct Hwf as (_ & _ & _ & _ & _ & _ & _ & _ & W & _). split; [apply W; eapply zget_In; eauto|]. now apply entries_range in He.
  Qed.
  Lemma dest_zget i n o : zget (dest_tiles z near i) n = Some o -> In o (dest_tiles z near i).
  Proof. apply zget_In. Qed.
  Lemma place_nonneg tag l : 0 <= l -> 0 <= place_in_file ft tag l.
  Proof. intros H. unfold place_in_file. destruct ft; auto; apply zlen_nonneg. Qed.
  Lemma dt_idx i o : 0 <= i < N -> In o (dest_tiles z near i) -> exists f, zget (i_files z) (o_face o) = Some f /\
    d_idx (dt ft z near i o) = place_in_file ft (tags (o_kind o) f) (o_entry o) /\ 0 <= d_idx (dt ft z near i o) /\ d_face (dt ft z near i o) = o_face o.
  Proof.
    intros Hi Ho. destruct (In_dest i o Hi Ho) as (_ & _ & _ & _ & f & Ef & Wf & Hr & _). exists f. split; auto. unfold dt. rewrite Ef.
    pose proof (place_nonneg (tags (o_kind o) f) (o_entry o) ltac:(lia)) as H. destruct (o_kind o); cbn in H |- *; auto.
  Qed.

  (** ** Tile index *)
  Definition index_val (n i : Z) (d : dtile) : Z := if -1 <? d_idx d then n * N + i else FILL_INT.
  Lemma index_values r : pe_ok ft z near r -> exists d, tile_index (i_ntile z) N (r_isc r) (r_nxc r) (r_tiles r) = Ok d /\
    fields d (i_ntile z) (r_nxc r) (fun n i => index_val n (r_isc r + i) (slot (cell_slots ft z near (r_isc r + i)) n)).
  Proof.
    intros (P1 & P2 & P3 & P4 & P5 & P6). destruct Hwf as (_ & _ & _ & _ & _ & Wt & _). unfold tile_index.
    set (v := fun m => index_val (m mod i_ntile z) (r_isc r + m / i_ntile z) (slot (cell_slots ft z near (r_isc r + m / i_ntile z)) (m mod i_ntile z))).
    match goal with |- context [ofor 0 ?n ?f ?s] => destruct (ofor_inv (fun m o => o = map v (zseq 0 m)) f 0 n s ltac:(nia)) as (d & E & HI) end.
    - reflexivity.
    - intros m o Hm ->. rewrite Z.add_0_l in Hm. pose proof (Z.mod_pos_bound m (i_ntile z) ltac:(lia)) as Hmod. pose proof (Z.div_mod m (i_ntile z) ltac:(lia)) as Hdm.
      assert (0 <= m / i_ntile z < r_nxc r) as Hq by (split; [apply Z.div_pos; lia|apply Z.div_lt_upper_bound; lia]).
      assert (oget (r_tiles r) m = Ok (slot (cell_slots ft z near (r_isc r + m / i_ntile z)) (m mod i_ntile z))) as ->.
      { pose proof (fields_get _ _ _ _ (m mod i_ntile z) (m / i_ntile z) P5 ltac:(lia) ltac:(lia)) as H. replace (m / i_ntile z * i_ntile z + m mod i_ntile z) with m in H by lia. exact H. }
      cbn [bind].
      eexists; split; [reflexivity|]. rewrite zseq_snoc by lia. rewrite map_app, Z.add_0_l. cbn [map]. f_equal. f_equal. unfold v, index_val.
      destruct (-1 <? d_idx _); auto. lia.
    - rewrite E. eexists; split; [reflexivity|]. rewrite HI, Z.add_0_l. split; [rewrite zlen_map, zlen_zseq by nia; lia|]. intros n i Hn Hi.
      rewrite zget_map, zget_zseq by nia. cbn [option_map]. rewrite Z.add_0_l. f_equal. unfold v.
      replace ((i * i_ntile z + n) mod i_ntile z) with n by (apply (Z.mod_unique _ _ i); lia). replace ((i * i_ntile z + n) / i_ntile z) with i by (apply (Z.div_unique _ _ _ n); lia). reflexivity.
  Qed.
  Lemma write_index_run npes : 1 <= npes <= N -> exists pes, all_pes ft z npes = Ok pes /\ write_tile_index ft z pes = Ok (out (fun n i _ => Some (n * N + i))).
  Proof.
    intros Hn. assert (0 < N) as HN by lia.
    assert (forall n i o, 0 <= i < N -> zget (dest_tiles z near i) n = Some o -> index_val n i (dt ft z near i o) = n * N + i /\ 0 <= n) as Hv.
    { intros n i o Hi Eo. destruct (dt_idx i o Hi (dest_zget _ _ _ Eo)) as (f & _ & _ & H & _). unfold index_val. destruct (Z.ltb_spec (-1) (d_idx (dt ft z near i o))); [|lia]. apply zget_Some_range in Eo. split; lia. }
    destruct (write_good ft z near Hwf Hroom Hnear Hfits int_fill (Some FILL_INT) None _ index_val index_values) with (npes := npes) as (pes & E & Ew); auto.
    - intros n i o Hi Eo Hh. left. destruct (Hv n i o Hi Eo) as (-> & H0). unfold int_fill. apply Z.eqb_neq. unfold FILL_INT. nia.
    - exists pes. split; auto. unfold write_tile_index. fold (ncell_dst z). fold N. rewrite Ew. f_equal. unfold out.
      apply map_ext_in. intros ((n, i), o) Hin. f_equal. unfold file_order in Hin. apply in_flat_map in Hin. destruct Hin as (n' & _ & Hin). apply in_flat_map in Hin. destruct Hin as (i' & Hi' & Hin).
      destruct (zget (dest_tiles z near i') n') as [o'|] eqn:Eo; [|easy]. destruct (holds ft (o_kind o')); [|easy]. destruct Hin as [Hin|[]]. inversion Hin; subst.
      apply In_zseq in Hi'. apply (Hv n i o); auto.
  Qed.

  Lemma In_order n i o : In (n, i, o) (file_order ft z near) <-> 0 <= i < N /\ zget (dest_tiles z near i) n = Some o /\ holds ft (o_kind o) = true.
  Proof.
    unfold file_order. rewrite in_flat_map. split.
    - intros (n' & _ & Hin). apply in_flat_map in Hin. destruct Hin as (i' & Hi' & Hin). apply In_zseq in Hi'.
      destruct (zget (dest_tiles z near i') n') as [o'|] eqn:Eo; [|easy]. destruct (holds ft (o_kind o')) eqn:Eh; [|easy]. destruct Hin as [Hin|[]]. inversion Hin; subst. unfold N; split; auto; lia.
    - intros (Hi & Eo & Eh). exists n. pose proof (zget_Some_range _ _ _ Eo) as Hr. pose proof (Hfits i Hi). split; [apply In_zseq; lia|].
      apply in_flat_map. exists i. split; [apply In_zseq; unfold N in Hi; lia|]. rewrite Eo, Eh. cbn; auto.
  Qed.

  (** ** Arrays kept for the destination tiles *)
  Lemma kept_values {A} (g : dtile -> A) r : pe_ok ft z near r -> exists d, Ok (map g (r_tiles r)) = Ok d /\
    fields d (i_ntile z) (r_nxc r) (fun n i => g (slot (cell_slots ft z near (r_isc r + i)) n)).
  Proof. intros (_ & _ & _ & _ & P5 & _). eexists; split; [reflexivity|]. exact (fields_map g _ _ _ _ P5). Qed.

  Lemma write_frac_run npes : 1 <= npes <= N -> (forall i o, 0 <= i < N -> In o (dest_tiles z near i) -> dest_frac z near i o <> FILL_DOUBLE) ->
    exists pes, all_pes ft z npes = Ok pes /\ write_frac ft z pes = Ok (out (fun _ i o => Some (dest_frac z near i o))).
  Proof.
    intros Hn Hm. assert (forall i o, 0 <= i < N -> In o (dest_tiles z near i) -> d_frac (dt ft z near i o) = dest_frac z near i o) as Hv.
    { intros i o Hi Ho. destruct (In_dest i o Hi Ho) as (_ & _ & _ & _ & f & Ef & _). unfold dt. rewrite Ef. now destruct (o_kind o). }
    destruct (write_good ft z near Hwf Hroom Hnear Hfits real_fill None (Some FILL_DOUBLE) _ (fun _ _ d => d_frac d) (kept_values d_frac)) with (npes := npes) as (pes & E & Ew); auto.
    - intros n i. cbn. unfold real_fill. destruct (reqb_spec FILL_DOUBLE FILL_DOUBLE); auto.
    - intros n i o Hi Eo Hh. left. rewrite Hv by (auto; eapply dest_zget; eauto). unfold real_fill. destruct (reqb_spec (dest_frac z near i o) FILL_DOUBLE); auto. exfalso. eapply Hm; eauto. eapply dest_zget; eauto.
    - exists pes. split; auto. unfold write_frac. rewrite Ew. f_equal. apply map_ext_in. intros ((n, i), o) Hin. apply In_order in Hin. destruct Hin as (Hi & Eo & _). f_equal. apply Hv; auto. eapply dest_zget; eauto.
  Qed.

  Lemma write_tag_run npes k (var : landfile -> list Z) (g : dtile -> Z) : use_all_tile ft = true -> 1 <= npes <= N ->
    (forall i o f, zget (i_files z) (o_face o) = Some f -> g (dt ft z near i o) = if same_kind k (o_kind o) then zat (var f) (o_entry o) else FILL_INT) ->
    g no_dtile = FILL_INT -> (forall f, wf_land f -> zlen (var f) = zlen (tags k f)) ->
    exists pes, all_pes ft z npes = Ok pes /\ write_tag ft z g pes = Ok (out (fun _ i o => tag_value z k var o)).
  Proof.
    intros Ha Hn Hg Hno Hlen.
    destruct (write_good ft z near Hwf Hroom Hnear Hfits int_fill (Some FILL_INT) None _ (fun _ _ d => g d) (kept_values g)) with (npes := npes) as (pes & E & Ew); auto.
    - intros n i. rewrite Hno. reflexivity.
    - intros n i o Hi Eo Hh. unfold int_fill. destruct (Z.eqb_spec (g (dt ft z near i o)) FILL_INT) as [->|]; auto.
    - exists pes. split; auto. unfold write_tag. rewrite Ew. f_equal. apply map_ext_in. intros ((n, i), o) Hin. apply In_order in Hin. destruct Hin as (Hi & Eo & _).
      destruct (In_dest i o Hi (dest_zget _ _ _ Eo)) as (_ & _ & _ & _ & f & Ef & Wf & Hr & _). rewrite (Hg i o f Ef). unfold tag_value. rewrite Ef.
      destruct (same_kind k (o_kind o)) eqn:Ek; auto. symmetry. apply zat_get. rewrite Hlen by auto. assert (k = o_kind o) as -> by (destruct k, (o_kind o); easy). auto.
  Qed.

  (** ** Fields *)
  Section Field.
    Context {A : Type}.
    Variables (fill : A) (src : list (list A)).
    Hypothesis Hc : complete ft z src.
    Definition field_val (d : dtile) : A :=
      if d_idx d <? 0 then fill else match zget (concat src) (start_pos (map zlen src) (d_face d) + d_idx d) with Some v => v | None => fill end.

    Lemma source_get i o : 0 <= i < N -> In o (dest_tiles z near i) -> held ft o = true ->
      exists v, source_value ft z src o = Some v /\ zget (concat src) (start_pos (map zlen src) (d_face (dt ft z near i o)) + d_idx (dt ft z near i o)) = Some v /\ field_val (dt ft z near i o) = v.
    Proof.
      intros Hi Ho Hh. destruct Hc as (Ls & HC). destruct (In_dest i o Hi Ho) as (_ & _ & _ & _ & f & Ef & _ & _ & Ht). destruct (dt_idx i o Hi Ho) as (f' & Ef' & E1 & E2 & E3). assert (f' = f) as -> by congruence.
      pose proof (zget_Some_range _ _ _ Ef) as Hr. destruct Hwf as (_ & _ & _ & _ & _ & _ & _ & Lf & _).
      destruct (zget src (o_face o)) as [v|] eqn:Ev; [|apply zget_None_range in Ev; lia].
      pose proof (HC o f v Ef Ev Hh Ht) as Hs. destruct (source_value ft z src o) as [x|] eqn:Es; [|easy]. exists x. split; auto.
      unfold source_value in Es. rewrite Ef, Ev in Es. assert (zget (concat src) (start_pos (map zlen src) (d_face (dt ft z near i o)) + d_idx (dt ft z near i o)) = Some x) as Eg.
      { rewrite E3, E1. rewrite (zget_concat src (o_face o) v); auto. eapply zget_Some_range; eauto. }
      split; auto. unfold field_val. destruct (Z.ltb_spec (d_idx (dt ft z near i o)) 0); [lia|]. now rewrite Eg.
    Qed.
    Lemma field_values_run r : pe_ok ft z near r -> exists d, field_values fill (map zlen src) (concat src) (r_tiles r) = Ok d /\
      fields d (i_ntile z) (r_nxc r) (fun n i => field_val (slot (cell_slots ft z near (r_isc r + i)) n)).
    Proof.
      intros Hr. destruct (kept_values field_val r Hr) as (d & Ed & Hd). exists d. split; auto. inversion Ed. clear Ed. unfold field_values.
      rewrite (ofold_ext _ (fun out d => do x <- (if d_idx d <? 0 then Ok fill else oget (concat src) (start_pos (map zlen src) (d_face d) + d_idx d)) ; Ok (out ++ [x]))).
      2: { intros s a. destruct (d_idx a <? 0); reflexivity. }
      rewrite (ofold_map _ field_val); auto. intros t Ht. destruct Hr as (P1 & P2 & P3 & P4 & P5 & P6). destruct Hwf as (_ & _ & _ & _ & _ & Wt & _).
      destruct (fields_In _ _ _ _ _ Wt P5 Ht) as (n & i & Hn & Hi & ->). unfold slot, cell_slots. rewrite zget_map.
      destruct (zget (dest_tiles z near (r_isc r + i)) n) as [o|] eqn:Eo; [|reflexivity]. cbn [option_map]. unfold dth. destruct (holds ft (o_kind o)) eqn:Eh; [|reflexivity].
      destruct (source_get (r_isc r + i) o ltac:(unfold N; lia) (dest_zget _ _ _ Eo) Eh) as (v & _ & Eg & Ev). rewrite Ev.
      destruct (dt_idx (r_isc r + i) o ltac:(unfold N; lia) (dest_zget _ _ _ Eo)) as (_ & _ & _ & E2 & _). destruct (Z.ltb_spec (d_idx (dt ft z near (r_isc r + i) o)) 0); [lia|]. now apply oget_Ok.
    Qed.
    Variables (is_fill : A -> bool) (init global : option A).
    Hypothesis Hfill : is_fill fill = true.

    Lemma write_field_all npes : 1 <= npes <= N -> exists pes, all_pes ft z npes = Ok pes /\
      let vs := flat_map (fun '(n, i, o) => match source_value ft z src o with
                          | Some v => if is_fill v then if use_all_tile ft then [init] else [] else [Some v] | None => [] end) (file_order ft z near) in
      write ft z is_fill init global (fun r => field_values fill (map zlen src) (concat src) (r_tiles r)) pes =
        Ok (vs ++ repeat global (Z.to_nat (zlen (file_order ft z near) - zlen vs))).
    Proof.
      intros Hn. destruct (write_all ft z near Hwf Hroom Hnear Hfits is_fill init global _ (fun _ _ d => field_val d) field_values_run (fun _ _ => Hfill) npes Hn) as (pes & E & Ew).
      exists pes. split; auto. intros vs. rewrite Ew. f_equal.
      assert (file_rows ft z near is_fill init (fun _ _ d => field_val d) = vs) as ->.
      { unfold file_rows, vs, file_order. rewrite flat_map_nested. apply flat_map_ext_in. intros n _. rewrite flat_map_nested. fold N. apply flat_map_ext_in. intros i Hi. apply In_zseq in Hi.
        unfold row_out. destruct (zget (dest_tiles z near i) n) as [o|] eqn:Eo; auto. unfold cell_out. change (holds ft (o_kind o)) with (held ft o). destruct (held ft o) eqn:Eh; auto.
        cbn [flat_map]. rewrite app_nil_r. destruct (source_get i o ltac:(unfold N; lia) (dest_zget _ _ _ Eo) Eh) as (v & -> & _ & ->). reflexivity. }
      f_equal. f_equal. f_equal. f_equal.
      destruct (write_good ft z near Hwf Hroom Hnear Hfits (fun b : bool => b) None None (fun r => Ok (map (fun d => d_idx d <? 0) (r_tiles r))) (fun _ _ d => d_idx d <? 0) (kept_values (fun d => d_idx d <? 0))) with (npes := npes) as (pes' & E' & Ew'); auto.
      { intros n i o Hi Eo _. left. destruct (dt_idx i o Hi (dest_zget _ _ _ Eo)) as (_ & _ & _ & H & _). apply Z.ltb_ge. lia. }
      destruct (write_all ft z near Hwf Hroom Hnear Hfits (fun b : bool => b) None None (fun r => Ok (map (fun d => d_idx d <? 0) (r_tiles r))) (fun _ _ d => d_idx d <? 0) (kept_values (fun d => d_idx d <? 0)) ltac:(reflexivity) npes Hn) as (pes2 & E2 & Ew2).
      assert (pes2 = pes') as -> by congruence. rewrite Ew' in Ew2. inversion Ew2 as [H]. apply (f_equal zlen) in H. rewrite zlen_map, zlen_app in H. unfold zlen in H at 3. rewrite repeat_length in H.
      set (rows := file_rows ft z near (fun b => b) None (fun _ _ d => d_idx d <? 0)) in *.
      assert (zlen rows <= held_total ft z near) as Hle; [|lia].
      unfold rows, file_rows, held_total. rewrite (flat_map_swap_len (row_out ft z near (fun b => b) None (fun _ _ d => d_idx d <? 0))).
      assert (forall win, (forall i, In i win -> 0 <= i < N) -> zlen (flat_map (fun i => flat_map (fun n => row_out ft z near (fun b => b) None (fun _ _ d => d_idx d <? 0) n i) (zseq 0 (i_ntile z))) win) <= zlen (flat_map (fun i => filter (held ft) (dest_tiles z near i)) win)) as HL.
      { induction win as [|i win IH]; intros Hw; cbn [flat_map]; [cbn; lia|]. rewrite !zlen_app. pose proof (row_len ft z near Hfits (fun b => b) None (fun _ _ d => d_idx d <? 0) ltac:(reflexivity) i (Hw i (or_introl eq_refl))). specialize (IH ltac:(intros; apply Hw; cbn; auto)). lia. }
      apply HL. intros i Hi. apply In_zseq in Hi. unfold N; lia.
    Qed.
    Hypothesis Hgood : forall v, (exists l, In l src /\ In v l) -> is_fill v = false \/ use_all_tile ft = true /\ init = Some v.
    Lemma write_field_good npes : 1 <= npes <= N -> exists pes, all_pes ft z npes = Ok pes /\
      write ft z is_fill init global (fun r => field_values fill (map zlen src) (concat src) (r_tiles r)) pes = Ok (out (fun _ i o => source_value ft z src o)).
    Proof.
      intros Hn. destruct (write_good ft z near Hwf Hroom Hnear Hfits is_fill init global _ (fun _ _ d => field_val d) field_values_run (fun _ _ => Hfill)) with (npes := npes) as (pes & E & Ew); auto.
      - intros n i o Hi Eo Hh. destruct (source_get i o Hi (dest_zget _ _ _ Eo) Hh) as (v & Ev & _ & ->). apply Hgood. unfold source_value in Ev.
        destruct (zget (i_files z) (o_face o)); [|easy]. destruct (zget src (o_face o)) as [sv|] eqn:El; [|easy]. exists sv. split; [eapply zget_In; eauto|eapply zget_In; eauto].
      - exists pes. split; auto. rewrite Ew. f_equal. apply map_ext_in. intros ((n, i), o) Hin. apply In_order in Hin. destruct Hin as (Hi & Eo & Hh).
        destruct (source_get i o Hi (dest_zget _ _ _ Eo) Hh) as (v & -> & _ & ->). reflexivity.
    Qed.
  End Field.
End Fields.

(** ** Fractions *)
Section Frac.
  Variables (z : input) (near : kind -> Z -> Z * Z).
  Hypothesis Hwf : wf_input z.
  Hypothesis Hroom : room z.
  Hypothesis Hnear : nearest_map z near.

  Lemma filter_kind k i : filter (fun o => same_kind k (o_kind o)) (dest_tiles z near i) = tiles_of_kind z near i k.
  Proof.
    unfold dest_tiles. cbn [flat_map]. rewrite app_nil_r, !filter_app.
    assert (forall k', filter (fun o => same_kind k (o_kind o)) (tiles_of_kind z near i k') = if same_kind k k' then tiles_of_kind z near i k' else []) as E.
    { intros k'. apply filter_const. intros o Ho. now rewrite (kind_of z near k' i o Ho). }
    rewrite !E. destruct k; cbn; now rewrite ?app_nil_r.
  Qed.
  Lemma frac_sum k i : 0 <= i < ncell_dst z -> present z k = true ->
    (k = Soil -> cold_entries z Soil i <> [] -> forall f, zget (i_files z) (fst (near Soil i)) = Some f -> sum_over f (source_entries z Soil (fst (near Soil i)) (snd (near Soil i))) <> 0%R) ->
    rsum (dest_frac z near i) (filter (fun o => same_kind k (o_kind o)) (dest_tiles z near i)) = sum_over (i_cold z) (cold_entries z k i).
  Proof.
    intros Hi Hp Hs. rewrite filter_kind. unfold tiles_of_kind. destruct (cold_entries z k i) as [|c0 cs] eqn:Ec; [reflexivity|]. rewrite Hp.
    pose proof (Hnear k i Hi Hp ltac:(now rewrite Ec)) as (N1 & N2 & N3 & _).
    destruct Hwf as (_ & _ & _ & _ & _ & _ & _ & Lf & _). rewrite rsum_map.
    destruct (zget (i_files z) (fst (near k i))) as [f|] eqn:Ef; [|apply zget_None_range in Ef; lia].
    assert (k = Soil \/ k <> Soil) as [->|Hk] by (destruct k; auto; right; easy).
    - specialize (Hs eq_refl ltac:(now rewrite Ec) f Ef). unfold dest_frac. cbn [o_kind o_face o_entry]. rewrite Ef. rewrite Ec.
      set (L := source_entries z Soil (fst (near Soil i)) (snd (near Soil i))) in *.
      rewrite (rsum_ext _ (fun x => (sum_over (i_cold z) (c0 :: cs) / sum_over f L) * frac_at f x)%R) by (intros; unfold Rdiv; ring).
      rewrite rsum_scal. fold (sum_over f L). field. exact Hs.
    - destruct Hroom as (_ & _ & HR). destruct (HR k Hk Hp) as (R1 & R2). specialize (R1 (fst (near k i)) (snd (near k i))).
      destruct (source_entries z k (fst (near k i)) (snd (near k i))) as [|e [|e2 L]]; [easy| |rewrite !zlen_cons in R1; pose proof (zlen_nonneg L); lia].
      rewrite rsum_cons, rsum_nil. unfold dest_frac. cbn [o_kind]. destruct k; [easy| |]; rewrite Ec; lra.
  Qed.
End Frac.
