(** * Proofs about remap_land: all processors, writing the fields *)
From Coq Require Import Reals Lra.
From Verif Require Import Base Loops Lst Vec Grid2 M_Interp M_Runoff M_Extent M_RemapLand Spec_Interp P_Interp P_Interp2 P_Runoff P_Extent Spec_RemapLand P_RemapLand P_RemapLand2 P_RemapLand3 P_RemapLand4 P_RemapLand5.
Open Scope Z_scope.

Lemma flat_map_zget {A B} (g : A -> list B) L N : zlen L <= N -> flat_map (fun n => match zget L n with Some o => g o | None => [] end) (zseq 0 N) = flat_map g L.
Proof.
  intros H. pose proof (zlen_nonneg L) as H0. replace N with (zlen L + (N - zlen L)) by lia. rewrite zseq_app by lia. rewrite flat_map_app.
  rewrite (flat_map_empty _ (zseq (0 + zlen L) (N - zlen L))).
  2: { intros x Hx. apply In_zseq in Hx. destruct (zget L x) eqn:E; auto. apply zget_Some_range in E. lia. }
  rewrite app_nil_r. rewrite !flat_map_concat_map. f_equal. apply map_zseq_list. intros l e ->. reflexivity.
Qed.
Lemma zget_concat {A} (src : list (list A)) f v p : zget src f = Some v -> 0 <= p < zlen v ->
  zget (concat src) (start_pos (map zlen src) f + p) = zget v p.
Proof.
  intros Hf Hp. unfold start_pos. pose proof (zget_Some_range _ _ _ Hf) as Hr. unfold zget in Hf. destruct (Z.ltb_spec f 0); [lia|]. clear Hr H. revert f Hf.
  assert (forall n (s : list (list A)), nth_error s n = Some v -> zget (concat s) (fold_right Z.add 0 (firstn n (map zlen s)) + p) = zget v p) as Hn.
  { induction n as [|n IH]; intros [|x s] H; try discriminate; cbn [concat map firstn fold_right].
    - inversion H; subst. rewrite Z.add_0_l. apply zget_app_l. lia.
    - rewrite zget_app_r.
      + replace (zlen x + fold_right Z.add 0 (firstn n (map zlen s)) + p - zlen x) with (fold_right Z.add 0 (firstn n (map zlen s)) + p) by lia. apply IH. exact H.
      + assert (forall m (q : list (list A)), 0 <= fold_right Z.add 0 (firstn m (map zlen q))) as H0.
        { induction m as [|m IHm]; intros [|y q]; cbn; try lia. specialize (IHm q). pose proof (zlen_nonneg y). lia. }
        specialize (H0 n s). lia. }
  intros f Hf. now apply Hn.
Qed.
Lemma ofold_map {A B} (h : A -> outcome B) (v : A -> B) l acc : (forall d, In d l -> h d = Ok (v d)) ->
  ofold (fun out d => do x <- h d ; Ok (out ++ [x])) l acc = Ok (acc ++ map v l).
Proof.
  revert acc. induction l as [|d l IH]; intros acc H; cbn [ofold map]; [now rewrite app_nil_r|]. rewrite H by (cbn; auto). cbn [bind].
  rewrite IH by (intros; apply H; cbn; auto). now rewrite <- app_assoc.
Qed.
Lemma ofold_ext {S A} (f g : S -> A -> outcome S) l s : (forall s a, f s a = g s a) -> ofold f l s = ofold g l s.
Proof. intros H. revert s. induction l as [|a l IH]; intros s; cbn; auto. rewrite H. destruct (g s a); cbn; auto. Qed.
Lemma fields_map {A B} (f : A -> B) g w h F : fields g w h F -> fields (map f g) w h (fun x y => f (F x y)).
Proof. intros (L & H). split; [now rewrite zlen_map|]. intros x y Hx Hy. rewrite zget_map, H by lia. reflexivity. Qed.
Lemma fields_In {A} (g : list A) w h F d : 0 < w -> fields g w h F -> In d g -> exists x y, 0 <= x < w /\ 0 <= y < h /\ d = F x y.
Proof.
  intros Hw (L & H) Hd. destruct (In_zget _ _ Hd) as (m & Hm & E). exists (m mod w), (m / w). pose proof (Z.mod_pos_bound m w Hw).
  assert (0 <= m / w < h) as Hq by (split; [apply Z.div_pos; lia|apply Z.div_lt_upper_bound; lia]). split; [lia|]. split; auto.
  specialize (H (m mod w) (m / w) ltac:(lia) Hq). replace (m / w * w + m mod w) with m in H by (pose proof (Z.div_mod m w); lia). congruence.
Qed.
Lemma windows (f : Z -> Z) n : 0 <= n -> (forall j, 0 <= j < n -> f j <= f (j + 1)) -> flat_map (fun p => zseq (f p) (f (p + 1) - 1 - f p + 1)) (zseq 0 n) = zseq (f 0) (f n - f 0).
Proof.
  intros Hn. pattern n. apply natlike_ind; auto.
  - intros _. cbn. now rewrite Z.sub_diag.
  - intros m Hm IH H. unfold Z.succ. rewrite zseq_snoc by lia. rewrite flat_map_app, IH by (intros; apply H; lia). cbn [flat_map]. rewrite app_nil_r, Z.add_0_l.
    assert (f 0 <= f m) as H0.
    { clear IH. revert H. pattern m. apply natlike_ind; auto; [lia|]. intros q Hq IHq Hf. specialize (IHq ltac:(intros; apply Hf; lia)). pose proof (Hf q ltac:(lia)). unfold Z.succ. lia. }
    pose proof (H m ltac:(lia)). replace (f (m + 1) - f 0) with (f m - f 0 + (f (m + 1) - 1 - f m + 1)) by lia. rewrite (zseq_app (f 0) (f m - f 0)) by lia. f_equal. f_equal. lia.
Qed.

Section All.
  Variables (ft : ftype) (z : input) (near : kind -> Z -> Z * Z).
  Hypothesis Hwf : wf_input z.
  Hypothesis Hroom : room z.
  Hypothesis Hnear : nearest_map z near.
  Hypothesis Hfits : fits z near.
  Let N := ncell_dst z.

  Definition cell_slots (i : Z) : list dtile := map (dth ft z near i) (dest_tiles z near i).
  Definition pe_ok (r : pe_result) : Prop :=
    0 <= r_isc r /\ 0 <= r_nxc r /\ r_isc r + r_nxc r <= N /\ vec (r_count r) (r_nxc r) (fun i => zlen (dest_tiles z near (r_isc r + i))) /\
    fields (r_tiles r) (i_ntile z) (r_nxc r) (fun k i => slot (cell_slots (r_isc r + i)) k) /\
    r_nidx r = zlen (flat_map (fun i => filter (held ft) (dest_tiles z near i)) (zseq (r_isc r) (r_nxc r))).

  Lemma all_pes_run npes : 1 <= npes <= N -> exists pes, all_pes ft z npes = Ok pes /\
    flat_map (fun r => zseq (r_isc r) (r_nxc r)) pes = zseq 0 N /\ forall r, In r pes -> pe_ok r.
  Proof.
    intros Hn. unfold all_pes. fold (ncell_dst z). fold N.
    destruct (compute_extent_spec N npes (repeat 0 (Z.to_nat npes)) (repeat 0 (Z.to_nat npes)) Hn) as (ib & ie & E & HE); try (rewrite zlen_repeat; lia).
    rewrite E. cbn [bind]. set (f := start_of N npes).
    assert (forall j, 0 <= j < npes -> f j <= f (j + 1)) as Hmono.
    { intros j Hj. pose proof (start_of_mono N npes j (j + 1) Hn ltac:(lia) ltac:(lia)). unfold f. lia. }
    match goal with |- context [ofor 0 npes ?g ?s] => destruct (ofor_inv (fun p acc =>
       flat_map (fun r => zseq (r_isc r) (r_nxc r)) acc = flat_map (fun p => zseq (f p) (f (p + 1) - 1 - f p + 1)) (zseq 0 p) /\ forall r, In r acc -> pe_ok r) g 0 npes s ltac:(lia)) as (pes & Ep & H1 & H2) end.
    - split; [reflexivity|easy].
    - intros p acc Hp (H1 & H2). rewrite Z.add_0_l in Hp. destruct (HE p Hp) as (B1 & B2).
      rewrite (proj2 (oget_Ok _ _ _) B1). cbn [bind]. rewrite (proj2 (oget_Ok _ _ _) B2). cbn [bind]. fold f.
      pose proof (start_of_mono N npes 0 p Hn ltac:(lia) ltac:(lia)) as M1. rewrite start_of_0 in M1 by auto. fold f in M1.
      pose proof (start_of_mono N npes (p + 1) npes Hn ltac:(lia) ltac:(lia)) as M2. rewrite start_of_d in M2 by auto. fold f in M2.
      pose proof (Hmono p Hp) as M3.
      destruct (one_pe_run ft z Hwf Hroom (f p) (f (p + 1) - 1) ltac:(lia) ltac:(lia) ltac:(unfold N in *; lia) near Hnear Hfits) as (lc & tiles & nidx & E1 & P1 & P2 & P3).
      rewrite E1. cbn [bind]. eexists; split; [reflexivity|]. split.
      + rewrite flat_map_app, H1, zseq_snoc by lia. rewrite flat_map_app. cbn [flat_map r_isc r_nxc]. rewrite Z.add_0_l. reflexivity.
      + intros r Hr. apply in_app_or in Hr. destruct Hr as [Hr|[<-|[]]]; auto. unfold pe_ok. cbn [r_isc r_nxc r_count r_tiles r_nidx]. repeat split; try lia; try apply P1; try apply P2; auto.
    - rewrite Ep. eexists; split; [reflexivity|]. split; auto. rewrite H1, Z.add_0_l, windows by (auto; lia). unfold f. rewrite start_of_0, start_of_d by auto. f_equal. lia.
  Qed.

  Section Write.
    Context {A : Type}.
    Variables (is_fill : A -> bool) (init global : option A) (values : pe_result -> outcome (list A)) (val : Z -> Z -> dtile -> A).
    Hypothesis Hval : forall r, pe_ok r -> exists d, values r = Ok d /\ fields d (i_ntile z) (r_nxc r) (fun n i => val n (r_isc r + i) (slot (cell_slots (r_isc r + i)) n)).
    Hypothesis Hno : forall n i, is_fill (val n i no_dtile) = true.

    (** What is written for a tile. *)
    Definition cell_out (n i : Z) (o : origin) : list (option A) :=
      if held ft o then
        if is_fill (val n i (dt ft z near i o)) then if use_all_tile ft then [init] else [] else [Some (val n i (dt ft z near i o))]
      else [].
    Definition row_out (n i : Z) : list (option A) := match zget (dest_tiles z near i) n with Some o => cell_out n i o | None => [] end.

    Lemma all_held o : use_all_tile ft = true -> held ft o = true.
    Proof. unfold held. destruct ft; cbn; intros; try discriminate; destruct (o_kind o); reflexivity. Qed.

    Lemma emit_out n i : 0 <= n -> emit is_fill init (use_all_tile ft) (fun i => zlen (dest_tiles z near i)) (fun n i => val n i (slot (cell_slots i) n)) n i = row_out n i.
    Proof.
      intros Hn. unfold emit, row_out. destruct (Z.ltb_spec n (zlen (dest_tiles z near i))) as [Hl|Hl].
      - destruct (zget (dest_tiles z near i) n) as [o|] eqn:E; [|apply zget_None_range in E; lia].
        assert (slot (cell_slots i) n = dth ft z near i o) as -> by (unfold slot, cell_slots; rewrite zget_map, E; reflexivity).
        unfold cell_out, dth. change (holds ft (o_kind o)) with (held ft o). destruct (held ft o) eqn:Eh; auto. rewrite Hno. destruct (use_all_tile ft) eqn:Eu; auto.
        apply (all_held o) in Eu. congruence.
      - destruct (zget (dest_tiles z near i) n) eqn:E; auto. apply zget_Some_range in E. lia.
    Qed.

    Lemma row_len i : 0 <= i < N -> zlen (flat_map (fun n => row_out n i) (zseq 0 (i_ntile z))) <= zlen (filter (held ft) (dest_tiles z near i)).
    Proof.
      intros Hi. pose proof (Hfits i Hi) as HF. unfold row_out.
      assert (forall n o, zlen (cell_out n i o) <= if held ft o then 1 else 0) as Hc.
      { intros n o. unfold cell_out. destruct (held ft o); [|cbn; lia]. destruct (is_fill _); [destruct (use_all_tile ft)|]; cbn; lia. }
      etransitivity; [|apply Z.eq_le_incl; apply (f_equal zlen); apply (eq_trans (flat_map_zget (fun o => if held ft o then [o] else []) _ _ HF))].
      - induction (zseq 0 (i_ntile z)) as [|n l IH]; [cbn; lia|]. cbn [flat_map]. rewrite !zlen_app. destruct (zget (dest_tiles z near i) n) as [o|]; [|cbn [zlen length] in *; change (zlen (@nil (option A))) with 0; change (zlen (@nil origin)) with 0; lia].
        specialize (Hc n o). destruct (held ft o); [change (zlen [o]) with 1|change (zlen (@nil origin)) with 0]; lia.
      - clear. induction (dest_tiles z near i) as [|o l IH]; cbn; auto. rewrite IH. destruct (held ft o); reflexivity.
    Qed.

    Definition file_rows : list (option A) := flat_map (fun n => flat_map (row_out n) (zseq 0 N)) (zseq 0 (i_ntile z)).
    Definition held_total : Z := zlen (flat_map (fun i => filter (held ft) (dest_tiles z near i)) (zseq 0 N)).

    Lemma write_all npes : 1 <= npes <= N -> exists pes, all_pes ft z npes = Ok pes /\
      write ft z is_fill init global values pes = Ok (file_rows ++ repeat global (Z.to_nat (held_total - zlen file_rows))).
    Proof.
      intros Hn. destruct (all_pes_run npes Hn) as (pes & E & Hw & Hp). exists pes. split; auto. destruct Hwf as (_ & _ & _ & _ & _ & Wt & _).
      assert (forall win, (forall i, In i win -> 0 <= i < N) -> zlen (flat_map (fun i => flat_map (fun n => row_out n i) (zseq 0 (i_ntile z))) win) <= zlen (flat_map (fun i => filter (held ft) (dest_tiles z near i)) win)) as HL.
      { induction win as [|i win IH]; intros H; cbn [flat_map]; [cbn; lia|]. rewrite !zlen_app. pose proof (row_len i (H i (or_introl eq_refl))). specialize (IH ltac:(intros; apply H; cbn; auto)). lia. }
      rewrite (write_run ft z is_fill init global values pes N (fun i => zlen (dest_tiles z near i)) (fun n i => val n i (slot (cell_slots i) n))); auto; [|lia|].
      - f_equal.
        assert (flat_map (fun n => flat_map (emit is_fill init (use_all_tile ft) (fun i => zlen (dest_tiles z near i)) (fun n i => val n i (slot (cell_slots i) n)) n) (zseq 0 N)) (zseq 0 (i_ntile z)) = file_rows) as ->.
        { apply flat_map_ext_in. intros n Hin. apply In_zseq in Hin. apply flat_map_ext_in. intros i _. apply emit_out. lia. }
        f_equal. f_equal. f_equal. f_equal. unfold held_total. rewrite <- Hw. rewrite flat_map_nested. clear Hw E.
        induction pes as [|r q IH]; cbn [map fold_right flat_map]; [reflexivity|]. rewrite zlen_app, IH by (intros; apply Hp; cbn; auto).
        destruct (Hp r (or_introl eq_refl)) as (_ & _ & _ & _ & _ & ->). reflexivity.
      - intros r Hr. destruct (Hp r Hr) as (P1 & P2 & P3 & P4 & P5 & P6). split; auto. split; auto. split; [apply Hval; auto|]. rewrite P6.
        etransitivity; [|apply HL; intros i Hi; apply In_zseq in Hi; lia]. apply Z.eq_le_incl. f_equal. apply flat_map_ext_in. intros i _.
        apply flat_map_ext_in. intros n Hin. apply In_zseq in Hin. apply emit_out. lia.
    Qed.

    (** No value is taken for a missing one. *)
    Hypothesis Hgood : forall n i o, 0 <= i < N -> zget (dest_tiles z near i) n = Some o -> held ft o = true ->
      is_fill (val n i (dt ft z near i o)) = false \/ use_all_tile ft = true /\ init = Some (val n i (dt ft z near i o)).

    Lemma write_good npes : 1 <= npes <= N -> exists pes, all_pes ft z npes = Ok pes /\
      write ft z is_fill init global values pes = Ok (map (fun '(n, i, o) => Some (val n i (dt ft z near i o))) (file_order ft z near)).
    Proof.
      intros Hn. destruct (write_all npes Hn) as (pes & E & Ew). exists pes. split; auto. rewrite Ew. f_equal.
      assert (forall n i, In i (zseq 0 N) -> row_out n i = match zget (dest_tiles z near i) n with Some o => if held ft o then [Some (val n i (dt ft z near i o))] else [] | None => [] end) as Er.
      { intros n i Hi. apply In_zseq in Hi. unfold row_out. destruct (zget (dest_tiles z near i) n) as [o|] eqn:Eo; auto. unfold cell_out. destruct (held ft o) eqn:Eh; auto.
        destruct (Hgood n i o ltac:(lia) Eo Eh) as [->|(-> & ->)]; auto. now destruct (is_fill _). }
      assert (file_rows = map (fun '(n, i, o) => Some (val n i (dt ft z near i o))) (file_order ft z near)) as ->.
      { unfold file_order. rewrite map_flat_map. apply flat_map_ext_in. intros n _. rewrite map_flat_map. fold N. apply flat_map_ext_in. intros i Hi. rewrite Er by auto.
        destruct (zget (dest_tiles z near i) n) as [o|]; auto. change (holds ft (o_kind o)) with (held ft o). now destruct (held ft o). }
      rewrite zlen_map. replace (held_total - zlen (file_order ft z near)) with 0; [cbn; apply app_nil_r|].
      symmetry. apply Z.sub_move_0_r. unfold held_total, file_order. rewrite (flat_map_swap_len (fun n i => match zget (dest_tiles z near i) n with Some o => if holds ft (o_kind o) then [(n, i, o)] else [] | None => [] end)).
      fold N. assert (forall win, (forall i, In i win -> 0 <= i < N) -> zlen (flat_map (fun i => filter (held ft) (dest_tiles z near i)) win) =
        zlen (flat_map (fun i => flat_map (fun n => match zget (dest_tiles z near i) n with Some o => if holds ft (o_kind o) then [(n, i, o)] else [] | None => [] end) (zseq 0 (i_ntile z))) win)) as HL.
      { induction win as [|i win IH]; intros H; cbn [flat_map]; auto. rewrite !zlen_app, IH by (intros; apply H; cbn; auto). f_equal.
        pose proof (Hfits i (H i (or_introl eq_refl))) as HF. transitivity (zlen (flat_map (fun o => if held ft o then [o] else []) (dest_tiles z near i))).
        - f_equal. clear. induction (dest_tiles z near i) as [|o l IH]; cbn; auto. rewrite IH. destruct (held ft o); reflexivity.
        - rewrite <- (flat_map_zget _ _ _ HF). clear. induction (zseq 0 (i_ntile z)) as [|n l IH]; cbn [flat_map]; auto. rewrite !zlen_app, IH. f_equal.
          destruct (zget (dest_tiles z near i) n) as [o|]; auto. change (holds ft (o_kind o)) with (held ft o). now destruct (held ft o). }
      apply HL. intros i Hi. apply In_zseq in Hi. lia.
    Qed.
  End Write.
End All.
