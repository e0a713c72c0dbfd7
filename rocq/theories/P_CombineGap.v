(** * Proofs: mppnccombine on a set of pieces some of which are not there *)
From Verif Require Import Base Loops Spec_Hyperslab Shape Spec_Combine P_Assemble M_Combine P_Combine Spec_CombineSet P_CombineSet P_CombineRun P_CombineMain Spec_CombineGap.

(** The places of the missing files are taken by a file without elements of
    decomposed variables: it changes nothing. *)
Section Filler.
  Context {A : Type} (zero : A) (S : cset) (HS : set_ok S) (n : Z).
  Definition filler_dim (id : Z) : rawdim :=
    if dec_of S id then {| rd_len := 0; rd_decomp := Some (1, full_of S id, 1, 0) |}
    else {| rd_len := full_of S id; rd_decomp := None |}.
  Definition filler_var (v : svar) : @ivar A :=
    {| v_dims := sv_ids S v; v_coord := sv_coord v; v_miss := None;
       v_data := fun _ => Some (repeat zero (Z.to_nat (size (map (fun id => rd_len (filler_dim id)) (sv_nd v))))) |}.
  Definition filler : @infile A :=
    {| in_nfiles := Some n; in_rec := s_rec S; in_dims := map filler_dim (zseq 0 (zlen (s_full S)));
       in_vars := map filler_var (s_vars S) |}.

  Lemma full_of_nonneg id : 0 <= full_of S id.
  Proof.
    unfold full_of. destruct (zget (s_full S) id) as [x|] eqn:E; [|lia].
    pose proof (so_full S HS) as HF. rewrite Forall_forall in HF. apply HF. eapply zget_In; eauto.
  Qed.
  Lemma filler_dims id : 0 <= id < zlen (s_full S) -> zget (in_dims filler) id = Some (filler_dim id).
  Proof. intros H. cbn. rewrite zget_map, zget_zseq by lia. cbn. reflexivity. Qed.
  Lemma filler_len id : 0 <= id < zlen (s_full S) -> len_in filler id = rd_len (filler_dim id).
  Proof. intros H. unfold len_in. now rewrite filler_dims. Qed.
  Lemma filler_lens v : In v (s_vars S) -> map (len_in filler) (sv_nd v) = map (fun id => rd_len (filler_dim id)) (sv_nd v).
  Proof. intros Hv. apply map_ext_in. intros id Hid. apply filler_len. apply (so_ids S HS v id Hv Hid). Qed.

  Lemma filler_piece : piece S n filler.
  Proof.
    constructor; auto.
    - split.
      + cbn. rewrite zlen_map, zlen_zseq; auto. apply zlen_nonneg.
      + intros id rd E. assert (Hid : 0 <= id < zlen (s_full S)).
        { apply zget_Some_range in E. cbn in E. rewrite zlen_map, zlen_zseq in E; auto. apply zlen_nonneg. }
        rewrite filler_dims in E by auto. injection E as <-. pose proof (full_of_nonneg id).
        unfold dim_piece, filler_dim. destruct (dec_of S id) eqn:Ed; cbn [rd_decomp rd_len]; [|auto]. repeat split; auto; lia.
    - cbn. assert (K : forall l, (forall v, In v l -> In v (s_vars S)) -> Forall2 (var_piece S filler) l (map filler_var l)).
      { induction l as [|v l IH]; intros Hl; cbn [map]; constructor; [|apply IH; intros; apply Hl; simpl; auto].
        split; [reflexivity|]. split; [reflexivity|]. intros r _. eexists. split; [reflexivity|].
        rewrite zlen_repeat. rewrite filler_lens by (apply Hl; simpl; auto).
        assert (0 <= size (map (fun id => rd_len (filler_dim id)) (sv_nd v))); [|lia].
        apply size_nonneg. apply Forall_map, Forall_forall. intros id _. unfold filler_dim. pose proof (full_of_nonneg id).
        destruct (dec_of S id); cbn; lia. }
      apply K. auto.
  Qed.

  Lemma valid_zero dims idx : valid dims idx -> ~ In 0 dims.
  Proof. induction 1 as [|d i ds idx Hd Hv IH]; intros H; [destruct H|]. destruct H as [->|H]; [lia|auto]. Qed.

  Lemma filler_void : void S filler.
  Proof.
    intros vn v r Ev Ed Hr g [idx [V _]]. cbn in V. assert (Hv : In v (s_vars S)) by (eapply zget_In; eauto).
    unfold tilev, piece_tile in V. cbn [t_count] in V. rewrite filler_lens in V by auto.
    apply valid_zero in V. apply V. unfold sv_dec in Ed. apply existsb_exists in Ed. destruct Ed as (id & Hid & Hd).
    apply in_map_iff. exists id. split; auto. unfold filler_dim. now rewrite Hd.
  Qed.
End Filler.

(** ** Tiles that cover nothing do not matter *)
Section Drop.
  Context {A : Type}.
  Notation tile := (@tile A).
  Context (e : tile) (He : forall g, ~ covers e g).
  Definition fillt (o : option tile) : tile := match o with Some t => t | None => e end.

  Lemma present_split {X} (l : list (option X)) t1 t t2 : present l = t1 ++ t :: t2 ->
    exists l1 l2, l = l1 ++ Some t :: l2 /\ present l1 = t1 /\ present l2 = t2.
  Proof.
    revert t1. induction l as [|[x|] l IH]; intros t1 E; cbn in E.
    - destruct t1; discriminate.
    - destruct t1 as [|y t1]; cbn in E; injection E as -> E.
      + exists [], l. auto.
      + destruct (IH t1 E) as (l1 & l2 & -> & E1 & E2). exists (Some y :: l1), l2. split; auto. split; auto. unfold present in *. cbn. now rewrite E1.
    - destruct (IH t1 E) as (l1 & l2 & -> & E1 & E2). exists (None :: l1), l2. auto.
  Qed.
  Lemma present_in {X} (l : list (option X)) x : In x (present l) <-> In (Some x) l.
  Proof.
    unfold present. rewrite in_flat_map. split.
    - intros ([y|] & Hy & Hx); cbn in Hx; [destruct Hx as [->|[]]; auto|destruct Hx].
    - intros H. exists (Some x). split; auto. now left.
  Qed.
  Lemma covers_fillt l g : (forall t, In t (present l) -> ~ covers t g) -> forall t, In t (map fillt l) -> ~ covers t g.
  Proof.
    intros H t Ht. apply in_map_iff in Ht. destruct Ht as ([x|] & <- & Hx); cbn; [|apply He].
    apply H. now apply present_in.
  Qed.

  Lemma assembled_drop full fill (l : list (option tile)) out :
    assembled full (map fillt l) fill out -> assembled full (present l) fill out.
  Proof.
    intros (L & A1 & A2). split; auto. split.
    - intros t1 t t2 g idx E Ha Hc. destruct (present_split _ _ _ _ E) as (l1 & l2 & -> & E1 & E2).
      apply (A1 (map fillt l1) t (map fillt l2) g idx); auto.
      + now rewrite map_app.
      + apply covers_fillt. now rewrite E2.
    - intros g Hg Hc. apply A2; auto. now apply covers_fillt.
  Qed.
End Drop.

Lemma present_map {X Y} (f : X -> Y) l : present (map (option_map f) l) = map f (present l).
Proof. induction l as [|[x|] l IH]; auto. unfold present in *; cbn; now rewrite IH. Qed.
Lemma present_app {X} (l1 l2 : list (option X)) : present (l1 ++ l2) = present l1 ++ present l2.
Proof. apply flat_map_app. Qed.
Lemma present_none {X} m : present (repeat (@None X) m) = [].
Proof. induction m; auto. Qed.

Lemma Forall2_impl_strong {X Y} (P Q : X -> Y -> Prop) l1 l2 : (forall x y, In x l1 -> P x y -> Q x y) -> Forall2 P l1 l2 -> Forall2 Q l1 l2.
Proof. intros H HF. induction HF; constructor; auto; [apply H; simpl; auto|]. apply IHHF. intros. apply H; simpl; auto. Qed.

Lemma slots_in S vn v r : In (vn, v, r) (slots S) -> zget (s_vars S) vn = Some v /\ has_record S v r.
Proof.
  intros Hin. unfold slots in Hin. apply in_flat_map in Hin. destruct Hin as (r' & Hr & Hin).
  apply in_map_iff in Hin. destruct Hin as ([vn' v'] & E & Hin). injection E as -> -> ->. apply filter_In in Hin. destruct Hin as [Hin Ha].
  cbn [snd] in Ha. apply In_zseq in Hr. split.
  - unfold svnums in Hin. apply In_zget in Hin. destruct Hin as (j & _ & Ej).
    assert (forall (l : list svar) lo j p, zget (combine (zseq lo (zlen l)) l) j = Some p -> fst p = lo + j /\ zget l j = Some (snd p)) as K.
    { clear. induction l as [|a l IHl]; intros lo j p Hj.
      - cbn in Hj. now rewrite zget_nil in Hj.
      - rewrite zlen_cons, zseq_S in Hj by (pose proof (zlen_nonneg l); lia). cbn [combine] in Hj.
        destruct (Z.eq_dec j 0) as [->|Hj0].
        + rewrite zget_cons_0 in Hj. injection Hj as <-. cbn [fst snd]. rewrite zget_cons_0. split; [lia|auto].
        + pose proof (zget_Some_range _ _ _ Hj). rewrite zget_cons_pos in Hj by lia. rewrite zget_cons_pos by lia.
          replace (zlen l + 1 - 1) with (zlen l) in Hj by lia. replace (1 + zlen l - 1) with (zlen l) in Hj by lia.
          apply IHl in Hj. destruct Hj. split; auto. lia. }
    apply K in Ej. cbn [fst snd] in Ej. destruct Ej as [-> Ej]. exact Ej.
  - unfold has_record. destruct (sv_rec v); cbn in Ha; lia.
Qed.

(** ** The run *)
Section Forced.
  Context {A : Type} (zero : A) (S : cset) (HS : set_ok S) (n : Z).
  Notation infile := (@infile A).
  Context (first : infile) (others : list (option infile)).
  Let places := Some first :: others.
  Context (HF : Forall (piece S n) (present places)) (Hlen : zlen places <= n).
  Context (o : copts) (fs : @fsys A) (nargs : Z).

  Let fill (p : option infile) : infile := match p with Some fi => fi | None => filler zero S n end.
  Let padded : list (option infile) := others ++ repeat None (Z.to_nat (n - zlen places)).
  Let rest : list infile := map fill padded.
  Let gap (i : Z) : bool := match zget places i with Some None => true | _ => false end.

  Lemma len_files : zlen (first :: rest) = n.
  Proof.
    unfold rest, padded. rewrite zlen_cons, zlen_map, zlen_app, zlen_repeat. unfold places in *. rewrite zlen_cons in *.
    pose proof (zlen_nonneg others). lia.
  Qed.

  Lemma files_pieces : Forall (piece S n) (first :: rest).
  Proof.
    constructor; [inversion HF; auto|]. unfold rest. apply Forall_map, Forall_forall. intros [fi|] Hin; cbn; [|apply filler_piece; auto].
    rewrite Forall_forall in HF. apply HF. unfold places. apply present_in. right. unfold padded in Hin. apply in_app_or in Hin.
    destruct Hin as [Hin|Hin]; auto. apply repeat_spec in Hin. discriminate.
  Qed.

  Lemma files_get i : zget (first :: rest) i = option_map fill (zget (Some first :: padded) i).
  Proof. replace (first :: rest) with (map fill (Some first :: padded)) by reflexivity. apply zget_map. Qed.
  Lemma padded_get i : i < zlen places -> zget (Some first :: padded) i = zget places i.
  Proof.
    intros Hi. unfold places, padded in *. rewrite app_comm_cons. rewrite zget_app_l; auto.
  Qed.
  Lemma padded_none i p : zlen places <= i -> zget (Some first :: padded) i = Some p -> p = None.
  Proof.
    intros Hi E. unfold places, padded in *. rewrite app_comm_cons in E. rewrite zget_app_r in E by lia.
    apply zget_In in E. now apply repeat_spec in E.
  Qed.

  Lemma gaps_exists : gaps gap (zlen places) = true <-> In None places.
  Proof.
    unfold gaps. rewrite existsb_exists. split.
    - intros (i & Hi & Hg). unfold gap in Hg. destruct (zget places i) as [[?|]|] eqn:E; try discriminate. eapply zget_In; eauto.
    - intros H. apply In_zget in H. destruct H as (i & Hi & E). exists i. split; [apply In_zseq; lia|]. unfold gap. now rewrite E.
  Qed.

  Lemma forced_ok : o_append o = false -> (In None places -> o_force o = true) -> supplied_partly o fs nargs n places ->
    exists r, main zero wok 0 o fs nargs false = Ok r /\ res_output r = true
      /\ complete_output zero (o_missing o) S (present places) (res_log r)
      /\ (In None places -> res_code r = 1 /\ res_removed r = []) /\ (~ In None places -> res_code r = 0).
  Proof.
    intros Happ Hforce Hsup. pose proof len_files as Hn. pose proof files_pieces as HP. rewrite <- Hn in HP.
    assert (Hpos : 1 <= zlen places) by (unfold places; rewrite zlen_cons; pose proof (zlen_nonneg others); lia).
    assert (Hsp : forall i fi nm, i < zlen places -> zget (first :: rest) i = Some fi ->
       fs nm = option_map Some (match zget places i with Some p => p | None => None end) -> given fs gap i nm fi).
    { intros i fi nm Hi Ef En. unfold given, gap. rewrite En. rewrite files_get, padded_get in Ef by auto.
      destruct (zget places i) as [[q|]|]; cbn in *; congruence. }
    destruct (main_gen zero S HS first rest HP o fs nargs gap eq_refl) with (m := zlen places) as (r & E & C & O & L & R0 & R1); auto.
    - intros i Hg. apply Hforce. unfold gap in Hg. destruct (zget places i) as [[?|]|] eqn:E; try discriminate. eapply zget_In; eauto.
    - intros i fi Hg Ef. unfold gap in Hg. destruct (zget places i) as [[?|]|] eqn:E; try discriminate.
      pose proof (zget_Some_range _ _ _ E). rewrite files_get, padded_get, E in Ef by lia. cbn in Ef. injection Ef as <-. apply filler_void; auto.
    - lia.
    - intros j fi Hj Ef. rewrite files_get in Ef. destruct (zget (Some first :: padded) j) as [p|] eqn:E; [|discriminate].
      rewrite (padded_none j p Hj E) in Ef. cbn in Ef. injection Ef as <-. apply filler_void; auto.
    - assert (Hnum : forall w, (forall i p, zget places i = Some p -> fs (NNum w (o_start o + i)) = option_map Some p) ->
         (w = 4 \/ (w = 6 /\ fs (NNum 4 (o_start o)) = None)) -> numbered first rest o fs gap (zlen places) w).
      { intros w H1 H2. split; auto. intros i Hi. destruct (zget_in_range (first :: rest) i ltac:(lia)) as (fi & Ei). exists fi. split; auto.
        apply Hsp; auto; [lia|]. destruct (zget_in_range places i Hi) as (p & Ep). rewrite Ep. auto. }
      destruct Hsup as [[Hna Hf]|[(Hna & He & Hl & w & Hw1 & Hw2)|(Hna & (w & Hw1 & Hw2) & e & He & He0 & Hle)]].
      + left. split; auto. intros i fi Hi Ei. apply Hsp; auto. pose proof (zget_Some_range _ _ _ Ei).
        destruct (zget_in_range places i ltac:(lia)) as (p & Ep). rewrite Ep. auto.
      + right. left. repeat split; auto; [lia|]. exists w. auto.
      + right. right. split; auto. split; [exists w; auto|]. exists e. split; auto. split; auto. lia.
    - exists r. split; auto. split; auto. split.
      + destruct L as (l & Hperm & HL). exists l. split; auto. revert HL. apply Forall2_impl_strong.
        intros [[vn v] r0] w Hin HR. destruct HR as (W1 & W2 & W3 & f & rs & Ef & HR). injection Ef as <- <-.
        repeat (split; auto). exists first, (present others). split; [reflexivity|].
        destruct (sv_dec S v) eqn:Ed; auto.
        assert (Hv : zget (s_vars S) vn = Some v /\ has_record S v r0) by (apply slots_in; auto). destruct Hv as [Ev Hr].
        set (t := fun fi : infile => piece_tile v fi (data_of fi vn r0)) in *.
        replace (map t (present places)) with (present (map (option_map t) (Some first :: padded))).
        * apply (assembled_drop (t (filler zero S n))).
          -- apply (filler_void zero S HS n vn v r0 Ev Ed Hr).
          -- replace (map (fillt (t (filler zero S n))) (map (option_map t) (Some first :: padded))) with (map t (first :: rest)); auto.
             cbn [map option_map fillt]. f_equal. unfold rest. rewrite !map_map. apply map_ext. intros [x|]; reflexivity.
        * rewrite present_map. unfold padded, places. cbn [present flat_map app]. f_equal. rewrite flat_map_app.
          fold (present others). replace (flat_map _ (repeat None _)) with (@nil infile); [now rewrite app_nil_r|].
          symmetry. apply present_none.
      + rewrite C. split.
        * intros Hin. apply gaps_exists in Hin. rewrite Hin in *. auto.
        * intros Hin. destruct (gaps gap (zlen places)) eqn:Eg; auto. exfalso. apply Hin. now apply gaps_exists.
  Qed.
End Forced.
