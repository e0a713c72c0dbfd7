(** * Proofs: mppnccombine on a complete set of pieces *)
From Verif Require Import Base Loops Spec_Hyperslab Shape Spec_Combine P_Assemble M_Combine P_Combine Spec_CombineSet.

Lemma Forall2_zget {X Y} (R : X -> Y -> Prop) l1 l2 i x :
  Forall2 R l1 l2 -> zget l1 i = Some x -> exists y, zget l2 i = Some y /\ R x y.
Proof.
  intros H. revert i. induction H as [|a b l1 l2 Hab H IH]; intros i E.
  - rewrite zget_nil in E. discriminate.
  - pose proof (zget_Some_range _ _ _ E). destruct (Z.eq_dec i 0) as [->|].
    + rewrite zget_cons_0 in E. inversion E; subst. exists b. auto.
    + rewrite zget_cons_pos in E by lia. rewrite zget_cons_pos by lia. auto.
Qed.
Lemma Forall2_zlen {X Y} (R : X -> Y -> Prop) l1 l2 : Forall2 R l1 l2 -> zlen l1 = zlen l2.
Proof. induction 1; rewrite ?zlen_cons; auto. lia. Qed.

Lemma ofold_map {X Y S} (g : X -> Y) (f : S -> Y -> outcome S) l s :
  ofold f (map g l) s = ofold (fun s x => f s (g x)) l s.
Proof. revert s; induction l as [|x l IH]; intros s; simpl; auto. destruct (f s (g x)); simpl; auto. Qed.

Lemma combine_fst_zseq {X} (l : list X) lo : map fst (combine (zseq lo (zlen l)) l) = zseq lo (zlen l).
Proof.
  unfold zseq, zlen. rewrite Nat2Z.id. revert lo. induction l as [|x l IH]; intros lo; simpl; auto. f_equal. apply IH.
Qed.
Lemma combine_zseq_app {X} (l : list X) lo l1 (p : Z * X) l2 :
  combine (zseq lo (zlen l)) l = l1 ++ p :: l2 -> fst p = lo + zlen l1 /\ zget l (zlen l1) = Some (snd p).
Proof.
  unfold zseq, zlen at 1. rewrite Nat2Z.id. revert lo l1. induction l as [|x l IH]; intros lo l1 H.
  - destruct l1; discriminate.
  - simpl in H. destruct l1 as [|q l1]; simpl in H; inversion H; subst; clear H.
    + simpl. rewrite zlen_nil, zget_cons_0. split; [lia|auto].
    + destruct (IH (lo + 1) l1) as [E1 E2]; auto. rewrite zlen_cons. pose proof (zlen_nonneg l1).
      rewrite zget_cons_pos by lia. replace (1 + zlen l1 - 1) with (zlen l1) by lia. split; auto. lia.
Qed.

Section Set_.
  Context {A : Type} (zero : A) (missing : bool) (S : cset) (HS : set_ok S).
  Notation infile := (@infile A).

  Definition dim_of (fi : infile) (id : Z) : dimi :=
    match zget (in_dims fi) id with Some rd => dim_info rd | None => dim_info {| rd_len := 0; rd_decomp := None |} end.
  Definition rc_of (fi : infile) (v : svar) : option dimi := if sv_rec v then Some (dim_of fi (s_rec S)) else None.

  Section Piece.
    Context (n : Z) (fi : infile) (HP : piece S n fi).

    Lemma dim_get id : 0 <= id < zlen (s_full S) -> exists rd, zget (in_dims fi) id = Some rd /\ dim_piece S id rd.
    Proof.
      intros H. destruct HP as [_ _ [L D] _]. destruct (zget_in_range (in_dims fi) id ltac:(lia)) as [rd E].
      exists rd. eauto.
    Qed.
    Lemma dim_full id : 0 <= id < zlen (s_full S) -> dm_full (dim_of fi id) = full_of S id.
    Proof.
      intros H. destruct (dim_get id H) as (rd & E & D). unfold dim_of. rewrite E. unfold dim_piece in D. unfold dim_info.
      destruct (rd_decomp rd) as [[[[d0 d1] d2] d3]|]; cbn; lia.
    Qed.
    Lemma dim_start id : 0 <= id < zlen (s_full S) -> dm_start (dim_of fi id) - 1 = start_in fi id.
    Proof.
      intros H. destruct (dim_get id H) as (rd & E & D). unfold dim_of, start_in. rewrite E. unfold dim_info.
      destruct rd as [ln [[[[d0 d1] d2] d3]|]]; cbn; lia.
    Qed.
    Lemma dim_size id : 0 <= id < zlen (s_full S) -> dm_size (dim_of fi id) = len_in fi id.
    Proof.
      intros H. destruct (dim_get id H) as (rd & E & D). unfold dim_of, len_in. rewrite E. unfold dim_info.
      destruct rd as [ln [[[[d0 d1] d2] d3]|]]; cbn; lia.
    Qed.
    Lemma dim_end id : 0 <= id < zlen (s_full S) -> negb (dm_end (dim_of fi id) =? -1) = dec_of S id.
    Proof.
      intros H. destruct (dim_get id H) as (rd & E & D). unfold dim_of. rewrite E. unfold dim_piece in D. unfold dim_info.
      destruct (rd_decomp rd) as [[[[d0 d1] d2] d3]|]; cbn.
      - destruct D as (-> & D). lia.
      - destruct D as (-> & D). reflexivity.
    Qed.
    Lemma dim_range id : 0 <= id < zlen (s_full S) ->
      0 <= start_in fi id /\ 0 <= len_in fi id /\ start_in fi id + len_in fi id <= full_of S id
      /\ (dec_of S id = false -> start_in fi id = 0 /\ len_in fi id = full_of S id).
    Proof.
      intros H. destruct (dim_get id H) as (rd & E & D). unfold start_in, len_in. rewrite E. unfold dim_piece in D.
      destruct rd as [ln [[[[d0 d1] d2] d3]|]]; cbn in D |- *.
      - destruct D as (D0 & D). rewrite D0. repeat split; try lia; try discriminate.
      - destruct D as (D0 & D). rewrite D. assert (0 <= full_of S id).
        { unfold full_of. destruct (zget_in_range (s_full S) id H) as [x Ex]. rewrite Ex.
          pose proof (so_full S HS) as F. rewrite Forall_forall in F. apply F. eapply zget_In; eauto. }
        lia.
    Qed.

    Lemma rec_range v : In v (s_vars S) -> sv_rec v = true -> 0 <= s_rec S < zlen (s_full S).
    Proof. intros Hv Hr. pose proof (so_norec S HS v Hv Hr). destruct (so_rec S HS) as [[H0 _]|[H0 _]]; lia. Qed.

    Lemma vdims_ok v : In v (s_vars S) -> vdims fi (sv_ids S v) = Ok (mkds (rc_of fi v) (map (dim_of fi) (sv_nd v))).
    Proof.
      intros Hv. unfold vdims.
      assert (forall ids acc, (forall id, In id ids -> 0 <= id < zlen (s_full S)) ->
        ofold (fun (acc : list (bool * dimi)) (id : Z) => do rd <- oget (in_dims fi) id ; Ok (acc ++ [(id =? in_rec fi, dim_info rd)])) ids acc
        = Ok (acc ++ map (fun id => (id =? in_rec fi, dim_of fi id)) ids)) as K.
      { induction ids as [|id ids IH]; intros acc H; simpl.
        - now rewrite app_nil_r.
        - destruct (dim_get id (H id ltac:(simpl; auto))) as (rd & E & D). unfold oget at 1. rewrite E. cbn [bind].
          rewrite IH by (intros; apply H; simpl; auto). unfold dim_of at 2. rewrite E. rewrite <- app_assoc. reflexivity. }
      rewrite K. cbn [app].
      - f_equal. unfold sv_ids, mkds, rc_of. rewrite (pc_rec _ _ _ HP). rewrite map_app. f_equal.
        + destruct (sv_rec v); cbn; auto. now rewrite Z.eqb_refl.
        + rewrite map_map. apply map_ext_in. intros id Hid. destruct (so_ids S HS v id Hv Hid).
          destruct (Z.eqb_spec id (s_rec S)); [lia|auto].
      - intros id Hid. unfold sv_ids in Hid. apply in_app_or in Hid. destruct Hid as [Hid|Hid].
        + destruct (sv_rec v) eqn:Er; [|destruct Hid]. destruct Hid as [<-|[]]. eapply rec_range; eauto.
        + now apply (so_ids S HS v).
    Qed.

    Context (v : svar) (Hv : In v (s_vars S)).
    Notation nd := (map (dim_of fi) (sv_nd v)).
    Notation ds := (mkds (rc_of fi v) nd).
    Lemma nd_full_ok : nd_full nd = map (full_of S) (sv_nd v).
    Proof. unfold nd_full. rewrite map_map. apply map_ext_in. intros id Hid. apply dim_full. now apply (so_ids S HS v). Qed.
    Lemma nd_start_ok : nd_start nd = map (start_in fi) (sv_nd v).
    Proof. unfold nd_start. rewrite map_map. apply map_ext_in. intros id Hid. apply dim_start. now apply (so_ids S HS v). Qed.
    Lemma nd_count_ok : nd_count nd = map (len_in fi) (sv_nd v).
    Proof. unfold nd_count. rewrite map_map. apply map_ext_in. intros id Hid. apply dim_size. now apply (so_ids S HS v). Qed.
    Lemma nd_tile_ok vals : nd_tile nd vals = piece_tile v fi vals.
    Proof. unfold nd_tile, piece_tile. now rewrite nd_start_ok, nd_count_ok. Qed.

    Lemma existsb_ext_in {X} (f g : X -> bool) l : (forall x, In x l -> f x = g x) -> existsb f l = existsb g l.
    Proof. induction l; simpl; intros H; auto. rewrite H by auto. f_equal. auto. Qed.
    Lemma existsb_map {X Y} (f : Y -> bool) (g : X -> Y) l : existsb f (map g l) = existsb (fun x => f (g x)) l.
    Proof. induction l; simpl; auto. now rewrite IHl. Qed.

    Lemma vdecomp_ok : vdecomp ds = sv_dec S v.
    Proof.
      unfold vdecomp, mkds. rewrite existsb_app. rewrite map_map, existsb_map.
      assert (existsb (fun d : bool * dimi => negb (dm_end (snd d) =? -1)) (match rc_of fi v with Some d => [(true, d)] | None => [] end) = false) as ->.
      { unfold rc_of. destruct (sv_rec v) eqn:Er; auto. cbn.
        rewrite dim_end by (eapply rec_range; eauto). rewrite orb_false_r.
        pose proof (so_norec S HS v Hv Er). destruct (so_rec S HS) as [[H0 _]|[_ [_ H0]]]; [lia|auto]. }
      cbn [orb]. apply existsb_ext_in. intros id Hid. apply dim_end. now apply (so_ids S HS v).
    Qed.
    Lemma hasrec_ok : v_hasrec ds = sv_rec v.
    Proof.
      unfold v_hasrec, mkds. rewrite existsb_app, existsb_map. cbn.
      assert (existsb (fun _ : dimi => false) nd = false) as -> by (induction nd; auto).
      unfold rc_of. destruct (sv_rec v); reflexivity.
    Qed.
    Lemma recfull_ok : v_recfull ds = size (map (full_of S) (sv_nd v)).
    Proof.
      unfold v_recfull, mkds. rewrite fold_left_app.
      assert (fold_left (fun (p : Z) (d : bool * dimi) => if fst d then p else p * dm_full (snd d))
        (match rc_of fi v with Some d => [(true, d)] | None => [] end) 1 = 1) as -> by (destruct (rc_of fi v); reflexivity).
      rewrite <- nd_full_ok. generalize nd as l. intros l.
      assert (forall p, fold_left (fun (p : Z) (d : bool * dimi) => if fst d then p else p * dm_full (snd d)) (map (pair false) l) p
         = p * size (nd_full l)) as K.
      { induction l as [|d l IH]; intros p; cbn; [lia|]. rewrite IH. cbn [nd_full map size fold_right]. fold (nd_full l). fold (size (nd_full l)). ring. }
      rewrite K. lia.
    Qed.
    Lemma outstart_nondec r : sv_dec S v = false ->
      v_outstart ds r = (if sv_rec v then [r] else []) ++ map (fun _ => 0) (sv_nd v).
    Proof.
      intros Hd. unfold v_outstart, mkds. rewrite map_app. f_equal.
      - unfold rc_of. destruct (sv_rec v); reflexivity.
      - rewrite !map_map. apply map_ext_in. intros id Hid. cbn.
        destruct (so_ids S HS v id Hv Hid) as [R _]. rewrite dim_start by auto.
        apply dim_range; auto. unfold sv_dec in Hd.
        destruct (dec_of S id) eqn:E; auto. rewrite <- Hd. symmetry. apply existsb_exists. eauto.
    Qed.
    Lemma count_nondec : sv_dec S v = false ->
      v_count ds = (if sv_rec v then [1] else []) ++ map (full_of S) (sv_nd v).
    Proof.
      intros Hd. unfold v_count, mkds. rewrite map_app. f_equal.
      - unfold rc_of. destruct (sv_rec v); reflexivity.
      - rewrite !map_map. apply map_ext_in. intros id Hid. cbn.
        destruct (so_ids S HS v id Hv Hid) as [R _]. rewrite dim_size by auto.
        apply dim_range; auto. unfold sv_dec in Hd.
        destruct (dec_of S id) eqn:E; auto. rewrite <- Hd. symmetry. apply existsb_exists. eauto.
    Qed.
    Lemma tile_in vals : zlen vals = size (map (len_in fi) (sv_nd v)) ->
      tile_ok (map (full_of S) (sv_nd v)) (piece_tile v fi vals).
    Proof.
      intros HL. split; [|exact HL]. cbn.
      assert (forall id, In id (sv_nd v) -> 0 <= id < zlen (s_full S)) as K by (intros; now apply (so_ids S HS v)).
      revert K. generalize (sv_nd v) as l. induction l as [|id l IH]; intros K; cbn; constructor.
      1-3: destruct (dim_range id (K id ltac:(simpl; auto))); lia.
      apply IH. intros; apply K; simpl; auto.
    Qed.
    Lemma full_nonneg : Forall (fun d => 0 <= d) (map (full_of S) (sv_nd v)).
    Proof.
      apply Forall_forall. intros x Hx. apply in_map_iff in Hx. destruct Hx as (id & <- & Hid).
      destruct (so_ids S HS v id Hv Hid) as [R _]. destruct (dim_range id R); lia.
    Qed.
  End Piece.
End Set_.
