(** * Proofs: what mppncscatter writes *)
From Verif Require Import Base Loops Spec_Hyperslab Shape M_ScatterExt M_Hyperslab T_Hyperslab M_Combine M_Scatter Spec_CombineSet Spec_Scatter P_CombineSet.

Section P.
  Context {A : Type} (dims : list sdim) (dimlen : list Z) (rec nx ny nd : Z) (full : Z -> Z) (ps pc : Z -> Z -> Z -> Z).
  Context (Hnx : 1 <= nx) (Hny : 1 <= ny).
  Context (Hlen : forall id, 0 <= id < nd -> zget dimlen id = Some (full id)).
  Context (Hpart : forall id xi yi, 0 <= id < nd -> id <> rec -> 0 <= xi < nx -> 0 <= yi < ny ->
     (exists d, zget dims id = Some d /\ dim_part d xi yi = Ok (ps id xi yi, pc id xi yi))
     /\ 0 <= ps id xi yi /\ 0 <= pc id xi yi /\ ps id xi yi + pc id xi yi <= full id).

  Notation pst := (@pst A).

  Lemma each_file_inv (P : Z -> pst -> Prop) f (st : pst) :
    (forall xi yi st, 0 <= xi < nx -> 0 <= yi < ny -> P (yi * nx + xi) st -> exists st', f st xi yi = Ok st' /\ P (yi * nx + xi + 1) st') ->
    P 0 st -> exists st', each_file nx ny f st = Ok st' /\ P (ny * nx) st'.
  Proof.
    intros H H0. unfold each_file. rewrite (ofor_nest ny nx (fun st yi xi => f st xi yi)) by lia.
    destruct (ofor_inv P (fun st n => f st (n mod nx) (n / nx)) 0 (ny * nx) st) as (st' & E & HP); [nia|auto| |].
    - intros i s Hi HP. destruct (divmod_range ny nx i ltac:(lia) ltac:(lia)) as (_ & D & M & E).
      rewrite E in HP at 1. destruct (H _ _ s M D HP) as (s' & Es & HP'). exists s'. split; auto. rewrite E at 1. exact HP'.
    - exists st'. auto.
  Qed.

  Definition okids (ids : list Z) : Prop := Forall (fun id => 0 <= id < nd /\ id <> rec) ids.

  Lemma parts_ok ids xi yi : okids ids -> 0 <= xi < nx -> 0 <= yi < ny ->
    parts dims ids xi yi = Ok (map (fun id => (ps id xi yi, pc id xi yi)) ids).
  Proof.
    intros Ho Hx Hy. unfold parts.
    assert (forall acc, ofold (fun acc id => do d <- oget dims id ; do p <- dim_part d xi yi ; Ok (acc ++ [p])) ids acc
       = Ok (acc ++ map (fun id => (ps id xi yi, pc id xi yi)) ids)) as K; [|now rewrite K].
    induction Ho as [|id ids [Hi Hr] Ho IH]; intros acc; cbn [ofold map].
    - now rewrite app_nil_r.
    - destruct (Hpart id xi yi Hi Hr Hx Hy) as [(d & Ed & Ep) _]. unfold oget. rewrite Ed. cbn [bind]. rewrite Ep. cbn [bind].
      rewrite IH, <- app_assoc. reflexivity.
  Qed.

  Lemma lens_ok ids : okids ids -> lens dimlen ids = Ok (map full ids).
  Proof.
    intros Ho. unfold lens.
    assert (forall acc, ofold (fun acc id => do l <- oget dimlen id ; Ok (acc ++ [l])) ids acc = Ok (acc ++ map full ids)) as K; [|now rewrite K].
    induction Ho as [|id ids [Hi Hr] Ho IH]; intros acc; cbn [ofold map].
    - now rewrite app_nil_r.
    - unfold oget. rewrite (Hlen id Hi). cbn [bind]. rewrite IH, <- app_assoc. reflexivity.
  Qed.

  Lemma ids_block ids xi yi : okids ids -> 0 <= xi < nx -> 0 <= yi < ny ->
    block_in (map full ids) (map (fun id => ps id xi yi) ids) (map (fun id => pc id xi yi) ids).
  Proof.
    intros Ho Hx Hy. induction Ho as [|id ids [Hi Hr] Ho IH]; cbn [map]; constructor; auto;
      destruct (Hpart id xi yi Hi Hr Hx Hy) as (_ & ? & ? & ?); lia.
  Qed.

  Definition is_part (ids : list Z) (xi yi : Z) (orig blk : list A) : Prop :=
    zlen blk = size (map (fun id => pc id xi yi) ids)
    /\ forall idx, valid (map (fun id => pc id xi yi) ids) idx ->
         zget blk (pos (map (fun id => pc id xi yi) ids) idx)
         = zget orig (pos (map full ids) (vadd (map (fun id => ps id xi yi) ids) idx)).

  Lemma zget_firstn {B} (l : list B) n i : 0 <= i < Z.of_nat n -> zget (firstn n l) i = zget l i.
  Proof.
    intros Hi. unfold zget. destruct (Z.ltb_spec i 0); auto. rewrite <- (firstn_skipn n l) at 2.
    destruct (Nat.lt_ge_cases (Z.to_nat i) (length (firstn n l))) as [H1|H1].
    - now rewrite nth_error_app1.
    - rewrite firstn_length in H1. rewrite (proj2 (nth_error_None _ _)) by (rewrite firstn_length; lia).
      symmetry. apply nth_error_None. rewrite firstn_skipn. lia.
  Qed.

  Lemma copy_put_ok ids vn r (st : pst) xi yi orig rest M :
    okids ids -> (length ids <= 3)%nat -> 0 <= xi < nx -> 0 <= yi < ny ->
    q_tp st = orig ++ rest -> zlen orig = size (map full ids) -> zlen (q_otp st) = M -> size (map full ids) <= M ->
    exists otp blk, copy_put dims dimlen nx ids vn r st xi yi = Ok (put st otp (yi * nx + xi) vn r blk)
      /\ zlen otp = M /\ is_part ids xi yi orig blk.
  Proof.
    intros Ho Hr Hx Hy Htp Hl HM Hs. unfold copy_put.
    rewrite parts_ok by auto. cbn [bind]. rewrite lens_ok by auto. cbn [bind].
    rewrite !map_map. cbn [fst snd].
    pose proof (ids_block ids xi yi Ho Hx Hy) as HB.
    set (st0 := map (fun id => ps id xi yi) ids) in *. set (ct := map (fun id => pc id xi yi) ids) in *. set (fl := map full ids) in *.
    assert (Hct : 0 <= size ct <= size fl).
    { clear -HB. induction HB as [|d s c dd ss cc H1 H2 H3 HB IH]; rewrite ?size_cons; [cbn; lia|]. nia. }
    assert (exists otp, hyperslabcopy fl st0 ct (zlen ids) (q_tp st) (q_otp st) = Ok otp /\ zlen otp = M
       /\ forall idx, valid ct idx -> zget otp (pos ct idx) = zget (q_tp st) (pos fl (vadd st0 idx))) as (otp & E & Lo & Hc).
    { assert (Hfl : zlen fl = zlen ids) by (unfold fl; apply zlen_map).
      destruct ids as [|i0 ids'].
      - cbn in *. destruct (q_tp st) as [|x t] eqn:Et; [destruct orig; [cbn in Hl; discriminate|discriminate]|].
        destruct (q_otp st) as [|y ot] eqn:Eo; [rewrite zlen_nil in HM; exfalso; clear -HM Hs; cbn in Hs; lia|].
        exists (x :: ot). split; [|split].
        + exact (C07_hyperslab_scalar A x y t ot).
        + rewrite zlen_cons in *. auto.
        + intros idx Hv. unfold ct in Hv. cbn in Hv. apply valid_nil in Hv. subst idx. reflexivity.
      - destruct (C07_hyperslab_block A fl st0 ct (q_tp st) (q_otp st)) as (otp & E & L & Hb & _); auto.
        + unfold fl. rewrite map_length. cbn in *. lia.
        + rewrite Htp, zlen_app. pose proof (zlen_nonneg rest). lia.
        + lia.
        + rewrite Hfl in E. exists otp. split; auto. split; [congruence|auto]. }
    rewrite E. cbn [bind]. change (fold_right Z.mul 1 ct) with (size ct).
    destruct (Z.ltb_spec (zlen otp) (size ct)); [lia|].
    eexists otp, _. split; [reflexivity|]. split; auto.
    split.
    - fold ct. unfold zlen in *. rewrite firstn_length. lia.
    - intros idx Hv. fold ct in Hv. fold ct. fold fl. fold st0. pose proof (pos_range ct idx Hv) as R.
      rewrite zget_firstn by lia. rewrite Hc by auto. rewrite Htp. apply zget_app_l.
      pose proof (pos_range fl _ (block_valid _ _ _ _ HB Hv)). lia.
  Qed.

  (** one variable, one record, all files *)
  Lemma var_files ids vn r (st : pst) orig rest M :
    okids ids -> (length ids <= 3)%nat ->
    q_tp st = orig ++ rest -> zlen orig = size (map full ids) -> zlen (q_otp st) = M -> size (map full ids) <= M ->
    exists st', each_file nx ny (copy_put dims dimlen nx ids vn r) st = Ok st'
      /\ q_tp st' = q_tp st /\ zlen (q_otp st') = M /\ q_d0 st' = q_d0 st
      /\ (forall xi yi, 0 <= xi < nx -> 0 <= yi < ny -> exists blk, q_data st' (yi * nx + xi) vn r = Some blk /\ is_part ids xi yi orig blk)
      /\ (forall f v' r', v' <> vn \/ r' <> r -> q_data st' f v' r' = q_data st f v' r').
  Proof.
    intros Ho Hr Htp Hl HM Hs.
    destruct (each_file_inv (fun n s => q_tp s = q_tp st /\ zlen (q_otp s) = M /\ q_d0 s = q_d0 st
      /\ (forall xi yi, 0 <= xi < nx -> 0 <= yi < ny -> yi * nx + xi < n -> exists blk, q_data s (yi * nx + xi) vn r = Some blk /\ is_part ids xi yi orig blk)
      /\ (forall f v' r', v' <> vn \/ r' <> r -> q_data s f v' r' = q_data st f v' r')) (copy_put dims dimlen nx ids vn r) st)
      as (st' & E & T & L & D & K & F).
    - intros xi yi s Hx Hy (T & L & D & K & F).
      destruct (copy_put_ok ids vn r s xi yi orig rest M) as (otp & blk & E & Lo & Hb); auto; [congruence|].
      eexists. split; [exact E|]. cbn [put q_tp q_otp q_d0 q_data]. split; auto. split; auto. split; auto. split.
      + intros xi' yi' Hx' Hy' Hlt. destruct (Z.eqb_spec (yi' * nx + xi') (yi * nx + xi)) as [Ef|Nf].
        * destruct (rowmajor_inj nx yi' xi' yi xi Hx' Hx Ef) as [-> ->]. rewrite !Z.eqb_refl. cbn [andb]. exists blk. auto.
        * cbn [andb]. apply K; auto. lia.
      + intros f v' r' Hne. destruct (Z.eqb_spec v' vn); destruct (Z.eqb_spec r' r); rewrite ?andb_false_r; cbn [andb]; auto. lia.
    - split; auto. split; auto. split; auto. split; [|auto]. intros. nia.
    - exists st'. split; auto. do 3 (split; auto). split; auto. intros xi yi Hx Hy. apply K; auto. nia.
  Qed.

  (** a scalar *)
  Lemma scalar_files vn (st : pst) x rest :
    q_tp st = x :: rest ->
    exists st', each_file nx ny (fun st xi yi => do v <- oget (q_tp st) 0 ; Ok (put st (q_otp st) (yi * nx + xi) vn 0 [v])) st = Ok st'
      /\ q_tp st' = q_tp st /\ q_otp st' = q_otp st /\ q_d0 st' = q_d0 st
      /\ (forall xi yi, 0 <= xi < nx -> 0 <= yi < ny -> q_data st' (yi * nx + xi) vn 0 = Some [x])
      /\ (forall f v' r', v' <> vn \/ r' <> 0 -> q_data st' f v' r' = q_data st f v' r').
  Proof.
    intros Htp.
    destruct (each_file_inv (fun n s => q_tp s = q_tp st /\ q_otp s = q_otp st /\ q_d0 s = q_d0 st
      /\ (forall xi yi, 0 <= xi < nx -> 0 <= yi < ny -> yi * nx + xi < n -> q_data s (yi * nx + xi) vn 0 = Some [x])
      /\ (forall f v' r', v' <> vn \/ r' <> 0 -> q_data s f v' r' = q_data st f v' r'))
      (fun st xi yi => do v <- oget (q_tp st) 0 ; Ok (put st (q_otp st) (yi * nx + xi) vn 0 [v])) st)
      as (st' & E & T & L & D & K & F).
    - intros xi yi s Hx Hy (T & L & D & K & F). assert (oget (q_tp s) 0 = Ok x) as -> by (now rewrite T, Htp). cbn [bind]. eexists. split; [reflexivity|].
      cbn [put q_tp q_otp q_d0 q_data]. split; auto. split; auto. split; auto. split.
      + intros xi' yi' Hx' Hy' Hlt. destruct (Z.eqb_spec (yi' * nx + xi') (yi * nx + xi)) as [Ef|Nf].
        * rewrite !Z.eqb_refl. cbn [andb]. auto.
        * cbn [andb]. apply K; auto. lia.
      + intros f v' r' Hne. destruct (Z.eqb_spec v' vn); destruct (Z.eqb_spec r' 0); rewrite ?andb_false_r; cbn [andb]; auto. lia.
    - split; auto. split; auto. split; auto. split; [|auto]. intros. nia.
    - exists st'. split; auto. do 3 (split; auto). split; auto. intros xi yi Hx Hy. apply K; auto. nia.
  Qed.
End P.

Lemma zget_split {B} (l : list B) i x : zget l i = Some x ->
  l = firstn (Z.to_nat i) l ++ x :: skipn (Datatypes.S (Z.to_nat i)) l
  /\ firstn (Z.to_nat (i + 1)) l = firstn (Z.to_nat i) l ++ [x].
Proof.
  intros H. pose proof (zget_Some_range _ _ _ H) as R. unfold zget in H. destruct (Z.ltb_spec i 0); [discriminate|].
  replace (Z.to_nat (i + 1)) with (Datatypes.S (Z.to_nat i)) by lia. revert H. generalize (Z.to_nat i) as n. clear.
  induction l as [|a l IH]; intros [|n] H; cbn in *; try discriminate.
  - injection H as ->. auto.
  - destruct (IH n H) as [E1 E2]. split; [f_equal; exact E1|]. f_equal. exact E2.
Qed.

Section Q.
  Context {A : Type} (zero : A) (S : cset) (HS : set_ok S) (fi : @infile A) (HW : whole S fi).
  Context (dims : list sdim) (nx ny : Z) (ps pc : Z -> Z -> Z -> Z).
  Context (Hnx : 1 <= nx) (Hny : 1 <= ny).
  Let rec := s_rec S.
  Let nd := zlen (s_full S).
  Let full := full_of S.
  Let dimlen := map rd_len (in_dims fi).
  Context (Hpart : forall id xi yi, 0 <= id < nd -> id <> rec -> 0 <= xi < nx -> 0 <= yi < ny ->
     (exists d, zget dims id = Some d /\ dim_part d xi yi = Ok (ps id xi yi, pc id xi yi))
     /\ 0 <= ps id xi yi /\ 0 <= pc id xi yi /\ ps id xi yi + pc id xi yi <= full id).
  Context (Hrank : forall v, In v (s_vars S) -> (length (sv_nd v) <= 3)%nat).
  Context (Hscal : forall l1 v l2, s_rec S <> -1 -> s_vars S = l1 ++ v :: l2 -> sv_ids S v = [] ->
             exists u1 w u2, l2 ++ l1 = u1 ++ w :: u2 /\ sv_rec w = false /\ sv_nd w <> []
                             /\ Forall (fun x => sv_ids S x = []) u2).

  Notation part v xi yi orig blk := (is_part full ps pc (sv_nd v) xi yi orig blk).
  Notation pst := (@pst A).

  Lemma Hlen id : 0 <= id < nd -> zget dimlen id = Some (full id).
  Proof.
    intros Hi. unfold dimlen. rewrite zget_map. destruct (wh_dims _ _ HW) as [L D].
    destruct (zget_in_range (in_dims fi) id ltac:(unfold nd in Hi; lia)) as (rd & E). rewrite E. cbn. f_equal. now apply D.
  Qed.

  Lemma nd_okids v : In v (s_vars S) -> okids rec nd (sv_nd v).
  Proof. intros Hv. apply Forall_forall. intros id Hid. apply (so_ids S HS v id Hv Hid). Qed.

  Lemma get_var vn v : zget (s_vars S) vn = Some v -> exists iv, zget (in_vars fi) vn = Some iv /\ v_dims iv = sv_ids S v
    /\ forall r, has_record S v r -> v_data iv r = Some (data_of fi vn r) /\ zlen (data_of fi vn r) = size (map full (sv_nd v)).
  Proof.
    intros Ev. destruct (Forall2_zget _ _ _ _ _ (wh_vars _ _ HW) Ev) as (iv & Ei & D & _ & H). exists iv. split; auto. split; auto.
    intros r Hr. destruct (H r Hr) as (vals & Ed & L). unfold data_of. rewrite Ei, Ed. auto.
  Qed.
  Lemma nvars : zlen (in_vars fi) = zlen (s_vars S).
  Proof. symmetry. eapply Forall2_zlen. apply HW. Qed.

  Lemma var_size_ok iv v : In v (s_vars S) -> v_dims iv = sv_ids S v ->
    @var_size A dimlen rec iv = Ok (size (map full (sv_nd v))).
  Proof.
    intros Hv E. unfold var_size. rewrite E. unfold sv_ids. rewrite ofold_app.
    assert (ofold (fun s id => if id =? rec then Ok s else do l <- oget dimlen id ; Ok (s * l)) (if sv_rec v then [s_rec S] else []) 1 = Ok 1) as ->.
    { destruct (sv_rec v); cbn; auto. unfold rec. now rewrite Z.eqb_refl. }
    cbn [bind]. pose proof (nd_okids v Hv) as Ho.
    assert (forall a, ofold (fun s id => if id =? rec then Ok s else do l <- oget dimlen id ; Ok (s * l)) (sv_nd v) a = Ok (a * size (map full (sv_nd v)))) as K.
    { induction Ho as [|id ids [Hi Hr] Ho IH]; intros a; cbn [ofold map]; rewrite ?size_cons.
      - f_equal. cbn. lia.
      - destruct (Z.eqb_spec id rec); [lia|]. unfold oget. rewrite (Hlen id Hi). cbn [bind]. rewrite IH. f_equal. lia. }
    rewrite K. f_equal. lia.
  Qed.

  Lemma maxsize_ok : exists M, ofold (fun m iv => do s <- @var_size A dimlen rec iv ; Ok (Z.max m s)) (in_vars fi) 0 = Ok M
    /\ 0 <= M /\ forall v, In v (s_vars S) -> size (map full (sv_nd v)) <= M.
  Proof.
    assert (forall vs ivs a, (forall v, In v vs -> In v (s_vars S)) -> Forall2 (fun v iv => v_dims iv = sv_ids S v) vs ivs ->
      exists M, ofold (fun m iv => do s <- @var_size A dimlen rec iv ; Ok (Z.max m s)) ivs a = Ok M /\ a <= M /\ forall v, In v vs -> size (map full (sv_nd v)) <= M) as K.
    { intros vs ivs a Hin H2. revert a. induction H2 as [|v iv vs ivs Hv H2 IH]; intros a.
      - exists a. split; [reflexivity|]. split; [lia|]. intros v [].
      - cbn [ofold]. rewrite (var_size_ok iv v) by (auto; apply Hin; left; auto). cbn [bind].
        destruct (IH ltac:(intros; apply Hin; right; auto) (Z.max a (size (map full (sv_nd v))))) as (M & E & Ha & HM).
        exists M. split; auto. split; [lia|]. intros w [<-|Hw]; [lia|auto]. }
    destruct (K (s_vars S) (in_vars fi) 0) as (M & E & Ha & HM); auto.
    - pose proof (wh_vars _ _ HW) as H. clear -H. induction H; constructor; intuition.
    - exists M. auto.
  Qed.

  Context (M : Z) (HM0 : 0 <= M) (HM : forall v, In v (s_vars S) -> size (map full (sv_nd v)) <= M).

  Definition step (d : option Z) (v : svar) : option Z := match sv_ids S v with [] => d | x :: _ => Some x end.
  Definition upto (vn : Z) : list svar := firstn (Z.to_nat vn) (s_vars S).

  Definition okdata (st : pst) (vn r : Z) (v : svar) : Prop :=
    forall xi yi, 0 <= xi < nx -> 0 <= yi < ny ->
      exists blk, q_data st (yi * nx + xi) vn r = Some blk /\ part v xi yi (data_of fi vn r) blk.

  Lemma load_ok iv vn v r (st : pst) : zget (s_vars S) vn = Some v -> zget (in_vars fi) vn = Some iv -> has_record S v r -> zlen (q_tp st) = M ->
    exists rest, load_var iv r st = Ok {| q_tp := data_of fi vn r ++ rest; q_otp := q_otp st; q_data := q_data st; q_d0 := q_d0 st |}
      /\ zlen (data_of fi vn r ++ rest) = M /\ zlen (data_of fi vn r) = size (map full (sv_nd v)).
  Proof.
    intros Ev Ei Hr HL. destruct (get_var vn v Ev) as (iv' & Ei' & _ & H). rewrite Ei in Ei'. injection Ei' as <-.
    destruct (H r Hr) as [Ed L]. unfold load_var. rewrite Ed. unfold load.
    pose proof (HM v ltac:(eapply zget_In; eauto)). destruct (Z.leb_spec (zlen (data_of fi vn r)) (zlen (q_tp st))); [|lia].
    cbn [bind]. eexists. split; [reflexivity|]. split; auto. rewrite zlen_app. unfold zlen in *. rewrite skipn_length. lia.
  Qed.

  Lemma pass1 (st0 : pst) : zlen (q_tp st0) = M -> zlen (q_otp st0) = M -> q_d0 st0 = None ->
    exists st, ofor 0 (zlen (in_vars fi)) (put_nonrec dims dimlen rec nx ny (in_vars fi)) st0 = Ok st
      /\ zlen (q_tp st) = M /\ zlen (q_otp st) = M /\ q_d0 st = fold_left step (s_vars S) None
      /\ forall vn v, zget (s_vars S) vn = Some v -> sv_rec v = false -> okdata st vn 0 v.
  Proof.
    intros H1 H2 H3. rewrite nvars.
    destruct (ofor_inv (fun i (st : pst) => zlen (q_tp st) = M /\ zlen (q_otp st) = M /\ q_d0 st = fold_left step (upto i) None
      /\ forall vn v, vn < i -> zget (s_vars S) vn = Some v -> sv_rec v = false -> okdata st vn 0 v)
      (put_nonrec dims dimlen rec nx ny (in_vars fi)) 0 (zlen (s_vars S)) st0) as (st & E & L1 & L2 & D & K).
    - apply zlen_nonneg.
    - split; auto. split; auto. split; [now rewrite H3|]. intros vn v Hlt Ev. apply zget_Some_range in Ev. lia.
    - intros vn st Hvn (L1 & L2 & D & K). destruct (zget_in_range (s_vars S) vn ltac:(lia)) as (v & Ev).
      destruct (get_var vn v Ev) as (iv & Ei & Ed & Hdat). unfold put_nonrec. rewrite (proj2 (oget_Ok _ _ _) Ei). cbn [bind]. rewrite Ed.
      assert (Hd0 : q_d0 (inq_dims iv st) = fold_left step (upto (vn + 1)) None).
      { unfold upto. rewrite (proj2 (zget_split _ _ _ Ev)), fold_left_app. cbn [fold_left]. cbn [inq_dims q_d0]. rewrite Ed, D. reflexivity. }
      pose proof (zget_In _ _ _ Ev) as Hin.
      destruct (sv_rec v) eqn:Er.
      + (* a record variable *)
        pose proof (so_norec S HS v Hin Er) as Hrec. unfold sv_ids. rewrite Er. cbn [app]. fold rec in Hrec.
        destruct (Z.eqb_spec rec (-1)); [lia|]. fold rec. rewrite Z.eqb_refl. cbn [negb andb].
        exists (inq_dims iv st). split; [reflexivity|]. do 3 (split; [auto|]).
        intros vn' v' Hlt Ev' Er'. destruct (Z.eq_dec vn' vn) as [->|]; [congruence|]. apply (K vn' v'); auto. lia.
      + assert (Hnr : has_record S v 0) by (split; [lia|]; now rewrite Er).
        assert (Hsk : negb (rec =? -1) && match sv_ids S v with d :: _ => d =? rec | [] => false end = false).
        { unfold sv_ids. rewrite Er. cbn [app]. destruct (sv_nd v) as [|d l] eqn:En; [apply andb_false_r|].
          destruct (so_ids S HS v d Hin ltac:(rewrite En; left; auto)) as [_ Hne]. destruct (Z.eqb_spec d rec); [contradiction|apply andb_false_r]. }
        rewrite Hsk.
        destruct (load_ok iv vn v 0 (inq_dims iv st) Ev Ei Hnr L1) as (rest & El & Lt & Lo). rewrite El. cbn [bind].
        set (st1 := {| q_tp := _; q_otp := _; q_data := _; q_d0 := _ |}).
        assert (exists st', match sv_ids S v with
            | [] => each_file nx ny (fun st xi yi => do v <- oget (q_tp st) 0 ; Ok (put st (q_otp st) (yi * nx + xi) vn 0 [v])) st1
            | _ => if zlen (sv_ids S v) >? 4 then UB else each_file nx ny (copy_put dims dimlen nx (sv_ids S v) vn 0) st1
            end = Ok st' /\ q_tp st' = q_tp st1 /\ zlen (q_otp st') = M /\ q_d0 st' = q_d0 st1 /\ okdata st' vn 0 v
            /\ (forall f v' r', v' <> vn \/ r' <> 0 -> q_data st' f v' r' = q_data st1 f v' r')) as (st' & E & T & O & D' & Kd & F).
        { assert (Hids : sv_ids S v = sv_nd v) by (unfold sv_ids; now rewrite Er). rewrite Hids.
          destruct (sv_nd v) as [|i0 l] eqn:En.
          - cbn in Lo. destruct (data_of fi vn 0) as [|x [|]] eqn:Edat; try (cbn in Lo; discriminate); [|rewrite !zlen_cons in Lo; pose proof (zlen_nonneg l); lia].
            destruct (scalar_files dims dimlen rec nx ny nd full ps pc Hnx Hny Hlen Hpart vn st1 x rest) as (st' & E & T & O & D' & Kd & F); [reflexivity|].
            exists st'. split; [exact E|]. split; [exact T|]. split; [rewrite O; exact L2|]. split; [auto|]. split; [|auto].
            intros xi yi Hx Hy. exists [x]. split; [auto|]. rewrite En, Edat. split; [reflexivity|]. intros idx Hv. cbn in Hv. apply valid_nil in Hv. subst. reflexivity.
          - pose proof (Hrank v Hin) as Hrk. rewrite <- En in Lo |- *.
            destruct (Z.gtb_spec (zlen (sv_nd v)) 4) as [Hgt|_]; [unfold zlen in Hgt; lia|].
            destruct (var_files dims dimlen rec nx ny nd full ps pc Hnx Hny Hlen Hpart (sv_nd v) vn 0 st1 (data_of fi vn 0) rest M)
              as (st' & E & T & O & D' & Kd & F); auto.
            + rewrite <- ?En. now apply nd_okids.
            + exists st'. split; auto. }
        rewrite E. exists st'. split; auto. split; [rewrite T; exact Lt|]. split; auto. split; [rewrite D'; exact Hd0|].
        intros vn' v' Hlt Ev' Er'. destruct (Z.eq_dec vn' vn) as [->|Hne].
        * rewrite Ev in Ev'. injection Ev' as <-. exact Kd.
        * intros xi yi Hx Hy. destruct (K vn' v' ltac:(lia) Ev' Er' xi yi Hx Hy) as (blk & Eb & Hb). exists blk. split; auto.
          rewrite F by auto. exact Eb.
    - exists st. split; auto. do 2 (split; [auto|]). split.
      + rewrite D. unfold upto. rewrite Z.add_0_l. unfold zlen. rewrite Nat2Z.id, firstn_all. auto.
      + intros vn v Ev. apply K; auto. apply zget_Some_range in Ev. lia.
  Qed.

  Lemma fold_step_app l d : fold_left step l d = match fold_left step l None with Some x => Some x | None => d end.
  Proof.
    revert d. induction l as [|v l IH]; intros d; cbn [fold_left]; auto. rewrite IH, (IH (step None v)).
    destruct (fold_left step l None); auto. unfold step. destruct (sv_ids S v); auto.
  Qed.

  Lemma pass2 (st0 : pst) : rec <> -1 -> zlen (q_tp st0) = M -> zlen (q_otp st0) = M -> q_d0 st0 = fold_left step (s_vars S) None ->
    (forall vn v, zget (s_vars S) vn = Some v -> sv_rec v = false -> okdata st0 vn 0 v) ->
    exists st, ofor 0 (s_nrecs S) (fun st r => ofor 0 (zlen (in_vars fi)) (put_rec dims dimlen rec nx ny (in_vars fi) r) st) st0 = Ok st
      /\ forall vn v r, zget (s_vars S) vn = Some v -> has_record S v r -> okdata st vn r v.
  Proof.
    intros Hrec H1 H2 H3 H4. rewrite nvars.
    set (J := fun (r i : Z) (st : pst) => zlen (q_tp st) = M /\ zlen (q_otp st) = M
       /\ (exists X, q_d0 st = fold_left step (upto i) (fold_left step (s_vars S) X))
       /\ (forall vn v, zget (s_vars S) vn = Some v -> sv_rec v = false -> okdata st vn 0 v)
       /\ (forall vn v r', zget (s_vars S) vn = Some v -> sv_rec v = true -> 0 <= r' < r \/ (r' = r /\ vn < i) -> okdata st vn r' v)).
    destruct (ofor_inv (fun r st => J r 0 st) (fun st r => ofor 0 (zlen (s_vars S)) (put_rec dims dimlen rec nx ny (in_vars fi) r) st) 0 (s_nrecs S) st0)
      as (st & E & _ & _ & _ & K1 & K2).
    - pose proof (so_nrecs S HS). lia.
    - split; auto. split; auto. split; [exists None; auto|]. split; auto. intros vn v r' Ev. apply zget_Some_range in Ev. lia.
    - intros r st Hr HJ.
      destruct (ofor_inv (fun i st => J r i st) (put_rec dims dimlen rec nx ny (in_vars fi) r) 0 (zlen (s_vars S)) st) as (st' & E & L1 & L2 & (X & D) & K1 & K2); auto.
      + apply zlen_nonneg.
      + clear st HJ. intros vn st Hvn (L1 & L2 & (X & D) & K1 & K2). destruct (zget_in_range (s_vars S) vn ltac:(lia)) as (v & Ev).
        destruct (get_var vn v Ev) as (iv & Ei & Ed & Hdat). unfold put_rec. rewrite (proj2 (oget_Ok _ _ _) Ei). cbn [bind].
        pose proof (zget_In _ _ _ Ev) as Hin. destruct (zget_split _ _ _ Ev) as [Hsp Hup].
        assert (Hd0 : q_d0 (inq_dims iv st) = fold_left step (upto (vn + 1)) (fold_left step (s_vars S) X)).
        { unfold upto. rewrite Hup, fold_left_app. cbn [fold_left]. cbn [inq_dims q_d0]. rewrite Ed, D. reflexivity. }
        destruct (sv_rec v) eqn:Er.
        * (* a record variable *)
          assert (Hids : v_dims iv = rec :: sv_nd v) by (rewrite Ed; unfold sv_ids; now rewrite Er).
          assert (Hq : q_d0 (inq_dims iv st) = Some rec) by (cbn; now rewrite Hids). rewrite Hq, Z.eqb_refl, Hids. cbn [negb].
          pose proof (Hrank v Hin) as Hrk. destruct (Z.gtb_spec (zlen (sv_nd v)) 3) as [Hgt|_]; [unfold zlen in Hgt; lia|].
          assert (Hnr : has_record S v r) by (split; [lia|]; rewrite Er; lia).
          destruct (load_ok iv vn v r (inq_dims iv st) Ev Ei Hnr L1) as (rest & El & Lt & Lo). rewrite El. cbn [bind].
          set (st1 := {| q_tp := _; q_otp := _; q_data := _; q_d0 := _ |}).
          destruct (var_files dims dimlen rec nx ny nd full ps pc Hnx Hny Hlen Hpart (sv_nd v) vn r st1 (data_of fi vn r) rest M)
              as (st' & E & T & O & D' & Kd & F); auto; [now apply nd_okids|].
          exists st'. split; auto. split; [rewrite T; exact Lt|]. split; auto. split; [exists X; rewrite D'; exact Hd0|]. split.
          -- intros vn' v' Ev' Er' xi yi Hx Hy. destruct (K1 vn' v' Ev' Er' xi yi Hx Hy) as (blk & Eb & Hb). exists blk. split; auto.
             rewrite F; [exact Eb|]. left. intros ->. congruence.
          -- intros vn' v' r' Ev' Er' Hlt. destruct (Z.eq_dec vn' vn) as [->|Hne]; [destruct (Z.eq_dec r' r) as [->|Hner]|].
             ++ rewrite Ev in Ev'. injection Ev' as <-. exact Kd.
             ++ intros xi yi Hx Hy. destruct (K2 vn v' r' Ev' Er' ltac:(lia) xi yi Hx Hy) as (blk & Eb & Hb). exists blk. split; auto.
                rewrite F by auto. exact Eb.
             ++ intros xi yi Hx Hy. destruct (K2 vn' v' r' Ev' Er' ltac:(lia) xi yi Hx Hy) as (blk & Eb & Hb). exists blk. split; auto.
                rewrite F by auto. exact Eb.
        * (* skipped *)
          assert (exists d, q_d0 (inq_dims iv st) = Some d /\ d <> rec) as (d & Hq & Hd).
          { cbn [inq_dims q_d0]. rewrite Ed. destruct (sv_ids S v) as [|d l] eqn:Eids.
            - destruct (Hscal _ v _ Hrec Hsp Eids) as (u1 & w & u2 & Eu & Rw & Nw & Fu).
              set (l1 := firstn (Z.to_nat vn) (s_vars S)) in *. set (l2 := skipn _ _) in *.
              rewrite D. unfold upto. fold l1. 
rewrite Hsp. change (v :: l2) with ([v] ++ l2). rewrite app_assoc, fold_left_app, <- (fold_left_app step l2 l1), Eu.
              rewrite fold_left_app. cbn [fold_left].
              assert (Hin' : In w (s_vars S)). { rewrite Hsp. assert (In w (l2 ++ l1)) as Hi by (rewrite Eu; apply in_or_app; right; left; auto).
                apply in_app_or in Hi. apply in_or_app. destruct Hi; [right; right; auto|left; auto]. }
              destruct (sv_nd w) as [|d l] eqn:En; [congruence|].
              assert (Hw : forall y, step y w = Some d) by (intros y; unfold step, sv_ids; rewrite Rw, En; reflexivity).
              rewrite Hw. exists d. split.
              + clear -Fu. induction Fu as [|x l Hx Fu IH]; cbn [fold_left]; auto. unfold step at 2. rewrite Hx. exact IH.
              + apply (so_ids S HS w d Hin'). rewrite En. left; auto.
            - exists d. split; auto. unfold sv_ids in Eids. rewrite Er in Eids. cbn in Eids.
              apply (so_ids S HS v d Hin). rewrite Eids. left; auto. }
          rewrite Hq. destruct (Z.eqb_spec d rec); [contradiction|]. cbn [negb]. exists (inq_dims iv st). split; [reflexivity|].
          split; auto. split; auto. split; [exists X; exact Hd0|]. split; [exact K1|].
          intros vn' v' r' Ev' Er' Hlt. destruct (Z.eq_dec vn' vn) as [->|Hne]; [congruence|]. apply (K2 vn' v' r'); auto. lia.
      + exists st'. split; auto. split; auto. split; auto. split.
        * exists (fold_left step (s_vars S) X). rewrite D. unfold upto. cbn [Z.to_nat firstn fold_left].
          rewrite Z.add_0_l. unfold zlen. rewrite Nat2Z.id, firstn_all. auto.
        * split; auto. intros vn v r' Ev Er Hlt. apply (K2 vn v r'); auto. apply zget_Some_range in Ev. lia.
    - exists st. split; auto. intros vn v r Ev [Hr0 Hr]. destruct (sv_rec v) eqn:Er.
      + apply (K2 vn v r); auto.
      + subst r. auto.
  Qed.
End Q.
