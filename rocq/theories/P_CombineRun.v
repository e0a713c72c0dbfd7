(** * Proofs: the run of mppnccombine on a complete set of pieces *)
From Verif Require Import Base Loops Spec_Hyperslab Shape Spec_Combine P_Assemble M_Combine P_Combine Spec_CombineSet P_CombineSet.

Definition wok : Z -> Z -> bool := fun _ _ => false.

Section Run.
  Context {A : Type} (zero : A) (missing : bool) (S : cset) (HS : set_ok S).
  Notation infile := (@infile A).
  Context (first : infile) (rest : list infile).
  Let files := first :: rest.
  Let n := zlen files.
  Context (HF : Forall (piece S n) files).
  (** the -k option after clamping *)
  Context (k : Z) (Hk : k <= MAX_BF).

  Definition Bf : Z := if 1 <=? k then (if k >? s_nrecs S then s_nrecs S else k) else Z.min MAX_BF (s_nrecs S).
  Definition Nb : Z := if negb (s_nrecs S mod Bf =? 0) then s_nrecs S / Bf + 1 else s_nrecs S / Bf.

  Lemma nrecs_pos : 1 <= s_nrecs S. Proof. apply HS. Qed.
  Lemma Bf_range : 1 <= Bf <= s_nrecs S /\ Bf <= 100.
  Proof. pose proof nrecs_pos. unfold Bf, MAX_BF in *. destruct (Z.leb_spec 1 k); [destruct (Z.gtb_spec k (s_nrecs S))|]; lia. Qed.
  Lemma Nb_spec : (Nb - 1) * Bf < s_nrecs S <= Nb * Bf.
  Proof.
    pose proof Bf_range. unfold Nb. pose proof (Z.div_mod (s_nrecs S) Bf ltac:(lia)).
    pose proof (Z.mod_pos_bound (s_nrecs S) Bf ltac:(lia)).
    destruct (Z.eqb_spec (s_nrecs S mod Bf) 0); cbn [negb]; nia.
  Qed.
  Lemma Nb_pos : 1 <= Nb.
  Proof. pose proof Nb_spec. pose proof Bf_range. pose proof nrecs_pos. nia. Qed.

  Definition fullv (v : svar) : list Z := map (full_of S) (sv_nd v).
  Definition tilev (vn : Z) (v : svar) (r : Z) (fi : infile) : @tile A := piece_tile v fi (data_of fi vn r).
  Definition fillv (vn : Z) : A := fill_of zero missing first vn.
  Definition active (v : svar) (r : Z) : bool := sv_rec v || (r =? 0).
  Definition ent (vn : Z) (v : svar) (r : Z) : @wr A :=
    {| w_var := vn;
       w_start := (if sv_rec v then [r] else []) ++ map (fun _ => 0) (sv_nd v);
       w_count := (if sv_rec v then [1] else []) ++ fullv v;
       w_vals := if sv_dec S v then combined (fillv vn) (fullv v) (map (tilev vn v r) files) else data_of first vn r |}.

  Lemma piece_of i (fi : infile) : zget files i = Some fi -> piece S n fi.
  Proof. intros H. rewrite Forall_forall in HF. apply HF. eapply zget_In; eauto. Qed.
  Lemma first_piece : piece S n first.
  Proof. apply (piece_of 0). reflexivity. Qed.

  Lemma var_of (fi : infile) vn v : piece S n fi -> zget (s_vars S) vn = Some v ->
    exists iv, zget (in_vars fi) vn = Some iv /\ var_piece S fi v iv.
  Proof. intros HP E. eapply Forall2_zget; eauto. apply HP. Qed.
  Lemma nvars_of (fi : infile) : piece S n fi -> zlen (in_vars fi) = zlen (s_vars S).
  Proof. intros HP. symmetry. eapply Forall2_zlen. apply HP. Qed.

  Lemma active_record v r : 0 <= r < s_nrecs S -> active v r = true -> has_record S v r.
  Proof. intros Hr Ha. unfold active in Ha. unfold has_record. destruct (sv_rec v); cbn in Ha; lia. Qed.

  Lemma data_get (fi : infile) vn v iv r : piece S n fi -> zget (s_vars S) vn = Some v -> zget (in_vars fi) vn = Some iv ->
    var_piece S fi v iv -> has_record S v r ->
    v_data iv r = Some (data_of fi vn r) /\ zlen (data_of fi vn r) = size (map (len_in fi) (sv_nd v)).
  Proof.
    intros HP E Ei (_ & _ & HV) Hr. destruct (HV r Hr) as (vals & Ev & Lv). unfold data_of. rewrite Ei, Ev. auto.
  Qed.

  (** what process_file saves for the output *)
  Lemma save_ok : exists OI, save_oinfo missing first = Ok OI /\ oi_nvars OI = zlen (s_vars S) /\ oi_rec OI = s_rec S
    /\ (forall id, 0 <= id < zlen (s_full S) -> zget (oi_full OI) id = Some (full_of S id))
    /\ (forall vn v, zget (s_vars S) vn = Some v -> exists iv, zget (in_vars first) vn = Some iv /\
          zget (oi_vars OI) vn = Some {| ov_dims := sv_ids S v; ov_decomp := sv_dec S v; ov_miss := if missing then v_miss iv else None |}).
  Proof.
    pose proof first_piece as HP.
    assert (forall vs ivs acc, (forall v, In v vs -> In v (s_vars S)) -> Forall2 (var_piece S first) vs ivs ->
      exists ovs, ofold (fun acc v => do o <- save_ovar missing first v ; Ok (acc ++ [o])) ivs acc = Ok (acc ++ ovs)
        /\ Forall2 (fun '(v, iv) o => o = {| ov_dims := sv_ids S v; ov_decomp := sv_dec S v; ov_miss := if missing then v_miss iv else None |})
             (combine vs ivs) ovs) as K.
    { intros vs ivs acc Hin HF2. revert acc. induction HF2 as [|v iv vs ivs Hvp HF2 IH]; intros acc.
      - exists []. rewrite app_nil_r. split; [reflexivity|constructor].
      - destruct (IH ltac:(intros; apply Hin; simpl; auto) (acc ++ [{| ov_dims := sv_ids S v; ov_decomp := sv_dec S v; ov_miss := if missing then v_miss iv else None |}])) as (ovs & E & HO).
        exists ({| ov_dims := sv_ids S v; ov_decomp := sv_dec S v; ov_miss := if missing then v_miss iv else None |} :: ovs).
        cbn [ofold combine]. split; [|constructor; auto].
        unfold save_ovar at 1. destruct Hvp as (-> & _ & _).
        rewrite (vdims_ok S HS n first HP v) by (apply Hin; simpl; auto). cbn [bind].
        rewrite (vdecomp_ok S HS n first HP v) by (apply Hin; simpl; auto).
        rewrite E. rewrite <- app_assoc. reflexivity. }
    destruct (K (s_vars S) (in_vars first) [] ltac:(auto) (pc_vars _ _ _ HP)) as (ovs & E & HO).
    unfold save_oinfo. rewrite E. cbn [bind app]. eexists. split; [reflexivity|]. cbn.
    split; [apply nvars_of; auto|]. split; [apply HP|]. split.
    - intros id Hid. rewrite zget_map. destruct (dim_get S n first HP id Hid) as (rd & Er & _). rewrite Er. cbn.
      f_equal. pose proof (dim_full S n first HP id Hid) as F. unfold dim_of in F. now rewrite Er in F.
    - intros vn v Ev. destruct (var_of first vn v HP Ev) as (iv & Eiv & _). exists iv. split; auto.
      assert (zget (combine (s_vars S) (in_vars first)) vn = Some (v, iv)) as Ec.
      { revert Ev Eiv. generalize (in_vars first) as l2. generalize (s_vars S) as l1. revert vn.
        intros vn l1. revert vn. induction l1 as [|a l1 IH]; intros vn l2 E1 E2.
        - rewrite zget_nil in E1. discriminate.
        - destruct l2 as [|b l2]; [rewrite zget_nil in E2; discriminate|]. cbn.
          pose proof (zget_Some_range _ _ _ E1). destruct (Z.eq_dec vn 0) as [->|].
          + rewrite zget_cons_0 in E1. rewrite zget_cons_0 in E2. rewrite zget_cons_0. congruence.
          + rewrite zget_cons_pos in E1 by lia. rewrite zget_cons_pos in E2 by lia. rewrite zget_cons_pos by lia. auto. }
      destruct (Forall2_zget _ _ _ _ _ HO Ec) as (o & Eo & ->). exact Eo.
  Qed.

  Context (OI : @oinfo A) (HOI : save_oinfo missing first = Ok OI).

  Lemma OI_ok : oi_nvars OI = zlen (s_vars S) /\ oi_rec OI = s_rec S
    /\ (forall id, 0 <= id < zlen (s_full S) -> zget (oi_full OI) id = Some (full_of S id))
    /\ (forall vn v, zget (s_vars S) vn = Some v -> exists iv, zget (in_vars first) vn = Some iv /\
          zget (oi_vars OI) vn = Some {| ov_dims := sv_ids S v; ov_decomp := sv_dec S v; ov_miss := if missing then v_miss iv else None |}).
  Proof. destruct save_ok as (OI' & E & H). rewrite HOI in E. injection E as <-. exact H. Qed.

  (** the buffers: [cnt slot vn] tiles have been painted *)
  Definition bufspec (b : Z) (cnt : Z -> Z -> nat) (slot vn : Z) : option (list A) :=
    match zget (s_vars S) vn with
    | Some v =>
      if sv_dec S v && active v (b * Bf + slot) && (0 <=? slot) && (slot <? Bf) && (b * Bf + slot <? s_nrecs S)
      then match cnt slot vn with
           | O => None
           | m => Some (combined (fillv vn) (fullv v) (map (tilev vn v (b * Bf + slot)) (firstn m files)))
           end
      else None
    | None => None
    end.

  Record Ready (b : Z) (cnt : Z -> Z -> nat) (log : list (@wr A)) (st : @cst A) : Prop := {
    rd_nrecs : c_nrecs st = s_nrecs S; rd_nb : c_nblocks st = Nb; rd_bf : c_bf st = Bf;
    rd_slots : c_slots st = Some Bf; rd_oi : c_oi st = Some OI;
    rd_buf : forall slot vn, c_buf st slot vn = bufspec b cnt slot vn;
    rd_log : c_log st = log }.
  (** before the very first process_vars *)
  Record Fresh (st : @cst A) : Prop := {
    fr_nrecs : c_nrecs st = 1; fr_bf : c_bf st = k; fr_slots : c_slots st = None; fr_oi : c_oi st = Some OI;
    fr_buf : forall slot vn, c_buf st slot vn = None; fr_log : c_log st = [] }.

  Lemma ready_ext b cnt cnt' log st :
    (forall slot vn v, zget (s_vars S) vn = Some v -> 0 <= slot < Bf -> b * Bf + slot < s_nrecs S -> cnt slot vn = cnt' slot vn) ->
    Ready b cnt log st -> Ready b cnt' log st.
  Proof.
    intros H [R1 R2 R3 R4 R5 R6 R7]. constructor; auto. intros slot vn. rewrite R6. unfold bufspec.
    destruct (zget (s_vars S) vn) as [v|] eqn:E; auto.
    destruct (sv_dec S v && active v (b * Bf + slot)) eqn:E0; cbn [andb]; auto.
    destruct (Z.leb_spec 0 slot), (Z.ltb_spec slot Bf), (Z.ltb_spec (b * Bf + slot) (s_nrecs S)); cbn [andb]; auto.
    now rewrite (H slot vn v).
  Qed.

  Lemma recdim_ok (fi : infile) : piece S n fi ->
    (if in_rec fi <? 0 then Ok 1 else do rd <- oget (in_dims fi) (in_rec fi) ; Ok (rd_len rd)) = Ok (s_nrecs S).
  Proof.
    intros HP. rewrite (pc_rec _ _ _ HP). destruct (so_rec S HS) as [[-> ->]|(R & E & D)]; [reflexivity|].
    destruct (Z.ltb_spec (s_rec S) 0); [lia|].
    destruct (dim_get S n fi HP (s_rec S) R) as (rd & Er & Dr). unfold oget. rewrite Er. cbn [bind].
    unfold dim_piece in Dr. destruct (rd_decomp rd) as [[[[? ?] ?] ?]|]; [destruct Dr; congruence|]. destruct Dr. congruence.
  Qed.

  Lemma records_ready b cnt log st : Ready b cnt log st -> exists st', pv_records (s_nrecs S) st = Ok (Some st') /\ Ready b cnt log st' /\ c_nfiles st' = c_nfiles st.
  Proof.
    intros HR. pose proof HR as [R1 R2 R3 R4 R5 R6 R7]. unfold pv_records. rewrite R1.
    destruct (Z.eqb_spec (s_nrecs S) 1) as [E1|].
    - rewrite R3. pose proof Bf_range. assert (Bf = 1) as EB by lia. rewrite E1, EB. cbn -[Nb].
      rewrite R4. eexists. split; [reflexivity|]. split; [|reflexivity].
      constructor; cbn; auto; try lia. unfold Nb. rewrite E1, EB. reflexivity.
    - rewrite Z.eqb_refl. cbn. rewrite R4. eexists; split; eauto.
  Qed.
  Lemma records_fresh st : Fresh st -> exists st', pv_records (s_nrecs S) st = Ok (Some st') /\ Ready 0 (fun _ _ => O) [] st' /\ c_nfiles st' = c_nfiles st.
  Proof.
    intros [F1 F2 F3 F4 F5 F6]. unfold pv_records. rewrite F1. cbn [Z.eqb Pos.eqb]. rewrite F2.
    change (if 1 <=? k then if k >? s_nrecs S then s_nrecs S else k else Z.min MAX_BF (s_nrecs S)) with Bf.
    pose proof Bf_range. destruct (Z.eqb_spec Bf 0); [lia|]. cbn [bind c_slots set_rec]. rewrite F3.
    eexists. split; [reflexivity|]. split; [|reflexivity]. constructor; cbn; auto.
    intros slot vn. rewrite F5. unfold bufspec. destruct (zget (s_vars S) vn); auto.
    destruct (_ && _); auto.
  Qed.

  (** one variable of file number i at record r *)
  Lemma pv_var_ok b i (fi : infile) r app cnt log st vn v :
    zget files i = Some fi -> b * Bf <= r < (b + 1) * Bf -> 0 <= b -> r < s_nrecs S ->
    (app = negb ((i =? 0) && (r =? 0))) ->
    zget (s_vars S) vn = Some v -> Ready b cnt log st -> cnt (r - b * Bf) vn = Z.to_nat i ->
    exists st', pv_var zero wok missing fi app r i (0, st) vn = Ok (0, st')
      /\ Ready b (fun s x => if (s =? r - b * Bf) && (x =? vn) then Datatypes.S (Z.to_nat i) else cnt s x)
           (log ++ if negb (sv_dec S v) && active v r && (i =? 0) then [ent vn v r] else []) st'
      /\ c_nfiles st' = c_nfiles st.
  Proof.
    intros Hi Hr Hb Hrn -> Hvn HR Hcnt. pose proof (piece_of i fi Hi) as HP. pose proof (zget_In _ _ _ Hvn) as Hin.
    pose proof (zget_Some_range _ _ _ Hi) as Hir. pose proof Bf_range as HB.
    destruct (var_of fi vn v HP Hvn) as (iv & Eiv & Hvp).
    unfold pv_var. cbn [negb Z.eqb]. unfold oget at 1. rewrite Eiv. cbn [bind].
    pose proof Hvp as (Hids & Hco & _). rewrite Hids. rewrite (vdims_ok S HS n fi HP v Hin). cbn [bind].
    assert (Hskip : pv_skip fi (negb ((i =? 0) && (r =? 0))) r i iv (mkds (rc_of S fi v) (map (dim_of fi) (sv_nd v)))
              = negb (active v r && (sv_dec S v || (i =? 0)))).
    { unfold pv_skip. rewrite (vdecomp_ok S HS n fi HP v Hin), (hasrec_ok S fi v), Hco, (pc_rec _ _ _ HP).
      unfold active. destruct (Z.gtb_spec r 0) as [Hr0|Hr0].
      - destruct (Z.eqb_spec r 0); [lia|]. rewrite orb_false_r.
        destruct (Z.eqb_spec (sv_coord v) (-1)) as [Ec|Ec]; cbn [negb].
        + destruct (sv_rec v); cbn [negb andb orb]; auto.
          destruct (sv_dec S v); cbn [negb andb orb]; auto. lia.
        + destruct (sv_rec v) eqn:Er.
          * destruct (so_coord S HS v Hin Er Ec) as [E1 E2]. rewrite E1, E2, Z.eqb_refl. reflexivity.
          * destruct (Z.eqb_spec (s_rec S) (sv_coord v)) as [E|]; auto.
            rewrite (so_time S HS v Hin) in Er; [discriminate|congruence|auto].
      - assert (r = 0) by lia. subst r. cbn. rewrite orb_true_r, andb_true_r. cbn.
        destruct (sv_dec S v), (i =? 0); reflexivity. }
    rewrite Hskip. clear Hskip.
    assert (Hsame : Ready b cnt (log ++ []) st) by (rewrite app_nil_r; auto).
    destruct (active v r) eqn:Hact; cbn [andb negb].
    2:{ rewrite andb_false_r. cbn [andb]. exists st. split; auto. split; auto. destruct Hsame. constructor; auto.
        intros slot x. rewrite rd_buf0. unfold bufspec. destruct (zget (s_vars S) x) as [vx|] eqn:Ex; auto.
        destruct (Z.eqb_spec slot (r - b * Bf)); cbn [andb]; auto.
        destruct (Z.eqb_spec x vn); cbn [andb]; auto. subst.
        rewrite Hvn in Ex. inversion Ex; subst vx.
        replace (b * Bf + (r - b * Bf)) with r by lia. rewrite Hact, andb_false_r. reflexivity. }
    destruct (sv_dec S v) eqn:Hdec; cbn [orb negb andb].
    - (* decomposed *)
      destruct (data_get fi vn v iv r HP Hvn Eiv Hvp (active_record v r ltac:(lia) Hact)) as [Ed Ld]. rewrite Ed.
      rewrite (vdecomp_ok S HS n fi HP v Hin), Hdec. cbn [negb].
      pose proof HR as [R1 R2 R3 R4 R5 R6 R7]. rewrite R3, R4. cbn [bind].
      assert (r mod Bf = r - b * Bf) as Hmod.
      { rewrite <- (Z.mod_small (r - b * Bf) Bf) by lia. rewrite <- (Z.mod_add (r - b * Bf) b Bf) by lia. f_equal. lia. }
      rewrite Hmod. destruct (Z.ltb_spec (r - b * Bf) Bf); [|lia]. cbn [negb].
      assert (Htile : tile_ok (fullv v) (tilev vn v r fi)) by (apply (tile_in S HS n fi HP v Hin); auto).
      assert (HFN : Forall (fun d => 0 <= d) (fullv v)) by (apply (full_nonneg S HS n fi HP v Hin)).
      assert (Hcur : c_buf st (r - b * Bf) vn = match Z.to_nat i with O => None
           | m => Some (combined (fillv vn) (fullv v) (map (tilev vn v r) (firstn m files))) end).
      { rewrite R6. unfold bufspec. rewrite Hvn, Hdec. replace (b * Bf + (r - b * Bf)) with r by lia. rewrite Hact, Hcnt.
        destruct (Z.leb_spec 0 (r - b * Bf)); [|lia]. destruct (Z.ltb_spec (r - b * Bf) Bf); [|lia].
        destruct (Z.ltb_spec r (s_nrecs S)); [|lia]. reflexivity. }
      assert (Hb0 : (do b0 <- match c_buf st (r - b * Bf) vn with
                 | Some b1 => Ok (Some b1)
                 | None =>
                   if v_recfull (mkds (rc_of S fi v) (map (dim_of fi) (sv_nd v))) <? 0 then Ok None else
                   do fill <- (if missing then
                                 do oi <- (match c_oi st with Some oi => Ok oi | None => UB end) ;
                                 do ov <- oget (oi_vars oi) vn ;
                                 Ok (match ov_miss ov with Some m => m | None => zero end)
                               else Ok zero) ;
                   Ok (Some (repeat fill (Z.to_nat (v_recfull (mkds (rc_of S fi v) (map (dim_of fi) (sv_nd v)))))))
                 end ;
        match b0 with
        | None => Ok (1, st)
        | Some b1 => do b2 <- place_tile (mkds (rc_of S fi v) (map (dim_of fi) (sv_nd v))) r (data_of fi vn r) b1 ;
                     Ok (0, set_buf st (upd2 (c_buf st) (r - b * Bf) vn (Some b2)))
        end)
        = (do b2 <- place_tile (mkds (rc_of S fi v) (map (dim_of fi) (sv_nd v))) r (data_of fi vn r)
                (combined (fillv vn) (fullv v) (map (tilev vn v r) (firstn (Z.to_nat i) files))) ;
                     Ok (0, set_buf st (upd2 (c_buf st) (r - b * Bf) vn (Some b2))))).
      { rewrite Hcur. destruct (Z.to_nat i) as [|m] eqn:Em; [|reflexivity].
        rewrite (recfull_ok S HS n fi HP v Hin). fold (fullv v). pose proof (size_nonneg _ HFN).
        destruct (Z.ltb_spec (size (fullv v)) 0); [lia|].
        assert ((if missing then
                   do oi <- (match c_oi st with Some oi => Ok oi | None => UB end) ;
                   do ov <- oget (oi_vars oi) vn ;
                   Ok (match ov_miss ov with Some m => m | None => zero end)
                 else Ok zero) = Ok (fillv vn)) as ->; [|reflexivity].
        rewrite R5. cbn [bind]. unfold fillv, fill_of. pose proof OI_ok as (_ & _ & _ & HOV).
        destruct (HOV vn v Hvn) as (iv0 & E0 & EO). destruct missing; auto.
        unfold oget. rewrite EO, E0. cbn. destruct iv0 as [? ? [mv|] ?]; reflexivity. }
      rewrite Hb0. clear Hb0.
      rewrite (place_tile_paint (fillv vn) (rc_of S fi v) (map (dim_of fi) (sv_nd v)) r).
      + cbn [bind]. eexists. split; [reflexivity|]. split; [|reflexivity]. rewrite app_nil_r. constructor; cbn; auto.
        intros slot x. unfold upd2.
        rewrite (nd_full_ok S HS n fi HP v Hin), (nd_tile_ok S HS n fi HP v Hin). fold (fullv v). fold (tilev vn v r fi).
        rewrite <- combined_snoc.
        assert (firstn (Datatypes.S (Z.to_nat i)) files = firstn (Z.to_nat i) files ++ [fi]) as Hfn.
        { clear - Hi Hir. unfold zget in Hi. destruct (Z.ltb_spec i 0); [lia|]. clear Hir.
          revert Hi. generalize (Z.to_nat i) as m. generalize files as l. intros l m. revert l.
          induction m as [|m IH]; intros [|x l] E; simpl in *; try discriminate; try congruence. f_equal. now apply IH. }
        unfold bufspec. destruct (Z.eqb_spec slot (r - b * Bf)) as [->|Hne]; cbn [andb].
        * destruct (Z.eqb_spec x vn) as [->|Hnx].
          -- rewrite Hvn, Hdec. replace (b * Bf + (r - b * Bf)) with r by lia. rewrite Hact.
             destruct (Z.leb_spec 0 (r - b * Bf)); [|lia]. destruct (Z.ltb_spec (r - b * Bf) Bf); [|lia].
             destruct (Z.ltb_spec r (s_nrecs S)); [|lia]. cbn [andb]. rewrite Hfn, map_app. reflexivity.
          -- rewrite R6. reflexivity.
        * rewrite R6. reflexivity.
      + rewrite map_length. pose proof (so_rank S HS v Hin Hdec).
        destruct (sv_nd v) eqn:En; [unfold sv_dec in Hdec; rewrite En in Hdec; discriminate|]. cbn in *. lia.
      + rewrite (nd_full_ok S HS n fi HP v Hin), (nd_tile_ok S HS n fi HP v Hin). exact Htile.
      + rewrite (nd_full_ok S HS n fi HP v Hin). apply combined_len. now apply size_nonneg.
    - (* not decomposed *)
      destruct (Z.eqb_spec i 0) as [Ei|Ei]; cbn [andb negb].
      + subst i. inversion Hi; subst fi.
        destruct (data_get first vn v iv r HP Hvn Eiv Hvp (active_record v r ltac:(lia) Hact)) as [Ed Ld]. rewrite Ed.
        rewrite (vdecomp_ok S HS n first HP v Hin), Hdec. cbn [negb wok].
        eexists. split; [reflexivity|]. split; [|reflexivity]. destruct HR as [R1 R2 R3 R4 R5 R6 R7]. constructor; cbn; auto.
        * intros slot x. rewrite R6. unfold bufspec. destruct (zget (s_vars S) x) as [vx|] eqn:Ex; auto.
          destruct (Z.eqb_spec slot (r - b * Bf)); cbn [andb]; auto.
          destruct (Z.eqb_spec x vn); cbn [andb]; auto. subst x. rewrite Hvn in Ex. inversion Ex; subst vx. rewrite Hdec. reflexivity.
        * rewrite R7. unfold ent. rewrite Hdec.
          rewrite (outstart_nondec S HS n first HP v Hin) by auto. rewrite (count_nondec S HS n first HP v Hin) by auto. reflexivity.
      + exists st. split; auto. split; auto. destruct Hsame. constructor; auto.
        intros slot x. rewrite rd_buf0. unfold bufspec. destruct (zget (s_vars S) x) as [vx|] eqn:Ex; auto.
        destruct (Z.eqb_spec slot (r - b * Bf)); cbn [andb]; auto.
        destruct (Z.eqb_spec x vn); cbn [andb]; auto. subst x. rewrite Hvn in Ex. inversion Ex; subst vx. rewrite Hdec. reflexivity.
  Qed.

  Definition ndl (i r : Z) (l : list (Z * svar)) : list (@wr A) :=
    flat_map (fun p => if negb (sv_dec S (snd p)) && active (snd p) r && (i =? 0) then [ent (fst p) (snd p) r] else []) l.
  Definition decl (r : Z) (l : list (Z * svar)) : list (@wr A) :=
    flat_map (fun p => if sv_dec S (snd p) && active (snd p) r then [ent (fst p) (snd p) r] else []) l.

  Lemma vars_loop_ok b i (fi : infile) r app cnt log st :
    zget files i = Some fi -> b * Bf <= r < (b + 1) * Bf -> 0 <= b -> r < s_nrecs S ->
    (app = negb ((i =? 0) && (r =? 0))) ->
    Ready b cnt log st -> (forall vn, cnt (r - b * Bf) vn = Z.to_nat i) ->
    exists st', ofor 0 (zlen (in_vars fi)) (pv_var zero wok missing fi app r i) (0, st) = Ok (0, st')
      /\ Ready b (fun s x => if s =? r - b * Bf then Datatypes.S (Z.to_nat i) else cnt s x)
           (log ++ ndl i r (svnums S)) st'
      /\ c_nfiles st' = c_nfiles st.
  Proof.
    intros Hi Hr Hb Hrn Happ HR Hcnt. pose proof (piece_of i fi Hi) as HP.
    unfold ofor. rewrite (nvars_of fi HP). rewrite <- (combine_fst_zseq (s_vars S) 0). fold (svnums S). rewrite ofold_map.
    destruct (ofold_inv (fun l1 s => exists st', s = (0, st')
        /\ Ready b (fun s x => if (s =? r - b * Bf) && (x <? zlen l1) then Datatypes.S (Z.to_nat i) else cnt s x) (log ++ ndl i r l1) st'
        /\ c_nfiles st' = c_nfiles st)
      (fun s x => pv_var zero wok missing fi app r i s (fst x)) (svnums S) (0, st)) as (s' & E & st' & -> & HR' & Hnf).
    - exists st. split; auto. split; auto. cbn [ndl flat_map]. rewrite app_nil_r. apply (ready_ext b cnt); auto.
      intros slot vn v Hv _ _. rewrite zlen_nil. destruct (Z.eqb_spec slot (r - b * Bf)); cbn [andb]; auto.
      pose proof (zget_Some_range _ _ _ Hv). destruct (Z.ltb_spec vn 0); [lia|auto].
    - intros l1 [vn v] l2 s Hl (st1 & -> & HR1 & Hn1). cbn [fst snd].
      destruct (combine_zseq_app (s_vars S) 0 l1 (vn, v) l2 Hl) as [E1 E2]. cbn [fst snd] in E1, E2.
      assert (vn = zlen l1) as Evn by lia. clear E1. rewrite <- Evn in E2.
      destruct (pv_var_ok b i fi r app _ _ st1 vn v Hi Hr Hb Hrn Happ E2 HR1) as (st2 & E & HR2 & Hn2).
      { rewrite Z.eqb_refl. cbn [andb]. destruct (Z.ltb_spec vn (zlen l1)); [lia|auto]. }
      exists (0, st2). split; auto. exists st2. split; auto. split; [|congruence].
      unfold ndl in *. rewrite flat_map_app. cbn [flat_map fst snd]. rewrite app_nil_r.
      rewrite <- app_assoc in HR2. eapply ready_ext; [|exact HR2].
      intros slot x vx Hx _ _. cbv beta. rewrite zlen_app, zlen_cons, zlen_nil.
      destruct (Z.eqb_spec slot (r - b * Bf)); cbn [andb]; auto.
      destruct (Z.eqb_spec x vn), (Z.ltb_spec x (zlen l1)), (Z.ltb_spec x (zlen l1 + (1 + 0))); cbn [andb]; auto; lia.
    - exists st'. split; auto. split; auto. eapply ready_ext; [|exact HR'].
      intros slot x vx Hx _ _. cbv beta. pose proof (zget_Some_range _ _ _ Hx).
      assert (zlen (svnums S) = zlen (s_vars S)) as ->.
      { unfold svnums, zlen, zseq. rewrite combine_length, zseq_nat_length. lia. }
      destruct (Z.eqb_spec slot (r - b * Bf)); cbn [andb]; auto. destruct (Z.ltb_spec x (zlen (s_vars S))); [auto|lia].
  Qed.

  Lemma process_vars_ready b i (fi : infile) r app cnt log st :
    zget files i = Some fi -> b * Bf <= r < (b + 1) * Bf -> 0 <= b -> r < s_nrecs S ->
    (app = negb ((i =? 0) && (r =? 0))) ->
    Ready b cnt log st -> (forall vn, cnt (r - b * Bf) vn = Z.to_nat i) ->
    exists st', process_vars zero wok missing fi app r i st = Ok (0, st')
      /\ Ready b (fun s x => if s =? r - b * Bf then Datatypes.S (Z.to_nat i) else cnt s x)
           (log ++ ndl i r (svnums S)) st'
      /\ c_nfiles st' = c_nfiles st.
  Proof.
    intros Hi Hr Hb Hrn Happ HR Hcnt. unfold process_vars. rewrite (recdim_ok fi (piece_of i fi Hi)). cbn [bind].
    destruct (records_ready _ _ _ _ HR) as (st1 & -> & HR1 & N1). cbn [bind].
    destruct (vars_loop_ok b i fi r app cnt log st1 Hi Hr Hb Hrn Happ HR1 Hcnt) as (st2 & E & HR2 & N2).
    exists st2. split; auto. split; auto. congruence.
  Qed.
  Lemma process_vars_fresh st :
    Fresh st ->
    exists st', process_vars zero wok missing first false 0 0 st = Ok (0, st')
      /\ Ready 0 (fun s x => if s =? 0 then 1%nat else 0%nat) (ndl 0 0 (svnums S)) st'
      /\ c_nfiles st' = c_nfiles st.
  Proof.
    intros HR. unfold process_vars. rewrite (recdim_ok first first_piece). cbn [bind].
    destruct (records_fresh _ HR) as (st1 & -> & HR1 & N1). cbn [bind].
    pose proof Bf_range. pose proof nrecs_pos.
    destruct (vars_loop_ok 0 0 first 0 false (fun _ _ => 0%nat) [] st1 eq_refl ltac:(lia) ltac:(lia) ltac:(lia) eq_refl HR1 ltac:(auto)) as (st2 & E & HR2 & N2).
    exists st2. split; auto. split; [|congruence]. eapply ready_ext; [|exact HR2]. intros slot vn v _ _ _. cbn. auto.
  Qed.

  (** the records of block b *)
  Definition brecs (b : Z) : list Z := zseq (b * Bf) (Z.min ((b + 1) * Bf) (s_nrecs S) - b * Bf).
  Definition ndb (i b : Z) : list (@wr A) := flat_map (fun r => ndl i r (svnums S)) (brecs b).
  Definition decb (b : Z) : list (@wr A) := flat_map (fun r => decl r (svnums S)) (brecs b).

  Lemma rec_rest_ok b i (fi : infile) log st m :
    zget files i = Some fi -> 0 <= b -> 1 <= m -> b * Bf + m <= Z.min ((b + 1) * Bf) (s_nrecs S) ->
    Ready b (fun s x => if s <? 1 then Datatypes.S (Z.to_nat i) else Z.to_nat i) log st ->
    exists st', ofor (b * Bf + 1) (m - 1) (fun '(e, st) r =>
        do '(e1, st) <- process_vars zero wok missing fi true r i st ; Ok ((e + e1) mod 256, st)) (0, st) = Ok (0, st')
      /\ Ready b (fun s x => if s <? m then Datatypes.S (Z.to_nat i) else Z.to_nat i)
           (log ++ flat_map (fun r => ndl i r (svnums S)) (zseq (b * Bf + 1) (m - 1))) st'
      /\ c_nfiles st' = c_nfiles st.
  Proof.
    intros Hi Hb Hm Hlim HR. pose proof Bf_range.
    destruct (ofor_inv (fun r s => exists st', s = (0, st')
       /\ Ready b (fun s x => if s <? r - b * Bf then Datatypes.S (Z.to_nat i) else Z.to_nat i)
           (log ++ flat_map (fun r => ndl i r (svnums S)) (zseq (b * Bf + 1) (r - (b * Bf + 1)))) st'
       /\ c_nfiles st' = c_nfiles st)
      (fun '(e, st) r => do '(e1, st) <- process_vars zero wok missing fi true r i st ; Ok ((e + e1) mod 256, st))
      (b * Bf + 1) (m - 1) (0, st)) as (s' & E & st' & -> & HR' & N'); [lia| | |].
    - exists st. split; auto. split; auto. rewrite zseq_nonpos by lia. cbn. rewrite app_nil_r.
      replace (b * Bf + 1 - b * Bf) with 1 by lia. auto.
    - intros r s Hr (st1 & -> & HR1 & N1).
      assert (0 <= b * Bf) by nia.
      assert (Happ : true = negb ((i =? 0) && (r =? 0))) by (destruct (Z.eqb_spec r 0); [lia|]; now rewrite andb_false_r).
      destruct (process_vars_ready b i fi r true _ _ st1 Hi ltac:(lia) Hb ltac:(lia) Happ HR1) as (st2 & E & HR2 & N2).
      { intros vn. cbv beta. destruct (Z.ltb_spec (r - b * Bf) (r - b * Bf)); [lia|auto]. }
      rewrite E. cbn [bind]. eexists. split; [reflexivity|]. exists st2. split; auto. split; [|congruence].
      replace (r + 1 - (b * Bf + 1)) with ((r - (b * Bf + 1)) + 1) by lia. rewrite zseq_snoc by lia.
      rewrite flat_map_app. cbn [flat_map]. rewrite app_nil_r, app_assoc.
      replace (b * Bf + 1 + (r - (b * Bf + 1))) with r by lia.
      eapply ready_ext; [|exact HR2]. intros slot vn v _ _ _. cbv beta.
      destruct (Z.eqb_spec slot (r - b * Bf)), (Z.ltb_spec slot (r - b * Bf)), (Z.ltb_spec slot (r + 1 - b * Bf)); auto; lia.
    - exists st'. split; auto. split; auto. replace (b * Bf + 1 + (m - 1) - b * Bf) with m in HR' by lia.
      replace (b * Bf + 1 + (m - 1) - (b * Bf + 1)) with (m - 1) in HR' by lia. exact HR'.
  Qed.

  Definition filecnt (i : Z) : Z -> Z -> nat := fun _ _ => Z.to_nat i.

  Lemma brecs_cons b : 0 <= b < Nb ->
    brecs b = b * Bf :: zseq (b * Bf + 1) (Z.min ((b + 1) * Bf) (s_nrecs S) - b * Bf - 1).
  Proof. intros Hb. unfold brecs. pose proof Nb_spec. pose proof Bf_range. rewrite zseq_S by nia. reflexivity. Qed.

  Lemma rec_loop_ready b i (fi : infile) app log st :
    zget files i = Some fi -> 0 <= b < Nb -> app = negb ((i =? 0) && (b =? 0)) ->
    Ready b (filecnt i) log st ->
    exists st', rec_loop zero wok missing fi app b i st = Ok (0, st')
      /\ Ready b (filecnt (i + 1)) (log ++ ndb i b) st' /\ c_nfiles st' = c_nfiles st.
  Proof.
    intros Hi Hb Happ HR. pose proof Nb_spec. pose proof Bf_range as HB. pose proof (zget_Some_range _ _ _ Hi).
    unfold rec_loop. rewrite (rd_bf _ _ _ _ HR).
    assert (b * Bf < s_nrecs S) by nia.
    assert (Happ' : app = negb ((i =? 0) && (b * Bf =? 0))).
    { rewrite Happ. do 2 f_equal. destruct (Z.eqb_spec b 0), (Z.eqb_spec (b * Bf) 0); auto; nia. }
    destruct (process_vars_ready b i fi (b * Bf) app _ _ st Hi ltac:(lia) ltac:(lia) ltac:(lia) Happ' HR ltac:(auto)) as (st1 & -> & HR1 & N1).
    cbn [bind]. rewrite (rd_bf _ _ _ _ HR1), (rd_nrecs _ _ _ _ HR1).
    set (m := Z.min ((b + 1) * Bf) (s_nrecs S) - b * Bf).
    replace (Z.min ((b + 1) * Bf) (s_nrecs S) - (b * Bf + 1)) with (m - 1) by (unfold m; lia).
    change (0 mod 256) with 0.
    destruct (rec_rest_ok b i fi (log ++ ndl i (b * Bf) (svnums S)) st1 m Hi ltac:(lia) ltac:(unfold m; lia) ltac:(unfold m; lia))
      as (st2 & E & HR2 & N2).
    { eapply ready_ext; [|exact HR1]. intros slot vn v _ Hs _. cbv beta. unfold filecnt.
      destruct (Z.eqb_spec slot (b * Bf - b * Bf)), (Z.ltb_spec slot 1); auto; lia. }
    exists st2. split; [exact E|]. split; [|congruence].
    unfold ndb. rewrite brecs_cons by lia. cbn [flat_map]. rewrite app_assoc. fold m.
    eapply ready_ext; [|exact HR2]. intros slot vn v _ Hs Hs2. cbv beta. unfold filecnt.
    destruct (Z.ltb_spec slot m); [lia|]. unfold m in *. lia.
  Qed.

  Lemma rec_loop_fresh st : Fresh st ->
    exists st', rec_loop zero wok missing first false 0 0 st = Ok (0, st')
      /\ Ready 0 (filecnt 1) (ndb 0 0) st' /\ c_nfiles st' = c_nfiles st.
  Proof.
    intros HR. pose proof Nb_spec. pose proof Nb_pos. pose proof Bf_range as HB. pose proof nrecs_pos.
    unfold rec_loop. rewrite Z.mul_0_l.
    destruct (process_vars_fresh st HR) as (st1 & -> & HR1 & N1).
    cbn [bind]. rewrite (rd_bf _ _ _ _ HR1), (rd_nrecs _ _ _ _ HR1).
    set (m := Z.min ((0 + 1) * Bf) (s_nrecs S)).
    replace (m - (0 + 1)) with (m - 1) by lia. change (0 mod 256) with 0.
    destruct (rec_rest_ok 0 0 first (ndl 0 0 (svnums S)) st1 m eq_refl ltac:(lia) ltac:(unfold m; lia) ltac:(unfold m; lia))
      as (st2 & E & HR2 & N2).
    { eapply ready_ext; [|exact HR1]. intros slot vn v _ Hs _. cbv beta.
      destruct (Z.eqb_spec slot 0), (Z.ltb_spec slot 1); auto; lia. }
    rewrite Z.mul_0_l in E, HR2. exists st2. split; [exact E|]. split; [|congruence].
    unfold ndb. rewrite brecs_cons by lia. cbn [flat_map]. rewrite Z.mul_0_l. replace (Z.min ((0 + 1) * Bf) (s_nrecs S) - 0 - 1) with (m - 1) by (unfold m; lia).
    eapply ready_ext; [|exact HR2]. intros slot vn v _ Hs Hs2. cbv beta. unfold filecnt.
    destruct (Z.ltb_spec slot m); [auto|]. unfold m in *. lia.
  Qed.

  Definition with_nfiles (st : @cst A) (m : Z) : @cst A := set_oi st m (c_oi st).
  Lemma process_file_ready b i (fi : infile) log st :
    zget files i = Some fi -> 0 <= b < Nb -> (0 < i \/ 0 < b) ->
    Ready b (filecnt i) log st ->
    exists st', process_file zero wok missing (Some fi) true b i st = Ok (0, st')
      /\ Ready b (filecnt (i + 1)) (log ++ ndb i b) st' /\ c_nfiles st' = n.
  Proof.
    intros Hi Hb Hib HR. pose proof (piece_of i fi Hi) as HP. unfold process_file. rewrite (pc_n _ _ _ HP). cbn [bind].
    rewrite (rd_oi _ _ _ _ HR).
    assert ((if b =? 0 then Some {| oi_nvars := zlen (in_vars fi); oi_rec := in_rec fi; oi_full := oi_full OI; oi_vars := oi_vars OI |} else Some OI) = Some OI) as ->.
    { destruct (b =? 0); auto. destruct OI_ok as (E1 & E2 & _). rewrite (nvars_of fi HP), (pc_rec _ _ _ HP), <- E1, <- E2. destruct OI; reflexivity. }
    assert (HR' : Ready b (filecnt i) log (set_oi st n (Some OI))) by (destruct HR; constructor; auto).
    assert (Happ : true = negb ((i =? 0) && (b =? 0))).
    { destruct (Z.eqb_spec i 0), (Z.eqb_spec b 0); auto; lia. }
    destruct (rec_loop_ready b i fi true log _ Hi Hb Happ HR') as (st' & E & H1 & H2).
    exists st'. auto.
  Qed.
  Lemma process_file_fresh st : Fresh (set_oi st n (Some OI)) ->
    exists st', process_file zero wok missing (Some first) false 0 0 st = Ok (0, st')
      /\ Ready 0 (filecnt 1) (ndb 0 0) st' /\ c_nfiles st' = n.
  Proof.
    intros HR. pose proof first_piece as HP. unfold process_file. rewrite (pc_n _ _ _ HP). rewrite HOI. cbn [bind].
    destruct (rec_loop_fresh _ HR) as (st' & E & H1 & H2). exists st'. auto.
  Qed.

  Lemma flush_var_ok b r log st vn v :
    b * Bf <= r < (b + 1) * Bf -> 0 <= b -> r < s_nrecs S -> zget (s_vars S) vn = Some v ->
    Ready b (filecnt n) log st ->
    exists st', flush_var wok r OI (0, st) vn = Ok (0, st')
      /\ Ready b (filecnt n) (log ++ if sv_dec S v && active v r then [ent vn v r] else []) st' /\ c_nfiles st' = c_nfiles st.
  Proof.
    intros Hr Hb Hrn Hvn HR. pose proof (zget_In _ _ _ Hvn) as Hin. pose proof Bf_range.
    destruct OI_ok as (E1 & E2 & E3 & E4). destruct (E4 vn v Hvn) as (iv & Eiv & Eo).
    unfold flush_var. cbn [negb Z.eqb]. unfold oget at 1. rewrite Eo. cbn [bind ov_decomp ov_dims].
    destruct (sv_dec S v) eqn:Hdec; cbn [negb andb].
    2:{ exists st. rewrite app_nil_r. auto. }
    rewrite E2.
    assert (Hex : existsb (fun id => id =? s_rec S) (sv_ids S v) = sv_rec v).
    { unfold sv_ids. rewrite existsb_app.
      assert (existsb (fun id => id =? s_rec S) (sv_nd v) = false) as ->.
      { destruct (existsb (fun id => id =? s_rec S) (sv_nd v)) eqn:Ex; auto. apply existsb_exists in Ex.
        destruct Ex as (id & Hid & Eid). destruct (so_ids S HS v id Hin Hid). lia. }
      rewrite orb_false_r. destruct (sv_rec v); cbn; auto. now rewrite Z.eqb_refl. }
    rewrite Hex.
    assert (Hact : negb (sv_rec v) && (r >? 0) = negb (active v r)).
    { unfold active. destruct (sv_rec v); cbn; auto. assert (0 <= r) by nia.
      destruct (Z.gtb_spec r 0), (Z.eqb_spec r 0); auto; lia. }
    rewrite Hact. destruct (active v r) eqn:Ha; cbn [negb].
    2:{ exists st. rewrite app_nil_r. auto. }
    assert (Hcount : ofold (fun acc id => if id =? s_rec S then Ok (acc ++ [1])
                                      else do x <- oget (oi_full OI) id ; Ok (acc ++ [x])) (sv_ids S v) []
             = Ok ((if sv_rec v then [1] else []) ++ fullv v)).
    { assert (forall l acc, (forall id, In id l -> 0 <= id < zlen (s_full S) /\ id <> s_rec S) ->
         ofold (fun acc id => if id =? s_rec S then Ok (acc ++ [1])
                                      else do x <- oget (oi_full OI) id ; Ok (acc ++ [x])) l acc
         = Ok (acc ++ map (full_of S) l)) as K.
      { induction l as [|id l IH]; intros acc Hl; cbn; [now rewrite app_nil_r|].
        destruct (Hl id ltac:(simpl; auto)) as [R1 R2]. destruct (Z.eqb_spec id (s_rec S)); [lia|].
        unfold oget at 1. rewrite (E3 id R1). cbn [bind]. rewrite IH by (intros; apply Hl; simpl; auto).
        rewrite <- app_assoc. reflexivity. }
      unfold sv_ids. rewrite ofold_app. destruct (sv_rec v); cbn [ofold bind app].
      - rewrite Z.eqb_refl. cbn [bind]. rewrite K; [reflexivity|]. intros; now apply (so_ids S HS v).
      - rewrite K; [reflexivity|]. intros; now apply (so_ids S HS v). }
    rewrite Hcount. cbn [bind]. rewrite (rd_bf _ _ _ _ HR).
    assert (r mod Bf = r - b * Bf) as ->.
    { rewrite <- (Z.mod_small (r - b * Bf) Bf) by lia. rewrite <- (Z.mod_add (r - b * Bf) b Bf) by lia. f_equal. lia. }
    rewrite (rd_buf _ _ _ _ HR). unfold bufspec. rewrite Hvn, Hdec. replace (b * Bf + (r - b * Bf)) with r by lia. rewrite Ha.
    destruct (Z.leb_spec 0 (r - b * Bf)); [|lia]. destruct (Z.ltb_spec (r - b * Bf) Bf); [|lia].
    destruct (Z.ltb_spec r (s_nrecs S)); [|lia]. cbn [andb].
    assert (Hn : Z.to_nat n = length files) by (unfold n, zlen; lia).
    assert (Hfc : filecnt n (r - b * Bf) vn = Datatypes.S (length rest)) by (unfold filecnt; exact Hn). rewrite Hfc.
    cbn [wok]. change (Datatypes.S (length rest)) with (length files). rewrite firstn_all. eexists. split; [reflexivity|]. split; [|reflexivity].
    destruct HR. constructor; auto. cbn [add_log c_log]. rewrite rd_log0. do 2 f_equal. unfold ent. rewrite Hdec. f_equal.
    unfold sv_ids. rewrite map_app. f_equal.
    + destruct (sv_rec v); cbn; auto. now rewrite Z.eqb_refl.
    + apply map_ext_in. intros id Hid. destruct (so_ids S HS v id Hin Hid). destruct (Z.eqb_spec id (s_rec S)); [lia|auto].
  Qed.

  Lemma flush_decomp_ok b r log st :
    b * Bf <= r < (b + 1) * Bf -> 0 <= b -> r < s_nrecs S -> Ready b (filecnt n) log st ->
    exists st', flush_decomp wok r st = Ok (0, st')
      /\ Ready b (filecnt n) (log ++ decl r (svnums S)) st' /\ c_nfiles st' = c_nfiles st.
  Proof.
    intros Hr Hb Hrn HR. pose proof Bf_range. unfold flush_decomp. rewrite (rd_oi _ _ _ _ HR), (rd_bf _ _ _ _ HR). cbn [bind].
    destruct (Z.eqb_spec Bf 0); [lia|]. destruct OI_ok as (-> & _).
    unfold ofor. rewrite <- (combine_fst_zseq (s_vars S) 0). fold (svnums S). rewrite ofold_map.
    destruct (ofold_inv (fun l1 s => exists st', s = (0, st') /\ Ready b (filecnt n) (log ++ decl r l1) st' /\ c_nfiles st' = c_nfiles st)
      (fun s x => flush_var wok r OI s (fst x)) (svnums S) (0, st)) as (s' & E & st' & -> & HR' & Hnf).
    - exists st. cbn. rewrite app_nil_r. auto.
    - intros l1 [vn v] l2 s Hl (st1 & -> & HR1 & Hn1). cbn [fst].
      destruct (combine_zseq_app (s_vars S) 0 l1 (vn, v) l2 Hl) as [Ea Eb]. cbn [fst snd] in Ea, Eb.
      assert (zlen l1 = vn) as Ec by lia. rewrite Ec in Eb.
      destruct (flush_var_ok b r _ st1 vn v Hr Hb Hrn Eb HR1) as (st2 & E & HR2 & N2).
      exists (0, st2). split; auto. exists st2. split; auto. split; [|congruence].
      unfold decl in *. rewrite flat_map_app. cbn [flat_map fst snd]. rewrite app_nil_r, app_assoc. exact HR2.
    - exists st'. auto.
  Qed.

  Lemma flush_block_ok b log st : 0 <= b < Nb -> Ready b (filecnt n) log st ->
    exists st', flush_block wok b 0 st = Ok (0, st') /\ Ready b (filecnt n) (log ++ decb b) st' /\ c_nfiles st' = c_nfiles st.
  Proof.
    intros Hb HR. pose proof Nb_spec. pose proof Bf_range. unfold flush_block. rewrite (rd_bf _ _ _ _ HR), (rd_nrecs _ _ _ _ HR).
    set (m := Z.min ((b + 1) * Bf) (s_nrecs S) - b * Bf).
    destruct (ofor_inv (fun r s => exists st', s = (0, st')
       /\ Ready b (filecnt n) (log ++ flat_map (fun r => decl r (svnums S)) (zseq (b * Bf) (r - b * Bf))) st' /\ c_nfiles st' = c_nfiles st)
      (fun '(e, st) r => do '(e1, st) <- flush_decomp wok r st ; Ok ((e + e1) mod 256, st)) (b * Bf) m (0, st))
      as (s' & E & st' & -> & HR' & N'); [unfold m; nia| | |].
    - exists st. split; auto. rewrite zseq_nonpos by lia. cbn. rewrite app_nil_r. auto.
    - intros r s Hr (st1 & -> & HR1 & N1). unfold m in Hr.
      destruct (flush_decomp_ok b r _ st1 ltac:(lia) ltac:(lia) ltac:(lia) HR1) as (st2 & -> & HR2 & N2). cbn [bind].
      eexists. split; [reflexivity|]. exists st2. split; auto. split; [|congruence].
      replace (r + 1 - b * Bf) with (r - b * Bf + 1) by lia. rewrite zseq_snoc by lia. rewrite flat_map_app. cbn [flat_map].
      rewrite app_nil_r, app_assoc. replace (b * Bf + (r - b * Bf)) with r by lia. exact HR2.
    - exists st'. split; auto. split; auto. unfold decb, brecs. fold m. replace (b * Bf + m - b * Bf) with m in HR' by lia. exact HR'.
  Qed.

  (** a file without elements of decomposed variables *)
  Definition void (fi : infile) : Prop := forall vn v r, zget (s_vars S) vn = Some v -> sv_dec S v = true ->
    has_record S v r -> forall g, ~ covers (tilev vn v r fi) g.

  Lemma combined_void vn v r ts (fi : infile) : piece S n fi -> zget (s_vars S) vn = Some v -> sv_dec S v = true ->
    has_record S v r -> void fi ->
    combined (fillv vn) (fullv v) (map (tilev vn v r) (ts ++ [fi])) = combined (fillv vn) (fullv v) (map (tilev vn v r) ts).
  Proof.
    intros HP Ev Ed Hr HV. rewrite map_app. cbn [map]. rewrite combined_snoc.
    assert (Hin : In v (s_vars S)) by (eapply zget_In; eauto).
    assert (Hfull : Forall (fun d => 0 <= d) (fullv v)) by (apply (full_nonneg S HS n first first_piece); auto).
    pose proof (size_nonneg _ Hfull) as Hs.
    assert (HT : tile_ok (fullv v) (tilev vn v r fi)).
    { destruct (var_of fi vn v HP Ev) as (iv & Ei & HVP). destruct (data_get fi vn v iv r HP Ev Ei HVP Hr) as [_ L].
      apply (tile_in S HS n fi HP); auto. }
    set (c := combined _ _ _). assert (Lc : zlen c = size (fullv v)) by (apply combined_len; auto).
    apply zget_ext; [rewrite paint_len; auto|]. intros p Hp. rewrite paint_len in Hp by auto.
    destruct (unpos_spec (fullv v) p Hfull ltac:(lia)) as [V P]. rewrite <- P. apply paint_out; auto.
  Qed.

  Lemma ready_void b i (fi : infile) log st : 0 < i -> 0 <= b -> zget files i = Some fi -> void fi ->
    Ready b (filecnt i) log st -> Ready b (filecnt (i + 1)) log st.
  Proof.
    intros Hi Hb Ei HV [R1 R2 R3 R4 R5 R6 R7]. constructor; auto. intros slot vn. rewrite R6. unfold bufspec, filecnt.
    pose proof Bf_range as HB.
    destruct (zget (s_vars S) vn) as [v|] eqn:E; auto.
    destruct (sv_dec S v) eqn:Ed; cbn [andb]; auto. destruct (active v (b * Bf + slot)) eqn:E0; cbn [andb]; auto.
    destruct (Z.leb_spec 0 slot), (Z.ltb_spec slot Bf), (Z.ltb_spec (b * Bf + slot) (s_nrecs S)); cbn [andb]; auto.
    assert (Z.to_nat (i + 1) = Datatypes.S (Z.to_nat i)) as -> by lia.
    destruct (Z.to_nat i) as [|m] eqn:Em; [lia|]. f_equal. rewrite <- Em.
    assert (firstn (Datatypes.S (Z.to_nat i)) files = firstn (Z.to_nat i) files ++ [fi]) as ->.
    { clear - Ei Hi. unfold zget in Ei. destruct (Z.ltb_spec i 0); [lia|].
      revert Ei. generalize (Z.to_nat i) as m. generalize files as l. intros l m. revert l.
      induction m as [|m IH]; intros [|a l] Hl; try discriminate; cbn in *; [now injection Hl as ->|]. f_equal. now apply IH. }
    symmetry. apply combined_void; auto.
    - eapply piece_of; eauto.
    - apply active_record; [nia|auto].
  Qed.

  Lemma ready_voids b i log st : 0 < i <= n -> 0 <= b -> (forall j fi, i <= j -> zget files j = Some fi -> void fi) ->
    Ready b (filecnt i) log st -> Ready b (filecnt n) log st.
  Proof.
    intros Hi Hb HV HR. remember (Z.to_nat (n - i)) as q eqn:Eq. revert i Hi HV HR Eq.
    induction q as [|q IH]; intros i Hi HV HR Eq; [replace n with i by lia; auto|].
    apply (IH (i + 1)); [lia| |  |lia].
    - intros j fi Hj. apply HV. lia.
    - destruct (zget_in_range files i ltac:(fold n; lia)) as (fi & Ei). eapply ready_void; eauto; try lia. apply (HV i); auto. lia.
  Qed.

  (** ** The file loop *)
  Context (o : copts) (fs : @fsys A) (Hom : o_missing o = missing).

  (** [m] of the [n] files are looked at; those of them in [gap] do not exist (-f).
      Their places, and the places from m on, are filled by files without elements. *)
  Context (gap : Z -> bool) (Hg0 : gap 0 = false) (Hforce : forall i, gap i = true -> o_force o = true)
    (Hgap : forall i fi, gap i = true -> zget files i = Some fi -> void fi)
    (m : Z) (Hm : 1 <= m <= n) (Hrest : forall j fi, m <= j -> zget files j = Some fi -> void fi).
  Definition given (i : Z) (nm : fname) (fi : infile) : Prop := fs nm = if gap i then None else Some (Some fi).
  Definition gaps (i : Z) : bool := existsb gap (zseq 0 i).
  Definition errs (b i : Z) : bool := gaps (if b =? 0 then i else m).
  Lemma gaps_S i : 0 <= i -> gaps (i + 1) = gaps i || gap i.
  Proof. intros Hi. unfold gaps. rewrite zseq_snoc by lia. rewrite existsb_app. cbn. now rewrite orb_false_r. Qed.
  Lemma gaps_in i : 0 <= i < m -> gap i = true -> gaps m = true.
  Proof. intros Hi Hg. unfold gaps. apply existsb_exists. exists i. split; auto. apply In_zseq. lia. Qed.
  Lemma errs_S b i : 0 <= i < m -> errs b (i + 1) = errs b i || gap i.
  Proof.
    intros Hi. unfold errs. destruct (b =? 0); [apply gaps_S; lia|]. destruct (gap i) eqn:E; [|now rewrite orb_false_r].
    rewrite (gaps_in i) by auto. reflexivity.
  Qed.

  (** state of the driver: block b, i files done *)
  Record DInv (b i : Z) (log : list (@wr A)) (d : @dst A) : Prop := {
    di_st : if (b =? 0) && (i =? 0)
            then (forall oi, oi = Some OI -> Fresh (set_oi (d_st d) n oi)) /\ log = [] /\ c_nblocks (d_st d) = 1
            else Ready b (filecnt i) log (d_st d) /\ c_nfiles (d_st d) = n;
    di_app : d_app d = negb ((b =? 0) && (i =? 0));
    di_f : d_f d = i; di_inerr : d_inerr d = errs b i; di_outerr : d_outerr d = 0; di_stop : d_stop d = None }.

  Lemma ndb_pos i b : i <> 0 -> ndb i b = [].
  Proof.
    intros Hi. unfold ndb. assert (forall l, flat_map (fun r => ndl i r (svnums S)) l = []) as K; [|apply K].
    induction l as [|r l IH]; cbn [flat_map]; auto. rewrite IH, app_nil_r. unfold ndl. generalize (svnums S) as sv.
    induction sv as [|p sv IHs]; cbn [flat_map]; auto. rewrite IHs. destruct (Z.eqb_spec i 0); [lia|]. now rewrite andb_false_r.
  Qed.

  (** one file, not the last *)
  Lemma do_file_mid b i (fi : infile) nm me first_ last log d :
    zget files i = Some fi -> given i nm fi -> 0 <= b < Nb -> i + 1 < m ->
    (forall d', d_f d' = i + 1 -> d_nend d' = (if first_ && (n >? 0) then o_start o + n else d_nend d) -> last d' = false) ->
    DInv b i log d ->
    exists d', do_file zero wok o fs nm b me first_ last d = Ok d' /\ DInv b (i + 1) (log ++ ndb i b) d'
      /\ d_pe d' = d_pe d /\ d_used d' = d_used d /\ d_break d' = false
      /\ d_nend d' = (if first_ && (n >? 0) then o_start o + n else d_nend d).
  Proof.
    intros Hi Hf Hb Hlt Hlast HD. pose proof (zget_Some_range _ _ _ Hi) as Hir.
    unfold do_file. rewrite Hom.
    assert ((match fs nm with None => true | _ => false end) && negb (o_force o) = false) as ->.
    { rewrite Hf. destruct (gap i) eqn:Eg; auto. now rewrite (Hforce i). }
    assert (exists e st', process_file zero wok missing (match fs nm with Some x => x | None => None end) (d_app d) b (d_f d) (d_st d) = Ok (e, st')
      /\ (match fs nm with None => true | _ => false end) || negb (e =? 0) = gap i
      /\ Ready b (filecnt (i + 1)) (log ++ ndb i b) st' /\ c_nfiles st' = n) as (e0 & st' & E & Ee & HR & N).
    { rewrite Hf. destruct (gap i) eqn:Eg.
      { destruct (Z.eq_dec i 0) as [->|Hi0]; [congruence|]. exists 1, (d_st d). split; [reflexivity|]. split; [reflexivity|].
        rewrite ndb_pos, app_nil_r by auto. destruct HD as [D1 _ _ _ _ _].
        destruct (Z.eqb_spec i 0); [lia|]. rewrite andb_false_r in D1. destruct D1 as [D1 D1']. split; auto.
        eapply ready_void; eauto; lia. }
      exists 0. cbn [orb negb Z.eqb].
      enough (exists st', process_file zero wok missing (Some fi) (d_app d) b (d_f d) (d_st d) = Ok (0, st')
        /\ Ready b (filecnt (i + 1)) (log ++ ndb i b) st' /\ c_nfiles st' = n) as (st' & K) by (exists st'; intuition).
      destruct HD as [D1 D2 D3 D4 D5 D6]. rewrite D2, D3.
      destruct ((b =? 0) && (i =? 0)) eqn:Eb.
      - destruct (Z.eqb_spec b 0) as [Eb0|]; [|discriminate]. destruct (Z.eqb_spec i 0) as [Ei0|]; [|discriminate].
        rewrite Eb0, Ei0 in *. cbn in Hi. injection Hi as <-.
        destruct D1 as (D1 & -> & _). apply process_file_fresh. now apply D1.
      - destruct D1. cbn [negb]. apply process_file_ready; auto.
        destruct (Z.eqb_spec b 0), (Z.eqb_spec i 0); try discriminate; lia. }
    rewrite E. cbn [bind]. rewrite N. cbn [d_f].
    pose proof HD as [D1 D2 D3 D4 D5 D6]. rewrite D3.
    destruct (Z.eqb_spec (i + 1) n); [lia|]. cbn [orb]. rewrite Hlast by (cbn; auto).
    eexists. split; [reflexivity|]. split; [|repeat split].
    constructor; cbn; auto.
    - destruct (Z.eqb_spec (i + 1) 0); [lia|]. rewrite andb_false_r. auto.
    - destruct (Z.eqb_spec (i + 1) 0); [lia|]. rewrite andb_false_r. auto.
    - rewrite <- orb_assoc, Ee, D4, errs_S by lia. reflexivity.
  Qed.

  (** the last file of the set: flush *)
  Lemma do_file_last b i (fi : infile) nm (me first_ : bool) last log d :
    zget files i = Some fi -> given i nm fi -> 0 <= b < Nb -> i + 1 = m -> (m = n \/ forall d, last d = true) ->
    DInv b i log d ->
    exists d', do_file zero wok o fs nm b me first_ last d = Ok d'
      /\ Ready b (filecnt n) (log ++ ndb i b ++ decb b) (d_st d') /\ c_nfiles (d_st d') = n
      /\ d_app d' = true /\ d_inerr d' = gaps m /\ d_outerr d' = 0 /\ d_stop d' = None
      /\ d_pe d' = d_pe d /\ d_used d' = (if me then m else d_used d) /\ d_break d' = me
      /\ d_f d' = (if me then m else 0)
      /\ d_nend d' = (if first_ && (n >? 0) then o_start o + n else d_nend d).
  Proof.
    intros Hi Hf Hb Hlt Hl HD. pose proof (zget_Some_range _ _ _ Hi) as Hir.
    unfold do_file. rewrite Hom.
    assert ((match fs nm with None => true | _ => false end) && negb (o_force o) = false) as ->.
    { rewrite Hf. destruct (gap i) eqn:Eg; auto. now rewrite (Hforce i). }
    assert (exists e st', process_file zero wok missing (match fs nm with Some x => x | None => None end) (d_app d) b (d_f d) (d_st d) = Ok (e, st')
      /\ (match fs nm with None => true | _ => false end) || negb (e =? 0) = gap i
      /\ Ready b (filecnt (i + 1)) (log ++ ndb i b) st' /\ c_nfiles st' = n) as (e0 & st' & E & Ee & HR & N).
    { rewrite Hf. destruct (gap i) eqn:Eg.
      { destruct (Z.eq_dec i 0) as [->|Hi0]; [congruence|]. exists 1, (d_st d). split; [reflexivity|]. split; [reflexivity|].
        rewrite ndb_pos, app_nil_r by auto. destruct HD as [D1 _ _ _ _ _].
        destruct (Z.eqb_spec i 0); [lia|]. rewrite andb_false_r in D1. destruct D1 as [D1 D1']. split; auto.
        eapply ready_void; eauto; lia. }
      exists 0. cbn [orb negb Z.eqb].
      enough (exists st', process_file zero wok missing (Some fi) (d_app d) b (d_f d) (d_st d) = Ok (0, st')
        /\ Ready b (filecnt (i + 1)) (log ++ ndb i b) st' /\ c_nfiles st' = n) as (st' & K) by (exists st'; intuition).
      destruct HD as [D1 D2 D3 D4 D5 D6]. rewrite D2, D3.
      destruct ((b =? 0) && (i =? 0)) eqn:Eb.
      - destruct (Z.eqb_spec b 0) as [Eb0|]; [|discriminate]. destruct (Z.eqb_spec i 0) as [Ei0|]; [|discriminate].
        rewrite Eb0, Ei0 in *. cbn in Hi. injection Hi as <-.
        destruct D1 as (D1 & -> & _). apply process_file_fresh. now apply D1.
      - destruct D1. cbn [negb]. apply process_file_ready; auto.
        destruct (Z.eqb_spec b 0), (Z.eqb_spec i 0); try discriminate; lia. }
    rewrite E. cbn [bind]. rewrite N. cbn [d_f].
    pose proof HD as [D1 D2 D3 D4 D5 D6]. rewrite D3.
    assert (forall x, (i + 1 =? n) || last x = true) as K.
    { intros x. destruct Hl as [Hl|Hl]; [|rewrite Hl; apply orb_true_r]. destruct (Z.eqb_spec (i + 1) n); [auto|lia]. }
    rewrite K. cbn [orb d_outerr]. rewrite D5.
    assert (HRn : Ready b (filecnt n) (log ++ ndb i b) st').
    { apply (ready_voids b (i + 1)); auto; try lia. intros j fj Hj. apply Hrest. lia. }
    destruct (flush_block_ok b _ st' Hb HRn) as (st2 & -> & HR2 & N2). cbn [bind].
    eexists. split; [reflexivity|]. cbn. rewrite <- app_assoc in HR2. rewrite Hlt. repeat split; auto; try apply HR2.
    - rewrite N2, N. reflexivity.
    - rewrite <- orb_assoc, Ee, D4. rewrite <- errs_S by lia. rewrite Hlt. unfold errs. now destruct (b =? 0).
  Qed.

  Record Post (b : Z) (log : list (@wr A)) (d : @dst A) : Prop := {
    po_st : Ready b (filecnt n) log (d_st d); po_n : c_nfiles (d_st d) = n; po_app : d_app d = true;
    po_inerr : d_inerr d = gaps m; po_outerr : d_outerr d = 0; po_stop : d_stop d = None }.

  Lemma n_pos : 1 <= n. Proof. unfold n, files. rewrite zlen_cons. pose proof (zlen_nonneg rest). lia. Qed.

  Lemma files_loop b lo (step : @dst A -> Z -> outcome (@dst A)) (Q : Z -> @dst A -> Prop) (Q' : @dst A -> Prop) log d :
    (forall i l d, 0 <= i < m - 1 -> DInv b i l d -> Q i d ->
       exists d', step d (lo + i) = Ok d' /\ DInv b (i + 1) (l ++ ndb i b) d' /\ Q (i + 1) d') ->
    (forall l d, DInv b (m - 1) l d -> Q (m - 1) d ->
       exists d', step d (lo + (m - 1)) = Ok d' /\ Post b (l ++ ndb (m - 1) b ++ decb b) d' /\ Q' d') ->
    DInv b 0 log d -> Q 0 d ->
    exists d', ofor lo m step d = Ok d' /\ Post b (log ++ ndb 0 b ++ decb b) d' /\ Q' d'.
  Proof.
    intros H1 H2 HD HQ. assert (Hsp : ofor lo m step d = ofor lo (m - 1 + 1) step d) by (f_equal; lia). rewrite Hsp; clear Hsp. rewrite ofor_app by lia.
    destruct (ofor_inv (fun a d => DInv b (a - lo) (log ++ if a - lo =? 0 then [] else ndb 0 b) d /\ Q (a - lo) d) step lo (m - 1) d)
      as (d1 & E & HD1 & HQ1); [lia| | |].
    - replace (lo - lo) with 0 by lia. cbn. rewrite app_nil_r. auto.
    - intros a d0 Ha [HD0 HQ0]. destruct (H1 (a - lo) _ d0 ltac:(lia) HD0 HQ0) as (d' & E & HD' & HQ').
      replace (lo + (a - lo)) with a in E by lia. exists d'. split; auto. replace (a + 1 - lo) with (a - lo + 1) by lia. split; auto.
      destruct (Z.eqb_spec (a - lo + 1) 0); [lia|]. destruct (Z.eqb_spec (a - lo) 0) as [E0|].
      + rewrite E0 in HD'. rewrite app_nil_r in HD'. rewrite E0. exact HD'.
      + rewrite (ndb_pos (a - lo)), app_nil_r in HD' by auto. exact HD'.
    - replace (lo + (m - 1) - lo) with (m - 1) in * by lia. rewrite E. cbn [bind]. rewrite ofor_S by lia.
      destruct (H2 _ d1 HD1 HQ1) as (d2 & E2 & HP & HQ2). rewrite E2. cbn [bind]. rewrite ofor_0 by lia.
      exists d2. split; auto. split; auto. destruct (Z.eqb_spec (m - 1) 0) as [E0|].
      + rewrite E0, app_nil_r in HP. exact HP.
      + rewrite (ndb_pos (m - 1)) in HP by auto. cbn [app] in HP. rewrite <- app_assoc in HP. exact HP.
  Qed.

  Definition logto (b : Z) : list (@wr A) := flat_map (fun b => ndb 0 b ++ decb b) (zseq 0 b).
  Lemma logto_S b : 0 <= b -> logto (b + 1) = logto b ++ ndb 0 b ++ decb b.
  Proof. intros Hb. unfold logto. rewrite zseq_snoc by lia. rewrite flat_map_app. cbn [flat_map]. now rewrite app_nil_r. Qed.

  (** between two blocks *)
  Lemma next_block b log d : 0 <= b -> Post b log d -> DInv (b + 1) 0 log (start_block (end_block d)).
  Proof.
    intros Hb [P1 P2 P3 P4 P5 P6]. constructor; cbn; auto.
    - destruct (Z.eqb_spec (b + 1) 0); [lia|]. cbn [andb]. split; auto. destruct P1. constructor; auto.
      cbn. intros slot vn. unfold bufspec, filecnt. destruct (zget (s_vars S) vn); auto. destruct (_ && _); auto.
    - destruct (Z.eqb_spec (b + 1) 0); [lia|]. auto.
    - unfold errs. destruct (Z.eqb_spec (b + 1) 0); [lia|]. auto.
  Qed.

  (** all blocks, given how one block behaves *)
  Lemma all_blocks_ok (one : Z -> @dst A -> outcome (@dst A)) (Q : @dst A -> Prop) d :
    (forall b log d, 0 <= b < Nb -> DInv b 0 log (start_block d) -> (b = 0 \/ Q d) ->
        (b = 0 -> d_pe d = -1 /\ d_used d = 0 /\ d_nend d = o_start o + 1) ->
        exists d', one b d = Ok (end_block d') /\ Post b (log ++ ndb 0 b ++ decb b) d' /\ Q (end_block d')) ->
    DInv 0 0 [] (start_block d) -> (d_pe d = -1 /\ d_used d = 0 /\ d_nend d = o_start o + 1) -> d_stop d = None ->
    exists d', all_blocks one d = Ok (end_block d') /\ Post (Nb - 1) (logto Nb) d' /\ Q (end_block d').
  Proof.
    intros H1 HD Hpe Hstop. pose proof Nb_pos as Hnb. unfold all_blocks. rewrite Hstop.
    destruct (H1 0 [] d ltac:(lia) HD ltac:(auto) ltac:(auto)) as (d1 & -> & HP & HQ). cbn [bind].
    assert (c_nblocks (d_st (end_block d1)) = Nb) as -> by (cbn; apply (po_st _ _ _ HP)).
    destruct (ofor_inv (fun b s => exists d', s = end_block d' /\ Post (b - 1) (logto b) d' /\ Q s)
       (fun d0 b => match d_stop d0 with Some _ => Ok d0 | None => one b d0 end) 1 (Nb - 1) (end_block d1)) as (s & E & d' & -> & HP' & HQ'); [lia| | |].
    - exists d1. split; auto. split; auto. pose proof (logto_S 0 ltac:(lia)) as L. cbn [Z.add] in L. rewrite L. exact HP.
    - intros b s Hb (d2 & -> & HP2 & HQ2). cbn [d_stop end_block]. rewrite (po_stop _ _ _ HP2).
      pose proof (next_block (b - 1) _ d2 ltac:(lia) HP2) as HD2. replace (b - 1 + 1) with b in HD2 by lia.
      destruct (H1 b (logto b) (end_block d2) ltac:(lia) HD2 ltac:(auto) ltac:(lia)) as (d3 & -> & HP3 & HQ3).
      exists (end_block d3). split; auto. exists d3. split; auto. replace (b + 1 - 1) with b by lia. rewrite logto_S by lia. auto.
    - exists d'. replace (1 + (Nb - 1)) with Nb in HP' by lia. rewrite E. auto.
  Qed.

  (** explicit names *)
  Lemma block_args_ok b log d :
    (forall i, 0 <= i < m -> exists fi, zget files i = Some fi /\ given i (NArg i) fi) ->
    0 <= b < Nb -> DInv b 0 log (start_block d) ->
    exists d', block_args zero wok o fs m b d = Ok (end_block d') /\ Post b (log ++ ndb 0 b ++ decb b) d'.
  Proof.
    intros Hfs Hb HD. unfold block_args.
    match goal with |- context [ofor 0 m ?f _] =>
      destruct (files_loop b 0 f (fun _ d => d_break d = false) (fun _ => True) log (start_block d)) as (d1 & E & HP & _) end; auto.
    - intros i l d0 Hi HD0 HQ. unfold running. rewrite (di_stop _ _ _ _ HD0), HQ. cbn [negb].
      destruct (Hfs i ltac:(lia)) as (fi & Ef & En). rewrite Z.add_0_l.
      destruct (do_file_mid b i fi (NArg i) false false (fun _ => i =? m - 1) l d0 Ef En Hb ltac:(lia)) as (d' & E & HD' & _ & _ & HB & _); auto.
      + intros. lia.
      + exists d'. auto.
    - intros l d0 HD0 HQ. unfold running. rewrite (di_stop _ _ _ _ HD0), HQ. cbn [negb].
      destruct (Hfs (m - 1) ltac:(lia)) as (fi & Ef & En). rewrite Z.add_0_l.
      destruct (do_file_last b (m - 1) fi (NArg (m - 1)) false false (fun _ => m - 1 =? m - 1) l d0 Ef En Hb ltac:(lia) ltac:(right; intros; lia) HD0)
        as (d' & E & K1 & K2 & K3 & K4 & K5 & K6 & _). exists d'. split; auto. split; auto. constructor; auto.
    - rewrite E. cbn [bind]. exists d1. auto.
  Qed.

  (** numbered names: all files of the set exist, with one width *)
  Context (w : Z).
  Definition numbered : Prop :=
    (forall i, 0 <= i < m -> exists fi, zget files i = Some fi /\ given i (NNum w (o_start o + i)) fi)
    /\ (w = 4 \/ (w = 6 /\ fs (NNum 4 (o_start o)) = None)).
  Definition peok (i : Z) (d : @dst A) : Prop := d_pe d = w \/ (i = 0 /\ d_pe d = -1).

  Lemma detect_ok i d : numbered -> 0 <= i < m -> peok i d -> detect fs (d_pe d) (o_start o + i) = Some w.
  Proof.
    intros [N1 N2] Hi [->|[-> ->]].
    - unfold detect. destruct (Z.ltb_spec w 0); auto. lia.
    - unfold detect. cbn [Z.ltb Z.compare]. rewrite Z.add_0_r. unfold exists_.
      destruct (N1 0 ltac:(lia)) as (fi & _ & E). rewrite Z.add_0_r in E. unfold given in E. rewrite Hg0 in E. destruct N2 as [->|[-> N2]].
      + rewrite E. auto.
      + rewrite N2, E. auto.
  Qed.

  Lemma DInv_pe b i log d p : DInv b i log d -> DInv b i log (with_pe d p).
  Proof. intros [D1 D2 D3 D4 D5 D6]. constructor; auto. Qed.

  (** -e given *)
  Lemma block_range_ok e b log d : numbered -> o_start o + m - 1 <= e -> (m = n \/ e = o_start o + m - 1) ->
    0 <= b < Nb -> DInv b 0 log (start_block d) -> peok 0 d ->
    exists d', block_range zero wok o fs e b d = Ok (end_block d') /\ Post b (log ++ ndb 0 b ++ decb b) d' /\ d_pe d' = w.
  Proof.
    intros HN He Hl Hb HD HP0. unfold block_range.
    replace (e - o_start o + 1) with (m + (e - o_start o + 1 - m)) by lia. rewrite ofor_app by lia.
    match goal with |- context [ofor (o_start o) m ?f _] =>
      destruct (files_loop b (o_start o) f (fun i d => d_break d = false /\ peok i d) (fun d => d_break d = true /\ d_used d = m /\ d_pe d = w) log (start_block d))
       as (d1 & E & HP & HB & HU & HW) end; auto.
    - intros i l d0 Hi HD0 [HQ Hpe]. unfold do_num, running. rewrite (di_stop _ _ _ _ HD0), HQ. cbn [negb].
      rewrite (detect_ok i d0 HN ltac:(lia) Hpe). destruct HN as [N1 N2].
      destruct (N1 i ltac:(lia)) as (fi & Ef & En).
      destruct (do_file_mid b i fi _ true false (fun _ => o_start o + i =? e) l (with_pe d0 w) Ef En Hb ltac:(lia)) as (d' & E & HD' & H1 & _ & HB & _).
      + intros. lia.
      + now apply DInv_pe.
      + exists d'. split; auto. split; auto. split; auto. left. exact H1.
    - intros l d0 HD0 [HQ Hpe]. unfold do_num, running. rewrite (di_stop _ _ _ _ HD0), HQ. cbn [negb].
      rewrite (detect_ok (m - 1) d0 HN ltac:(lia) Hpe). destruct HN as [N1 N2].
      destruct (N1 (m - 1) ltac:(lia)) as (fi & Ef & En).
      destruct (do_file_last b (m - 1) fi _ true false (fun _ => o_start o + (m - 1) =? e) l (with_pe d0 w) Ef En Hb ltac:(lia) ltac:(destruct Hl; [left; auto|right; intros; lia]) (DInv_pe _ _ _ _ _ HD0))
        as (d' & E & K1 & K2 & K3 & K4 & K5 & K6 & K7 & K8 & K9 & _). exists d'. split; auto. split; auto. constructor; auto.
    - rewrite E. cbn [bind].
      assert (ofor (o_start o + m) (e - o_start o + 1 - m) (do_num zero wok o fs b true false (fun a _ => a =? e)) d1 = Ok d1) as ->.
      { destruct (ofor_inv (fun _ d => d = d1) (do_num zero wok o fs b true false (fun a _ => a =? e)) (o_start o + m) (e - o_start o + 1 - m) d1)
          as (d2 & E2 & ->); auto; [lia|].
        intros i d2 _ ->. exists d1. split; auto. unfold do_num, running. rewrite (po_stop _ _ _ HP), HB. reflexivity. }
      cbn [bind]. rewrite (po_stop _ _ _ HP), HU. destruct (Z.eqb_spec m 0); [lia|]. exists d1. auto.
  Qed.

  (** no -e *)
  Lemma block_auto_ok b log d : numbered -> m = n ->
    0 <= b < Nb -> DInv b 0 log (start_block d) -> peok 0 d -> (b = 0 -> d_nend d = o_start o + 1) -> (b <> 0 -> d_nend d = o_start o + n) ->
    exists d', block_auto zero wok o fs b d = Ok (end_block d') /\ Post b (log ++ ndb 0 b ++ decb b) d' /\ d_pe d' = w /\ d_nend d' = o_start o + n.
  Proof.
    intros HN Hmn Hb HD HP0 He0 He1. pose proof n_pos as Hn. unfold block_auto.
    pose proof HN as [N1 N2].
    assert (Hrun : running (start_block d) = true).
    { unfold running. rewrite (di_stop _ _ _ _ HD). reflexivity. }
    assert (Hgt : (true && (n >? 0)) = true) by (destruct (Z.gtb_spec n 0); [auto|lia]).
    destruct (Z.eq_dec n 1) as [E1|E1].
    - (* a single file *)
      unfold do_num at 1. rewrite Hrun. cbn [negb].
      pose proof (detect_ok 0 (start_block d) HN ltac:(lia) HP0) as Hdet. rewrite Z.add_0_r in Hdet. rewrite Hdet.
      destruct (N1 0 ltac:(lia)) as (fi & Ef & En). rewrite Z.add_0_r in En.
      match goal with |- context [do_file zero wok o fs _ b false true ?la _] =>
      destruct (do_file_last b 0 fi _ false true la log (with_pe (start_block d) w) Ef En Hb ltac:(lia) ltac:(auto) (DInv_pe _ _ _ _ _ HD))
        as (d' & E & K1 & K2 & K3 & K4 & K5 & K6 & K7 & K8 & K9 & K10 & K11) end.
      rewrite E. cbn [bind]. rewrite Hgt in K11. rewrite K11. rewrite ofor_0 by lia. cbn [bind].
      exists d'. split; auto. split; [constructor; auto|]. auto.
    - assert (exists d1, do_num zero wok o fs b false true (fun (a : Z) (d : dst) => a =? d_nend d - 1) (start_block d) (o_start o) = Ok d1
        /\ DInv b 1 (log ++ ndb 0 b) d1 /\ d_break d1 = false /\ d_pe d1 = w /\ d_nend d1 = o_start o + n) as (d1 & E & HD1 & HB1 & HW1 & HE1).
      { unfold do_num at 1. rewrite Hrun. cbn [negb].
        pose proof (detect_ok 0 (start_block d) HN ltac:(lia) HP0) as Hdet. rewrite Z.add_0_r in Hdet. rewrite Hdet.
        destruct (N1 0 ltac:(lia)) as (fi & Ef & En). rewrite Z.add_0_r in En.
        match goal with |- context [do_file zero wok o fs _ b false true ?la _] =>
        destruct (do_file_mid b 0 fi _ false true la log (with_pe (start_block d) w) Ef En Hb ltac:(lia)) as (d' & E & HD' & H1 & _ & HB & HE) end.
        - intros d' _ ->. rewrite Hgt. lia.
        - now apply DInv_pe.
        - exists d'. rewrite Hgt in HE. split; auto. }
      rewrite E. cbn [bind]. rewrite HE1. replace (o_start o + n - (o_start o + 1)) with (n - 1 - 1 + 1) by lia.
      rewrite ofor_app by lia.
      match goal with |- context [ofor (o_start o + 1) (n - 1 - 1) ?f d1] =>
      destruct (ofor_inv (fun a d => DInv b (a - o_start o) (log ++ ndb 0 b) d /\ d_break d = false /\ d_pe d = w /\ d_nend d = o_start o + n)
         f (o_start o + 1) (n - 1 - 1) d1) as (d2 & E2 & HD2 & HB2 & HW2 & HE2) end; [lia| | |].
      + replace (o_start o + 1 - o_start o) with 1 by lia. auto.
      + intros a d0 Ha (HD0 & HB0 & HW0 & HE0). unfold do_num, running. rewrite (di_stop _ _ _ _ HD0), HB0. cbn [negb].
        pose proof (detect_ok (a - o_start o) d0 HN ltac:(lia) (or_introl HW0)) as Hdet.
        replace (o_start o + (a - o_start o)) with a in Hdet by lia. rewrite Hdet.
        destruct (N1 (a - o_start o) ltac:(lia)) as (fi & Ef & En). replace (o_start o + (a - o_start o)) with a in * by lia.
        match goal with |- context [do_file zero wok o fs _ b false false ?la _] =>
        destruct (do_file_mid b (a - o_start o) fi _ false false la (log ++ ndb 0 b) (with_pe d0 w) Ef En Hb ltac:(lia)) as (d' & E' & HD' & H1 & _ & HB & HE) end.
        * intros d' _ ->. cbn [andb with_pe d_nend]. rewrite HE0. lia.
        * now apply DInv_pe.
        * exists d'. split; auto. replace (a + 1 - o_start o) with (a - o_start o + 1) by lia.
          rewrite (ndb_pos (a - o_start o)), app_nil_r in HD' by lia. split; auto. rewrite H1, HE. auto.
      + rewrite E2. cbn [bind]. replace (o_start o + 1 + (n - 1 - 1)) with (o_start o + (n - 1)) in * by lia.
        rewrite ofor_S by lia. unfold do_num at 1. unfold running. rewrite (di_stop _ _ _ _ HD2), HB2. cbn [negb].
        rewrite (detect_ok (n - 1) d2 HN ltac:(lia) (or_introl HW2)).
        destruct (N1 (n - 1) ltac:(lia)) as (fi & Ef & En).
        replace (o_start o + (n - 1) - o_start o) with (n - 1) in HD2 by lia.
        match goal with |- context [do_file zero wok o fs _ b false false ?la _] =>
        destruct (do_file_last b (n - 1) fi _ false false la (log ++ ndb 0 b) (with_pe d2 w) Ef En Hb ltac:(lia) ltac:(auto) (DInv_pe _ _ _ _ _ HD2))
          as (d' & E' & K1 & K2 & K3 & K4 & K5 & K6 & K7 & K8 & K9 & K10 & K11) end.
        rewrite E'. cbn [bind]. rewrite ofor_0 by lia. cbn [bind]. exists d'. split; auto.
        rewrite (ndb_pos (n - 1)) in K1 by lia. cbn [app] in K1. rewrite <- app_assoc in K1.
        split; [constructor; auto|]. split; auto. rewrite K11. cbn. auto.
  Qed.
End Run.
