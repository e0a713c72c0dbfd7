(** * Proofs: scattering a dataset and combining it again *)
From Verif Require Import Base Loops Spec_Extent Spec_Hyperslab Shape M_ScatterExt T_ScatterExt M_Hyperslab M_Combine M_Scatter
  Spec_Combine Spec_CombineSet Spec_Scatter P_Assemble P_CombineSet P_CombineMain T_Combine P_Scatter.

Lemma combine_get {B} (l : list B) lo j p : zget (combine (zseq lo (zlen l)) l) j = Some p -> fst p = lo + j /\ zget l j = Some (snd p).
Proof.
  revert lo j p. induction l as [|a l IHl]; intros lo j p Hj.
  - destruct (zget_Some_range _ _ _ Hj) as [? Hr]. rewrite zlen_nil in Hj, Hr. cbn in Hr. lia.
  - rewrite zlen_cons in Hj. pose proof (zlen_nonneg l). rewrite (zseq_S lo) in Hj by lia. cbn [combine] in Hj.
    pose proof (zget_Some_range _ _ _ Hj) as R. destruct (Z.eq_dec j 0) as [->|Hne].
    + rewrite zget_cons_0 in Hj. injection Hj as <-. split; [cbn; lia|reflexivity].
    + rewrite zget_cons_pos in Hj by lia. replace (1 + zlen l - 1) with (zlen l) in Hj by lia. apply IHl in Hj. rewrite zget_cons_pos by lia.
      destruct Hj. split; [lia|auto].
Qed.
Lemma combine_zlen {B} (l : list B) lo : zlen (combine (zseq lo (zlen l)) l) = zlen l.
Proof. unfold zlen at 1. rewrite combine_length. pose proof (zlen_zseq lo (zlen l) (zlen_nonneg l)) as H. unfold zlen in *. lia. Qed.

Section M.
  Context {A : Type} (zero : A) (o : sopts) (types : list sct) (S : cset) (fi : @infile A).
  Context (HS : set_ok S) (HC : scatterable o types S) (HW : whole S fi).
  Let nd := zlen (s_full S).
  Let rec := s_rec S.
  Let full := full_of S.
  Let nx := fst (num_divs o).
  Let ny := snd (num_divs o).
  Let ty := type_of types.

  Lemma divs : 1 <= nx /\ 1 <= ny /\ nx * ny = file_count o
    /\ (sx_io o = true -> nx = sx_nxio o /\ ny = sx_nyio o /\ 1 <= nx /\ (nx | sx_nx o) /\ 1 <= ny /\ (ny | sx_ny o))
    /\ (sx_io o = false -> nx = sx_nx o /\ ny = sx_ny o).
  Proof.
    destruct (sc_pos _ _ _ HC). pose proof (sc_io _ _ _ HC) as Hio. subst nx ny. unfold num_divs, file_count, sx_io.
    destruct (Z.eqb_spec (sx_nxio o) 0) as [Ex|Nx]; destruct (Z.eqb_spec (sx_nyio o) 0) as [Ey|Ny]; cbn [negb andb orb fst snd];
      try (split; [lia|]; split; [lia|]; split; [auto|]; split; [discriminate|auto]).
    destruct Hio as [Hio|(? & ? & ? & ?)]; [lia|]. split; [lia|]. split; [lia|]. split; [auto|]. split; [auto 10|discriminate].
  Qed.

  Lemma ext_ok len ndiv nio n : 1 <= ndiv <= len -> len <= 2 ^ 24 ->
    (if sx_io o then n = nio /\ 1 <= nio /\ (nio | ndiv) else n = ndiv) ->
    exists e, scatter_dim len ndiv (if sx_io o then nio else 0) = Ok e /\ tiles len n (sd_start e) (sd_end e)
      /\ lengths_match n (sd_start e) (sd_end e) (sd_len e).
  Proof.
    intros H1 H2 H3. destruct (C06_scatter_extents_partial len ndiv H1 H2) as (s & E & T & L & H).
    destruct (sx_io o); [destruct H3 as (-> & P & D)|subst n].
    - destruct (H nio P D) as (s' & E' & T' & L' & _). eauto.
    - eauto.
  Qed.

  Definition dim_ok (id : Z) (d : sdim) : Prop :=
    sm_type d = ty id /\ (id <> rec -> sm_len d = full id)
    /\ match ty id with
       | NoSc => True
       | ScX => tiles (full id) nx (sd_start (sm_ext d)) (sd_end (sm_ext d)) /\ lengths_match nx (sd_start (sm_ext d)) (sd_end (sm_ext d)) (sd_len (sm_ext d))
       | ScY => tiles (full id) ny (sd_start (sm_ext d)) (sd_end (sm_ext d)) /\ lengths_match ny (sd_start (sm_ext d)) (sd_end (sm_ext d)) (sd_len (sm_ext d))
       end.

  Lemma one_dim_ok id : 0 <= id < nd -> exists d, one_dim o (id =? rec) (ty id) (full id) = Ok d /\ dim_ok id d.
  Proof.
    intros Hi. destruct (sc_pos _ _ _ HC) as [Px Py]. destruct divs as (Hx & Hy & _ & Dio & Dn). unfold one_dim, dim_ok.
    destruct (ty id) eqn:Et.
    - eexists. split; [reflexivity|]. cbn. split; auto. split; auto. intros N. destruct (Z.eqb_spec id rec); [contradiction|auto].
    - pose proof (sc_x _ _ _ HC id Et) as [B1 B2].
      destruct (ext_ok (full id) (sx_nx o) (sx_nxio o) nx) as (e & E & T & L); [split; assumption|assumption| |].
      { destruct (sx_io o); [destruct (Dio eq_refl) as (-> & _ & ? & ? & _); auto|apply Dn; auto]. }
      rewrite E. cbn [bind]. eexists. split; [reflexivity|]. cbn. split; auto. split; auto. intros N. destruct (Z.eqb_spec id rec); [contradiction|auto].
    - pose proof (sc_y _ _ _ HC id Et) as [B1 B2].
      destruct (ext_ok (full id) (sx_ny o) (sx_nyio o) ny) as (e & E & T & L); [split; assumption|assumption| |].
      { destruct (sx_io o); [destruct (Dio eq_refl) as (_ & -> & _ & _ & ? & ?); auto|apply Dn; auto]. }
      rewrite E. cbn [bind]. eexists. split; [reflexivity|]. cbn. split; auto. split; auto. intros N. destruct (Z.eqb_spec id rec); [contradiction|auto].
  Qed.

  Lemma types_get id : 0 <= id < nd -> zget types id = Some (ty id).
  Proof.
    intros Hi. unfold ty, type_of. destruct (zget_in_range types id) as (t & E); [rewrite (sc_types _ _ _ HC); exact Hi|]. now rewrite E.
  Qed.
  Lemma dims_get id : 0 <= id < nd -> exists rd, zget (in_dims fi) id = Some rd /\ rd_len rd = full id /\ rd_decomp rd = None.
  Proof.
    intros Hi. destruct (wh_dims _ _ HW) as [L D]. destruct (zget_in_range (in_dims fi) id) as (rd & E); [rewrite L; exact Hi|].
    exists rd. destruct (D id rd E). auto.
  Qed.

  Lemma all_dims : exists dims, ofor 0 (zlen (in_dims fi)) (fun acc id =>
        do t <- oget types id ; do rd <- oget (in_dims fi) id ;
        do d <- one_dim o (id =? in_rec fi) t (rd_len rd) ; Ok (acc ++ [d])) [] = Ok dims
      /\ forall id, 0 <= id < nd -> exists d, zget dims id = Some d /\ dim_ok id d.
  Proof.
    destruct (wh_dims _ _ HW) as [L _]. rewrite L, (wh_rec _ _ HW).
    match goal with |- context [ofor 0 ?N ?f ?s] =>
      destruct (ofor_inv (fun i l => zlen l = i /\ forall id, 0 <= id < i -> exists d, zget l id = Some d /\ dim_ok id d) f 0 N s) as (dims & E & K) end.
    - apply zlen_nonneg.
    - split; [reflexivity|]. intros. lia.
    - intros id l Hid [Ll K]. fold nd in Hid. rewrite (proj2 (oget_Ok _ _ _) (types_get id ltac:(lia))). cbn [bind].
      destruct (dims_get id ltac:(lia)) as (rd & E & Er & _). rewrite (proj2 (oget_Ok _ _ _) E). cbn [bind]. rewrite Er.
      destruct (one_dim_ok id ltac:(lia)) as (d & Ed & Hd). fold rec. rewrite Ed. cbn [bind]. eexists. split; [reflexivity|].
      split; [rewrite zlen_app, zlen_cons, zlen_nil; lia|].
      intros id' Hid'. destruct (Z.eq_dec id' id) as [->|Hne].
      + exists d. split; auto. rewrite zget_app_r by lia. replace (id - zlen l) with 0 by lia. reflexivity.
      + destruct (K id' ltac:(lia)) as (d' & E' & H'). exists d'. split; auto. rewrite zget_app_l by lia. auto.
    - exists dims. split; auto. intros id Hid. apply K. fold nd. lia.
  Qed.

  Context (dims : list sdim) (Hdims : forall id, 0 <= id < nd -> exists d, zget dims id = Some d /\ dim_ok id d).

  Definition ps (id xi yi : Z) : Z :=
    match zget dims id with Some d => match dim_part d xi yi with Ok (s, _) => s | _ => 0 end | None => 0 end.
  Definition pc (id xi yi : Z) : Z :=
    match zget dims id with Some d => match dim_part d xi yi with Ok (_, c) => c | _ => 0 end | None => 0 end.

  Lemma part_ok id xi yi : 0 <= id < nd -> id <> rec -> 0 <= xi < nx -> 0 <= yi < ny ->
    exists d, zget dims id = Some d /\ dim_ok id d /\ dim_part d xi yi = Ok (ps id xi yi, pc id xi yi)
     /\ 0 <= ps id xi yi /\ 0 <= pc id xi yi /\ ps id xi yi + pc id xi yi <= full id.
  Proof.
    intros Hi Hr Hx Hy. destruct (Hdims id Hi) as (d & E & Hd). exists d. split; auto. split; auto.
    unfold ps, pc. rewrite E. unfold dim_part. destruct Hd as (Ht & Hl & Hp). rewrite Ht.
    destruct (ty id) eqn:Et.
    - split; auto. rewrite (Hl Hr). pose proof (so_full S HS) as HF. unfold full, full_of.
      destruct (zget_in_range (s_full S) id Hi) as (x & Ex). rewrite Ex. rewrite Forall_forall in HF. pose proof (HF x (zget_In _ _ _ Ex)). lia.
    - destruct Hp as [(T & _) L]. destruct (L xi Hx) as (b & e & [Hb He] & Hc). destruct (T xi Hx) as (b' & e' & [Hb' He'] & B1 & B2).
      rewrite (proj2 (oget_Ok _ _ _) Hb), (proj2 (oget_Ok _ _ _) Hc). cbn [bind]. split; auto.
      rewrite Hb in Hb'. injection Hb' as <-. rewrite He in He'. injection He' as <-. lia.
    - destruct Hp as [(T & _) L]. destruct (L yi Hy) as (b & e & [Hb He] & Hc). destruct (T yi Hy) as (b' & e' & [Hb' He'] & B1 & B2).
      rewrite (proj2 (oget_Ok _ _ _) Hb), (proj2 (oget_Ok _ _ _) Hc). cbn [bind]. split; auto.
      rewrite Hb in Hb'. injection Hb' as <-. rewrite He in He'. injection He' as <-. lia.
  Qed.

  Lemma part_x id xi yi yi' : ty id <> ScY -> 0 <= id < nd -> ps id xi yi = ps id xi yi' /\ pc id xi yi = pc id xi yi'.
  Proof.
    intros Ht Hi. destruct (Hdims id Hi) as (d & E & Et & _). unfold ps, pc. rewrite E. unfold dim_part. rewrite Et. destruct (ty id); auto. congruence.
  Qed.
  Lemma part_y id xi xi' yi : ty id <> ScX -> 0 <= id < nd -> ps id xi yi = ps id xi' yi /\ pc id xi yi = pc id xi' yi.
  Proof.
    intros Ht Hi. destruct (Hdims id Hi) as (d & E & Et & _). unfold ps, pc. rewrite E. unfold dim_part. rewrite Et. destruct (ty id); auto. congruence.
  Qed.
  Lemma part_no id xi yi : ty id = NoSc -> 0 <= id < nd -> id <> rec -> ps id xi yi = 0 /\ pc id xi yi = full id.
  Proof.
    intros Ht Hi Hr. destruct (Hdims id Hi) as (d & E & Et & Hl & _). unfold ps, pc. rewrite E. unfold dim_part. rewrite Et, Ht. auto.
  Qed.
  Lemma cover_x id g yi : ty id = ScX -> 0 <= id < nd -> 0 <= g < full id -> exists xi, 0 <= xi < nx /\ ps id xi yi <= g < ps id xi yi + pc id xi yi.
  Proof.
    intros Ht Hi Hg. destruct (Hdims id Hi) as (d & E & Et & _ & Hp). rewrite Ht in Hp, Et. destruct Hp as [(_ & _ & _ & _ & T) L].
    destruct (T g Hg) as (k & (Hk & b & e & [Hb He] & B) & _). exists k. split; auto.
    destruct (L k Hk) as (b' & e' & [Hb' He'] & Hc). unfold ps, pc. rewrite E. unfold dim_part. rewrite Et.
    rewrite (proj2 (oget_Ok _ _ _) Hb), (proj2 (oget_Ok _ _ _) Hc). cbn [bind].
    rewrite Hb in Hb'. injection Hb' as <-. rewrite He in He'. injection He' as <-. lia.
  Qed.
  Lemma cover_y id g xi : ty id = ScY -> 0 <= id < nd -> 0 <= g < full id -> exists yi, 0 <= yi < ny /\ ps id xi yi <= g < ps id xi yi + pc id xi yi.
  Proof.
    intros Ht Hi Hg. destruct (Hdims id Hi) as (d & E & Et & _ & Hp). rewrite Ht in Hp, Et. destruct Hp as [(_ & _ & _ & _ & T) L].
    destruct (T g Hg) as (k & (Hk & b & e & [Hb He] & B) & _). exists k. split; auto.
    destruct (L k Hk) as (b' & e' & [Hb' He'] & Hc). unfold ps, pc. rewrite E. unfold dim_part. rewrite Et.
    rewrite (proj2 (oget_Ok _ _ _) Hb), (proj2 (oget_Ok _ _ _) Hc). cbn [bind].
    rewrite Hb in Hb'. injection Hb' as <-. rewrite He in He'. injection He' as <-. lia.
  Qed.

  (** every element of a variable is in some file *)
  Lemma cover ids g : okids rec nd ids ->
    (forall l1 i l2 j l3, ids = l1 ++ i :: l2 ++ j :: l3 -> ty i = ty j -> ty i = NoSc) ->
    valid (map full ids) g ->
    exists xi yi, 0 <= xi < nx /\ 0 <= yi < ny
      /\ Forall2 (fun id gi => ps id xi yi <= gi < ps id xi yi + pc id xi yi) ids g.
  Proof.
    destruct divs as (Hnx & Hny & _). intros Ho. revert g. induction Ho as [|id ids [Hi Hr] Ho IH]; intros g Hax Hv.
    - apply valid_nil in Hv. subst. exists 0, 0. split; [lia|]. split; [lia|constructor].
    - apply valid_cons in Hv. destruct Hv as (gi & g' & -> & Hgi & Hv).
      destruct (IH g') as (xi & yi & Hx & Hy & HF); auto.
      { intros l1 i l2 j l3 E. apply (Hax (id :: l1) i l2 j l3). cbn. now rewrite E. }
      assert (Hax' : forall j, In j ids -> ty id = ty j -> ty id = NoSc).
      { intros j Hj. apply in_split in Hj. destruct Hj as (l2 & l3 & E). apply (Hax [] id l2 j l3). cbn. now rewrite E. }
      destruct (ty id) eqn:Et.
      + exists xi, yi. split; auto. split; auto. constructor; auto. destruct (part_no id xi yi Et Hi Hr) as [-> ->]. lia.
      + destruct (cover_x id gi yi Et Hi Hgi) as (xi' & Hx' & Hc). exists xi', yi. split; auto. split; auto. constructor; auto.
        clear IH Hax Hv. induction HF as [|j gj js gs Hj HF IHF]; constructor.
        * inversion Ho as [|? ? [Hij _] Ho']; subst. destruct (part_y j xi xi' yi) as [E1 E2]; auto.
          { intros E. specialize (Hax' j (or_introl eq_refl)). rewrite E in Hax'. discriminate (Hax' eq_refl). }
          rewrite <- E1, <- E2. exact Hj.
        * inversion Ho; subst. apply IHF; auto. intros j' Hj' Hj2. apply (Hax' j'); auto. now right.
      + destruct (cover_y id gi xi Et Hi Hgi) as (yi' & Hy' & Hc). exists xi, yi'. split; auto. split; auto. constructor; auto.
        clear IH Hax Hv. induction HF as [|j gj js gs Hj HF IHF]; constructor.
        * inversion Ho as [|? ? [Hij _] Ho']; subst. destruct (part_x j xi yi yi') as [E1 E2]; auto.
          { intros E. specialize (Hax' j (or_introl eq_refl)). rewrite E in Hax'. discriminate (Hax' eq_refl). }
          rewrite <- E1, <- E2. exact Hj.
        * inversion Ho; subst. apply IHF; auto. intros j' Hj' Hj2. apply (Hax' j'); auto. now right.
  Qed.

  Context (data : Z -> Z -> Z -> option (list A)).
  Context (Hdata : forall vn v r, zget (s_vars S) vn = Some v -> has_record S v r ->
     forall xi yi, 0 <= xi < nx -> 0 <= yi < ny ->
       exists blk, data (yi * nx + xi) vn r = Some blk /\ is_part full ps pc (sv_nd v) xi yi (data_of fi vn r) blk).

  Definition dim_out (xi yi id : Z) : rawdim :=
    {| rd_len := if id =? rec then full id else pc id xi yi;
       rd_decomp := match ty id with NoSc => None | _ => Some (1, full id, ps id xi yi + 1, ps id xi yi + pc id xi yi) end |}.

  Lemma rec_no : rec <> -1 -> ty rec = NoSc /\ 0 <= rec < nd /\ full rec = s_nrecs S.
  Proof.
    intros Hr. destruct (so_rec S HS) as [[E _]|(R & F & D)]; [contradiction|]. split; [|auto].
    pose proof (sc_dec _ _ _ HC rec R) as H. unfold rec in *. rewrite D in H. unfold ty. destruct (type_of types (s_rec S)); auto; discriminate.
  Qed.

  Lemma def_dim_ok xi yi id : 0 <= id < nd -> 0 <= xi < nx -> 0 <= yi < ny ->
    def_dim dims rec fi xi yi id = Ok (dim_out xi yi id).
  Proof.
    intros Hi Hx Hy. unfold def_dim. destruct (Hdims id Hi) as (d & E & Hd). rewrite (proj2 (oget_Ok _ _ _) E). cbn [bind].
    destruct (dims_get id Hi) as (rd & Er & Hlen & Hdec). rewrite (proj2 (oget_Ok _ _ _) Er). cbn [bind]. unfold dim_out.
    destruct (Z.eqb_spec id rec) as [->|Hne].
    - destruct (rec_no ltac:(unfold rec in *; lia)) as (Ht & _ & _). unfold dim_part. destruct Hd as (Et & _). rewrite Et, Ht. cbn [bind].
      rewrite Hdec, Hlen. reflexivity.
    - destruct (part_ok id xi yi Hi Hne Hx Hy) as (d' & E' & _ & Ep & _). rewrite E in E'. injection E' as <-. rewrite Ep. cbn [bind].
      destruct Hd as (Et & Hl & _). rewrite Et, Hdec. f_equal. f_equal.
      destruct (ty id) eqn:Ety; auto; (
        assert (existsb (fun iv : @ivar A => (v_coord iv =? id) && match v_dims iv with [i] => i =? id | _ => false end) (in_vars fi) = true) as ->;
        [|rewrite (Hl Hne); reflexivity];
        destruct (sc_coordvar _ _ _ HC id) as (v & Hv & Rv & Nv & Cv); [fold (ty id); rewrite Ety; discriminate|];
        apply In_zget in Hv; destruct Hv as (vn & _ & Ev); destruct (Forall2_zget _ _ _ _ _ (wh_vars _ _ HW) Ev) as (iv & Ei & D & Cc & _);
        apply existsb_exists; exists iv; split; [eapply zget_In; eauto|];
        rewrite Cc, Cv, D; unfold sv_ids; rewrite Rv, Nv; cbn; rewrite !Z.eqb_refl; reflexivity).
  Qed.

  Definition file_out (xi yi : Z) : @infile A :=
    {| in_nfiles := Some (nx * ny); in_dims := map (dim_out xi yi) (zseq 0 nd); in_rec := rec;
       in_vars := map (fun p => let '(vn, iv) := p in
                          {| v_dims := v_dims iv; v_coord := v_coord iv; v_miss := v_miss iv;
                             v_data := data (yi * nx + xi) vn |})
                        (combine (zseq 0 (zlen (in_vars fi))) (in_vars fi)) |}.

  Definition files : list (@infile A) := map (fun n => file_out (n mod nx) (n / nx)) (zseq 0 (ny * nx)).

  Lemma files_ok :
    ofor 0 ny (fun acc yi => ofor 0 nx (fun acc xi =>
        do ds <- ofor 0 nd (fun acc id => do d <- def_dim dims rec fi xi yi id ; Ok (acc ++ [d])) [] ;
        let out := {| in_nfiles := match in_nfiles fi with Some m => Some m | None => Some (nx * ny) end;
                      in_dims := ds; in_rec := rec;
                      in_vars := map (fun p => let '(vn, iv) := p in
                          {| v_dims := v_dims iv; v_coord := v_coord iv; v_miss := v_miss iv;
                             v_data := data (yi * nx + xi) vn |})
                        (combine (zseq 0 (zlen (in_vars fi))) (in_vars fi)) |} in
        Ok (acc ++ [out])) acc) [] = Ok files.
  Proof.
    destruct divs as (Hnx & Hny & _).
    match goal with |- context [ofor 0 ny (fun acc yi => ofor 0 nx (fun acc xi => @?f acc xi yi) acc) _] =>
      rewrite (ofor_nest ny nx (fun acc yi xi => f acc xi yi)) by lia end. cbv beta.
    unfold files. apply ofor_grow; [nia|]. intros b n Hn.
    destruct (divmod_range ny nx n ltac:(lia) ltac:(lia)) as (_ & D & M & E).
    rewrite (ofor_grow nd _ (dim_out (n mod nx) (n / nx))).
    - cbn [bind]. rewrite (wh_n _ _ HW). reflexivity.
    - apply zlen_nonneg.
    - intros acc id Hid. rewrite def_dim_ok by auto. reflexivity.
  Qed.

  Lemma files_len : zlen files = nx * ny.
  Proof. destruct divs as (? & ? & _). unfold files. rewrite zlen_map, zlen_zseq; nia. Qed.

  Lemma files_get f : In f files <-> exists xi yi, 0 <= xi < nx /\ 0 <= yi < ny /\ f = file_out xi yi.
  Proof.
    destruct divs as (Hnx & Hny & _). unfold files. rewrite in_map_iff. split.
    - intros (n & <- & Hn). apply In_zseq in Hn. destruct (divmod_range ny nx n ltac:(lia) ltac:(lia)) as (_ & D & M & _). eauto.
    - intros (xi & yi & Hx & Hy & ->). exists (yi * nx + xi). split.
      + rewrite rowmajor_div, rowmajor_mod by lia. reflexivity.
      + apply In_zseq. pose proof (rowmajor_range ny nx yi xi Hy Hx). lia.
  Qed.

  Lemma zget_dim_out xi yi id : 0 <= id < nd -> zget (in_dims (file_out xi yi)) id = Some (dim_out xi yi id).
  Proof. intros Hi. cbn. rewrite zget_map, zget_zseq by lia. cbn. do 2 f_equal. Qed.
  Lemma len_out xi yi id : 0 <= id < nd -> id <> rec -> len_in (file_out xi yi) id = pc id xi yi.
  Proof. intros Hi Hr. unfold len_in. rewrite zget_dim_out by auto. cbn. destruct (Z.eqb_spec id rec); [contradiction|auto]. Qed.
  Lemma start_out xi yi id : 0 <= id < nd -> id <> rec -> start_in (file_out xi yi) id = ps id xi yi.
  Proof.
    intros Hi Hr. unfold start_in. rewrite zget_dim_out by auto. unfold dim_out. destruct (ty id) eqn:Et; try lia.
    destruct (part_no id xi yi Et Hi Hr) as [-> _]. auto.
  Qed.
  Lemma map_out (f g : Z -> Z) v : In v (s_vars S) -> (forall id, 0 <= id < nd -> id <> rec -> f id = g id) -> map f (sv_nd v) = map g (sv_nd v).
  Proof. intros Hv H. apply map_ext_in. intros id Hid. destruct (so_ids S HS v id Hv Hid). auto. Qed.

  Lemma file_piece xi yi : 0 <= xi < nx -> 0 <= yi < ny -> piece S (nx * ny) (file_out xi yi).
  Proof.
    intros Hx Hy. constructor; auto.
    - split; [cbn; rewrite zlen_map, zlen_zseq; auto; apply zlen_nonneg|].
      intros id rd E. pose proof (zget_Some_range _ _ _ E) as R. cbn [file_out in_dims] in R. rewrite zlen_map, zlen_zseq in R by apply zlen_nonneg.
      rewrite zget_dim_out in E by lia. injection E as <-. unfold dim_piece, dim_out. cbn [rd_decomp rd_len].
      pose proof (sc_dec _ _ _ HC id R) as Hdec. fold (ty id) in Hdec. destruct (Z.eqb_spec id rec) as [->|Hne].
      + destruct (rec_no ltac:(unfold rec in *; lia)) as (Ht & _ & _). rewrite Ht in Hdec |- *. auto.
      + destruct (part_ok id xi yi R Hne Hx Hy) as (d & _ & _ & _ & B1 & B2 & B3). fold full. destruct (ty id) eqn:Et.
        * destruct (part_no id xi yi Et R Hne) as [_ ->]. auto.
        * rewrite Hdec. split; [auto|]. lia.
        * rewrite Hdec. split; [auto|]. lia.
    - cbn [file_out in_vars]. pose proof (wh_vars _ _ HW) as HV.
      assert (forall vs ivs lo, Forall2 (fun v (iv : @ivar A) => v_dims iv = sv_ids S v /\ v_coord iv = sv_coord v) vs ivs ->
         (forall j v, zget vs j = Some v -> zget (s_vars S) (lo + j) = Some v) ->
         Forall2 (var_piece S (file_out xi yi)) vs
           (map (fun p : Z * @ivar A => let '(vn, iv) := p in {| v_dims := v_dims iv; v_coord := v_coord iv; v_miss := v_miss iv; v_data := data (yi * nx + xi) vn |})
              (combine (zseq lo (zlen ivs)) ivs))) as K.
      { intros vs ivs lo H2. revert lo. induction H2 as [|v iv vs ivs [Hd Hc] H2 IH]; intros lo Hg; [constructor|].
        rewrite zlen_cons. pose proof (zlen_nonneg ivs). rewrite zseq_S by lia. cbn [combine map]. constructor.
        - split; [auto|]. split; [auto|]. intros r Hr. cbn [v_data].
          assert (Ev : zget (s_vars S) lo = Some v) by (rewrite <- (Z.add_0_r lo); apply Hg; reflexivity).
          destruct (Hdata lo v r Ev Hr xi yi Hx Hy) as (blk & Eb & Lb & _). exists blk. split; auto. rewrite Lb. f_equal.
          apply map_out; [eapply zget_In; eauto|]. intros. symmetry. now apply len_out.
        - replace (1 + zlen ivs - 1) with (zlen ivs) by lia. apply IH. intros j w Hj. pose proof (zget_Some_range _ _ _ Hj).
          replace (lo + 1 + j) with (lo + (1 + j)) by lia. apply Hg. rewrite zget_cons_pos by lia. replace (1 + j - 1) with j by lia. auto. }
      apply K; [|intros j v; now rewrite Z.add_0_l].
      clear -HV. induction HV; constructor; intuition.
  Qed.

  Lemma file_data xi yi vn v r : 0 <= xi < nx -> 0 <= yi < ny -> zget (s_vars S) vn = Some v -> has_record S v r ->
    is_part full ps pc (sv_nd v) xi yi (data_of fi vn r) (data_of (file_out xi yi) vn r).
  Proof.
    intros Hx Hy Ev Hr. destruct (Hdata vn v r Ev Hr xi yi Hx Hy) as (blk & Eb & Hb).
    assert (data_of (file_out xi yi) vn r = blk) as ->; [|exact Hb].
    unfold data_of. cbn [file_out in_vars]. rewrite zget_map.
    pose proof (zget_Some_range _ _ _ Ev) as R. rewrite <- (nvars S fi HW) in R.
    destruct (zget_in_range (combine (zseq 0 (zlen (in_vars fi))) (in_vars fi)) vn) as ([n iv] & E); [rewrite combine_zlen; lia|].
    rewrite E. cbn [option_map]. destruct (combine_get _ _ _ _ E) as [En _]. cbn in En. subst n. cbn. now rewrite Eb.
  Qed.

  (** one write of the combined file is the original record *)
  Lemma write_orig missing vn v r w : zget (s_vars S) vn = Some v -> has_record S v r ->
    right_write zero missing S files vn v r w -> w_vals w = data_of fi vn r.
  Proof.
    intros Ev Hr (_ & _ & _ & first & rest & Ef & HA). pose proof (zget_In _ _ _ Ev) as Hv.
    destruct (get_var S fi HW vn v Ev) as (iv & Ei & _ & Hd). destruct (Hd r Hr) as [_ Lo]. fold full in Lo.
    assert (Hids : okids rec nd (sv_nd v)) by (apply (nd_okids S HS); auto).
    destruct divs as (Hnx & Hny & _).
    assert (HFn : Forall (fun d => 0 <= d) (map full (sv_nd v))).
    { eapply (full_nonneg S HS); eauto. apply (file_piece 0 0); lia. }
    destruct (sv_dec S v) eqn:Edec.
    - destruct HA as (L & HA & _). apply zget_ext; [fold full in L; congruence|]. fold full in L, HA.
      intros p Hp. destruct (unpos_spec (map full (sv_nd v)) p HFn ltac:(lia)) as [V P]. set (g := unpos _ p) in *. rewrite <- P.
      set (ts := map (fun fi => piece_tile v fi (data_of fi vn r)) files) in *.
      assert (HT : Forall (tile_ok (map full (sv_nd v))) ts).
      { apply Forall_forall. intros t Ht. apply in_map_iff in Ht. destruct Ht as (f & <- & Hf). apply files_get in Hf. destruct Hf as (xi & yi & Hx & Hy & ->).
        apply (tile_in S HS (nx * ny) _ (file_piece xi yi Hx Hy) v Hv). destruct (file_data xi yi vn v r Hx Hy Ev Hr) as [Lb _]. rewrite Lb. f_equal.
        apply map_out; auto. intros. symmetry. now apply len_out. }
      destruct (last_cover (map full (sv_nd v)) ts g HT V) as [N|(t1 & t & t2 & idx & E & Ha & Hn)].
      + exfalso. destruct (cover (sv_nd v) g Hids (fun l1 i l2 j l3 => sc_axes _ _ _ HC v l1 i l2 j l3 Hv) V) as (xi & yi & Hx & Hy & HF).
        apply (N (piece_tile v (file_out xi yi) (data_of (file_out xi yi) vn r))).
        { apply in_map_iff. exists (file_out xi yi). split; auto. apply files_get. eauto. }
        exists (map (fun p => snd p - ps (fst p) xi yi) (combine (sv_nd v) g)).
        unfold at_tile. cbn [piece_tile t_start t_count].
        rewrite (map_out (len_in (file_out xi yi)) (fun id => pc id xi yi) v Hv) by (intros; now apply len_out).
        rewrite (map_out (start_in (file_out xi yi)) (fun id => ps id xi yi) v Hv) by (intros; now apply start_out).
        clear -HF. induction HF as [|id gi ids g H HF [IH1 IH2]]; [split; [constructor|reflexivity]|]. cbn [map combine fst snd vadd]. split.
        * constructor; [cbn; lia|exact IH1].
        * f_equal; [lia|exact IH2].
      + rewrite (HA t1 t t2 g idx E Ha Hn). assert (Ht : In t ts) by (rewrite E; apply in_or_app; right; left; auto).
        apply in_map_iff in Ht. destruct Ht as (f & Et & Hf). apply files_get in Hf. destruct Hf as (xi & yi & Hx & Hy & Ef').
        destruct (file_data xi yi vn v r Hx Hy Ev Hr) as [_ Hb]. destruct Ha as [Hvi Hg]. subst f. subst t. cbn [piece_tile t_start t_count t_data] in *.
        rewrite (map_out (len_in (file_out xi yi)) (fun id => pc id xi yi) v Hv) in * by (intros; now apply len_out).
        rewrite (map_out (start_in (file_out xi yi)) (fun id => ps id xi yi) v Hv) in * by (intros; now apply start_out).
        rewrite Hb by auto. now rewrite <- Hg.
    - (* not decomposed *)
      rewrite HA. assert (first = file_out 0 0) as ->.
      { unfold files in Ef. rewrite zseq_S in Ef by nia. cbn [map] in Ef. injection Ef as Ef _. rewrite <- Ef. now rewrite Z.mod_0_l, Z.div_0_l by lia. }
      destruct (file_data 0 0 vn v r ltac:(lia) ltac:(lia) Ev Hr) as [Lb Hb].
      assert (Hno : forall id, In id (sv_nd v) -> ps id 0 0 = 0 /\ pc id 0 0 = full id).
      { intros id Hid. destruct (so_ids S HS v id Hv Hid) as [Hi Hne]. apply part_no; auto.
        pose proof (sc_dec _ _ _ HC id Hi) as H. fold (ty id) in H. destruct (ty id) eqn:Ety; auto; exfalso;
        (assert (sv_dec S v = true) by (apply existsb_exists; exists id; auto); congruence). }
      assert (E1 : map (fun id => pc id 0 0) (sv_nd v) = map full (sv_nd v)) by (apply map_ext_in; intros; now apply Hno).
      assert (E2 : map (fun id => ps id 0 0) (sv_nd v) = map (fun _ => 0) (sv_nd v)) by (apply map_ext_in; intros; now apply Hno).
      rewrite E1 in Lb, Hb. rewrite E2 in Hb. apply zget_ext; [congruence|].
      intros p Hp. destruct (unpos_spec (map full (sv_nd v)) p HFn ltac:(lia)) as [V P]. set (g := unpos _ p) in *. rewrite <- P.
      rewrite Hb by auto. f_equal. f_equal. clear -V. revert V. generalize g. induction (sv_nd v) as [|i l IH]; intros g' V.
      + apply valid_nil in V. now subst.
      + apply valid_cons in V. destruct V as (x & g2 & -> & _ & V). cbn [map vadd]. now rewrite IH.
  Qed.
End M.

Lemma scatter_combine {A} (zero : A) o types S (fi : @infile A) :
  set_ok S -> scatterable o types S -> whole S fi ->
  exists files, scatter zero o types fi = Ok files /\ zlen files = file_count o
    /\ Forall (piece S (file_count o)) files
    /\ forall missing vn v r w, zget (s_vars S) vn = Some v -> has_record S v r ->
          right_write zero missing S files vn v r w -> w_vals w = data_of fi vn r.
Proof.
  intros HS HC HW. destruct (divs o types S HC) as (Hnx & Hny & Hc & Dio & Dn).
  destruct (all_dims o types S fi HC HW) as (dims & Ed & Hdims).
  set (nx := fst (num_divs o)) in *. set (ny := snd (num_divs o)) in *.
  assert (exists data, put_var zero dims (map rd_len (in_dims fi)) (s_rec S) (if s_rec S =? -1 then 0 else s_nrecs S) nx ny (in_vars fi) = Ok data
     /\ forall vn v r, zget (s_vars S) vn = Some v -> has_record S v r ->
     forall xi yi, 0 <= xi < nx -> 0 <= yi < ny ->
       exists blk, data (yi * nx + xi) vn r = Some blk /\ is_part (full_of S) (ps dims) (pc dims) (sv_nd v) xi yi (data_of fi vn r) blk) as (data & Ep & Hdata).
  { assert (Hpart : forall id xi yi, 0 <= id < zlen (s_full S) -> id <> s_rec S -> 0 <= xi < nx -> 0 <= yi < ny ->
      (exists d, zget dims id = Some d /\ dim_part d xi yi = Ok (ps dims id xi yi, pc dims id xi yi))
      /\ 0 <= ps dims id xi yi /\ 0 <= pc dims id xi yi /\ ps dims id xi yi + pc dims id xi yi <= full_of S id).
    { intros id xi yi Hi Hr Hx Hy. destruct (part_ok o types S HS dims Hdims id xi yi Hi Hr Hx Hy) as (d & E & _ & Ed' & B). eauto. }
    destruct (maxsize_ok S HS fi HW dims nx ny (ps dims) (pc dims) Hpart (sc_rank _ _ _ HC) (sc_scalar _ _ _ HC)) as (M & EM & HM0 & HM). unfold put_var. rewrite EM. cbn [bind].
    set (st0 := {| q_tp := _; q_otp := _; q_data := _; q_d0 := _ |}).
    destruct (pass1 S HS fi HW dims nx ny (ps dims) (pc dims) Hnx Hny Hpart (sc_rank _ _ _ HC) (sc_scalar _ _ _ HC) M HM0 HM st0) as (st1 & E1 & L1 & L2 & D1 & K1).
    - cbn. unfold zlen. rewrite repeat_length. lia.
    - cbn. unfold zlen. rewrite repeat_length. lia.
    - reflexivity.
    - rewrite E1. cbn [bind]. destruct (Z.eqb_spec (s_rec S) (-1)) as [Er|Hr].
      + rewrite ofor_0 by lia. cbn [bind]. eexists. split; [reflexivity|]. intros vn v r Ev [Hr0 Hr].
        destruct (sv_rec v) eqn:Erv; [exfalso; exact (so_norec S HS v (zget_In _ _ _ Ev) Erv Er)|]. subst r. apply K1; auto.
      + destruct (pass2 S HS fi HW dims nx ny (ps dims) (pc dims) Hnx Hny Hpart (sc_rank _ _ _ HC) (sc_scalar _ _ _ HC) M HM0 HM st1 Hr L1 L2 D1 K1) as (st2 & E2 & K2).
        rewrite E2. cbn [bind]. eexists. split; [reflexivity|]. intros vn v r Ev Hrr. apply K2; auto. }
  exists (files o types S fi dims data). split; [|split; [|split]].
  - unfold scatter. destruct (num_divs o) as [nx' ny'] eqn:En. cbn in nx, ny. subst nx ny.
    assert ((if sx_io o && (negb (sx_nx o mod sx_nxio o =? 0) || negb (sx_ny o mod sx_nyio o =? 0)) then Err 1 else Ok tt) = Ok tt) as ->.
    { destruct (sx_io o); cbn [andb]; auto. destruct (Dio eq_refl) as (E1 & E2 & P1 & D1 & P2 & D2).
      rewrite <- E1, <- E2. apply Z.mod_divide in D1; [|lia]. apply Z.mod_divide in D2; [|lia]. rewrite D1, D2. reflexivity. }
    cbn [bind]. rewrite Ed. cbn [bind]. rewrite (wh_rec _ _ HW).
    assert ((if s_rec S =? -1 then Ok 0 else oget (map rd_len (in_dims fi)) (s_rec S)) = Ok (if s_rec S =? -1 then 0 else s_nrecs S)) as ->.
    { destruct (Z.eqb_spec (s_rec S) (-1)) as [|Hr]; auto. destruct (rec_no o types S HS HC Hr) as (_ & R & F).
      apply oget_Ok. rewrite zget_map. destruct (wh_dims _ _ HW) as [L D]. destruct (zget_in_range (in_dims fi) (s_rec S)) as (rd & E); [lia|].
      rewrite E. cbn. f_equal. rewrite <- F. apply (D _ _ E). }
    cbn [bind]. rewrite Ep. cbn [bind]. rewrite (proj1 (wh_dims _ _ HW)).
    pose proof (files_ok o types S fi HS HC HW dims Hdims data) as K. rewrite En in K. cbn [fst snd] in K. exact (K Hdata).
  - erewrite files_len by eassumption. exact Hc.
  - rewrite <- Hc. apply Forall_forall. intros f Hf. eapply files_get in Hf; try eassumption. destruct Hf as (xi & yi & Hx & Hy & ->).
    eapply file_piece; eassumption.
  - intros missing vn v r w. eapply write_orig; eassumption.
Qed.
