(** * Property C05: 2-D decomposition and gather of distributed fields *)
From Verif Require Import Base Loops Spec_Domain2D M_Extent P_Extent M_Domain2D P_Domain2D.

(** C05 (decomposition): the rectangles of the [l0*l1] processors partition the
    ni x nj grid (shifted by the halo widths); none is empty. *)
Theorem C05_rectangles_partition : forall ni nj l0 l1 xhalo yhalo,
  1 <= l0 <= ni -> 1 <= l1 <= nj ->
  exists d, mpp_define_domain2d ni nj l0 l1 xhalo yhalo = Ok d
    /\ (forall p, 0 <= p < l0 * l1 -> exists isc iec jsc jec, owns d p isc iec jsc jec
          /\ xhalo <= isc <= iec /\ iec < ni + xhalo /\ yhalo <= jsc <= jec /\ jec < nj + yhalo)
    /\ (forall i j, xhalo <= i < ni + xhalo -> yhalo <= j < nj + yhalo ->
          exists! p, 0 <= p < l0 * l1 /\ exists isc iec jsc jec, owns d p isc iec jsc jec
            /\ isc <= i <= iec /\ jsc <= j <= jec).
Proof.
  intros ni nj l0 l1 xh yh Hx Hy.
  destruct (define_domain2d_spec ni nj l0 l1 xh yh Hx Hy) as (d & E & _ & _ & _ & _ & _ & Hd).
  exists d. split; [exact E|]. split.
  - intros p Hp. destruct (divmod_range l1 l0 p ltac:(lia) ltac:(lia)) as (_ & Hq & Hr & Hqr).
    specialize (Hd _ _ Hq Hr). rewrite <- Hqr in Hd. do 4 eexists. split; [exact Hd|].
    pose proof (start_range ni l0 _ Hx Hr). pose proof (start_range nj l1 _ Hy Hq). lia.
  - intros i j Hi Hj.
    destruct (start_of_cover ni l0 (i - xh) Hx ltac:(lia)) as (q & Hq & Hqi).
    destruct (start_of_cover nj l1 (j - yh) Hy ltac:(lia)) as (r & Hr & Hrj).
    exists (r * l0 + q). split.
    + split; [nia|]. do 4 eexists. split; [apply Hd; auto|]. lia.
    + intros p (Hp & isc & iec & jsc & jec & Ho & Hoi & Hoj).
      destruct (dom_rect _ _ _ _ _ _ _ _ _ _ _ _ Hx Hy E Hp Ho) as (-> & -> & -> & ->).
      destruct (divmod_range l1 l0 p ltac:(lia) ltac:(lia)) as (_ & Hq' & Hr' & Hqr').
      rewrite Hqr'. f_equal.
      * f_equal. apply (start_of_unique nj l1 (j - yh)); auto; lia.
      * apply (start_of_unique ni l0 (i - xh)); auto; lia.
Qed.
Print Assumptions C05_rectangles_partition.

(** C05 (2-D gather): with halo width 0 (every caller of the library), gathering
    the processors' pieces of a field on cell centres or corners restores the
    field, on the root and on every processor. *)
Theorem C05_gather_restores_2D : forall (A : Type) ni nj l0 l1 ishift jshift me (F : Z -> Z -> Z -> A) d loc g0,
  1 <= l0 <= ni -> 1 <= l1 <= nj -> 0 <= ishift <= 1 -> 0 <= jshift <= 1 -> 0 <= me < l0 * l1 ->
  mpp_define_domain2d ni nj l0 l1 0 0 = Ok d ->
  distributed d (l0 * l1) ishift jshift 1 F loc ->
  zlen g0 = (ni + ishift) * (nj + jshift) ->
  exists g, global_field_2D d (l0 * l1) me loc g0 = Ok g
    /\ global_field_all d (l0 * l1) me loc g0 = Ok g
    /\ forall j i, 0 <= j < nj + jshift -> 0 <= i < ni + ishift ->
         zget g (j * (ni + ishift) + i) = Some (F 0 j i).
Proof.
  intros A ni nj l0 l1 a b me F d loc g0 Hx Hy Ha Hb Hme E HD Lg.
  destruct (define_domain2d_spec ni nj l0 l1 0 0 Hx Hy) as (d' & E' & Hxh & Hyh & Hnx & Hny & _ & Hd).
  rewrite E in E'. inversion E'; subst d'. clear E'.
  assert (Hshift : (do '(s0, s1, l) <- oget loc me ; send_buffer d me s0 s1 1 l)
      = Ok (a, b, match zget loc me with Some (_, _, l) => l | None => [] end)).
  { destruct (HD me Hme) as (isc & iec & jsc & jec & l & Ho & El & Hp). unfold oget. rewrite El. cbn [bind].
    now rewrite (send_buffer_spec F _ _ _ _ _ _ _ _ _ _ Ho Hxh Hyh Ha Hb Hp). }
  destruct (gather_loop F (fun x => F 0 (x / (ni + a)) (x mod (ni + a))) d (l0 * l1) a b 1 (ni + a) 0 loc g0)
    as (g & Eg & Lg' & Hg); auto; try nia.
  { intros p isc iec jsc jec Hp Ho.
    destruct (dom_rect _ _ _ _ _ _ _ _ _ _ _ _ Hx Hy E Hp Ho) as (-> & -> & -> & ->).
    destruct (divmod_range l1 l0 p ltac:(lia) ltac:(lia)) as (_ & Hq & Hr & _).
    pose proof (start_range ni l0 _ Hx Hr). pose proof (start_range nj l1 _ Hy Hq).
    split; [lia|]. split; [lia|]. intros k j i Hk Hj Hi x. assert (k = 0) by lia. subst k.
    assert (Ex : x = j * (ni + a) + i) by (unfold x; ring).
    rewrite Ex, Lg. split; [nia|]. rewrite rowmajor_div, rowmajor_mod by lia. reflexivity. }
  assert (Hall : forall j i, 0 <= j < nj + b -> 0 <= i < ni + a -> zget g (j * (ni + a) + i) = Some (F 0 j i)).
  { intros j i Hj Hi. destruct (cover_1d ni l0 a i Hx Ha Hi) as (q & Hq & Hqi).
    destruct (cover_1d nj l1 b j Hy Hb Hj) as (r & Hr & Hrj).
    assert (Hp : 0 <= r * l0 + q < l0 * l1) by nia.
    specialize (Hg _ _ _ _ _ 0 j i Hp (Hd _ _ Hr Hq) ltac:(lia) ltac:(lia) ltac:(lia)).
    rewrite <- Hg. f_equal; try ring. }
  exists g. split; [|split; [|exact Hall]].
  - unfold global_field_2D, local. rewrite Hshift. cbn [bind]. rewrite Hnx. exact Eg.
  - unfold global_field_all. destruct (Z.eqb_spec (l0 * l1) 1) as [H1|H1].
    + assert (l0 = 1 /\ l1 = 1) as [-> ->] by nia. assert (me = 0) by lia. subst me.
      destruct (HD 0 ltac:(lia)) as (isc & iec & jsc & jec & l & Ho & El & Hp).
      unfold local. rewrite (proj2 (oget_Ok loc 0 _) El). cbn [bind].
      rewrite (send_buffer_spec F _ _ _ _ _ _ _ _ _ _ Ho Hxh Hyh Ha Hb Hp). cbn [bind].
      destruct (dom_rect _ _ _ _ _ _ _ _ _ _ _ _ Hx Hy E (ltac:(lia) : 0 <= 0 < 1 * 1) Ho) as (-> & -> & -> & ->).
      change (0 mod 1) with 0 in Hp. change (0 / 1) with 0 in Hp. change (0 + 1) with 1 in Hp.
      rewrite !start_of_0, !start_of_d in Hp by auto.
      replace (ni - 1 + 0 - (0 + 0) + 1 + a) with (ni + a) in Hp by lia.
      replace (nj - 1 + 0 - (0 + 0) + 1 + b) with (nj + b) in Hp by lia. destruct Hp as [Ll Hp].
      destruct (ofor_store (zlen l) (fun n => n) (fun n => oget l n) (fun x => F 0 (x / (ni + a)) (x mod (ni + a))) g0)
        as (g2 & E2 & L2 & H2 & _).
      * apply zlen_nonneg.
      * intros n Hn. assert (Hn' : 0 <= n < (nj + b) * (ni + a)) by nia.
        destruct (divmod_range (nj + b) (ni + a) n ltac:(lia) Hn') as (_ & D1 & D2 & D3).
        specialize (Hp 0 _ _ ltac:(lia) D1 D2).
        split; [|nia]. unfold oget.
        replace ((0 * (nj + b) + n / (ni + a)) * (ni + a) + n mod (ni + a)) with n in Hp by lia.
        rewrite Hp. reflexivity.
      * rewrite E2. f_equal. apply zget_ext; [congruence|]. intros x Hx'. rewrite L2, Lg in Hx'.
        destruct (divmod_range (nj + b) (ni + a) x ltac:(lia) ltac:(lia)) as (_ & D1 & D2 & D3).
        rewrite (H2 x) by nia. rewrite D3 at 3. rewrite Hall by lia. reflexivity.
    + unfold global_field_2D, local. rewrite Hshift. cbn [bind]. rewrite Hnx. exact Eg.
Qed.
Print Assumptions C05_gather_restores_2D.

(** C05 (3-D gather): the same for [nz] levels, for fields whose two shifts agree. *)
Theorem C05_gather_restores_3D : forall (A : Type) ni nj l0 l1 shift nz me (F : Z -> Z -> Z -> A) d loc g0,
  1 <= l0 <= ni -> 1 <= l1 <= nj -> 0 <= shift <= 1 -> 0 <= nz -> 0 <= me < l0 * l1 ->
  mpp_define_domain2d ni nj l0 l1 0 0 = Ok d ->
  distributed d (l0 * l1) shift shift nz F loc ->
  zlen g0 = (ni + shift) * (nj + shift) * nz ->
  exists g, global_field_root_3D d (l0 * l1) me nz loc g0 = Ok g
    /\ forall k j i, 0 <= k < nz -> 0 <= j < nj + shift -> 0 <= i < ni + shift ->
         zget g ((k * (nj + shift) + j) * (ni + shift) + i) = Some (F k j i).
Proof.
  intros A ni nj l0 l1 a nz me F d loc g0 Hx Hy Ha Hz Hme E HD Lg.
  destruct (define_domain2d_spec ni nj l0 l1 0 0 Hx Hy) as (d' & E' & Hxh & Hyh & Hnx & Hny & _ & Hd).
  rewrite E in E'. inversion E'; subst d'. clear E'.
  assert (Hshift : (do '(s0, s1, l) <- oget loc me ; send_buffer d me s0 s1 nz l)
      = Ok (a, a, match zget loc me with Some (_, _, l) => l | None => [] end)).
  { destruct (HD me Hme) as (isc & iec & jsc & jec & l & Ho & El & Hp). unfold oget. rewrite El. cbn [bind].
    now rewrite (send_buffer_spec F _ _ _ _ _ _ _ _ _ _ Ho Hxh Hyh Ha Ha Hp). }
  set (nx := ni + a). set (ny := nj + a).
  destruct (gather_loop F (fun x => F (x / nx / ny) ((x / nx) mod ny) (x mod nx)) d (l0 * l1) a a nz nx ny loc g0)
    as (g & Eg & Lg' & Hg); auto; try nia.
  { intros p isc iec jsc jec Hp Ho.
    destruct (dom_rect _ _ _ _ _ _ _ _ _ _ _ _ Hx Hy E Hp Ho) as (-> & -> & -> & ->).
    destruct (divmod_range l1 l0 p ltac:(lia) ltac:(lia)) as (_ & Hq & Hr & _).
    pose proof (start_range ni l0 _ Hx Hr). pose proof (start_range nj l1 _ Hy Hq).
    split; [lia|]. split; [lia|]. intros k j i Hk Hj Hi x.
    assert (Ex : x = (k * ny + j) * nx + i) by (unfold x; ring).
    assert (0 <= i < nx) by (unfold nx; lia). assert (0 <= j < ny) by (unfold ny; lia).
    rewrite Ex, Lg. fold nx ny. split.
    - assert (0 <= k * ny + j < nz * ny) by (apply rowmajor_range; auto).
      pose proof (rowmajor_range (nz * ny) nx (k * ny + j) i ltac:(auto) ltac:(auto)). nia.
    - rewrite (rowmajor_div nx), (rowmajor_mod nx) by lia. rewrite rowmajor_div, rowmajor_mod by lia. reflexivity. }
  exists g. split.
  - unfold global_field_root_3D, local. rewrite Hshift. cbn [bind]. rewrite Hnx, Hny. exact Eg.
  - intros k j i Hk Hj Hi. destruct (cover_1d ni l0 a i Hx Ha Hi) as (q & Hq & Hqi).
    destruct (cover_1d nj l1 a j Hy Ha Hj) as (r & Hr & Hrj).
    assert (Hp : 0 <= r * l0 + q < l0 * l1) by nia.
    specialize (Hg _ _ _ _ _ k j i Hp (Hd _ _ Hr Hq) Hk ltac:(lia) ltac:(lia)).
    rewrite <- Hg. f_equal. unfold nx, ny. ring.
Qed.
Print Assumptions C05_gather_restores_3D.

(** The 3-D theorem cannot be extended to unequal shifts: line 622 computes the number
    of rows with the column shift.  For an east-face field (ishift 1, jshift 0)
    of 2 levels on one processor the gather writes past the end of the global
    array; for a north-face field (0, 1) it returns a wrong array. *)
Theorem C05_gather_3D_mixed_shift_refuted :
  exists d, mpp_define_domain2d 2 2 1 1 0 0 = Ok d
    /\ (let F := fun k j i => 100 * k + 10 * j + i in
        let loc := [(3, 2, [0;1;2;10;11;12;100;101;102;110;111;112])] in
        distributed d 1 1 0 2 F loc
        /\ global_field_root_3D d 1 0 2 loc (repeat 0 12) = UB)
    /\ (let F := fun k j i => 100 * k + 10 * j + i in
        let loc := [(2, 3, [0;1;10;11;20;21;100;101;110;111;120;121])] in
        distributed d 1 0 1 2 F loc
        /\ exists g, global_field_root_3D d 1 0 2 loc (repeat 0 12) = Ok g
             /\ zget g ((0 * 3 + 2) * 2 + 0) <> Some (F 0 2 0)).
Proof.
  eexists. split; [vm_compute; reflexivity|]. split; cbv zeta; (split;
  [intros p Hp; assert (p = 0) by lia; subst p; exists 0, 1, 0, 1; eexists; split;
    [vm_compute; repeat split|]; split; [vm_compute; reflexivity|]; split; [vm_compute; reflexivity|];
   intros k j i Hk Hj Hi; simpl in Hk, Hj, Hi;
   assert (k = 0 \/ k = 1) as [-> | ->] by lia;
   assert (i = 0 \/ i = 1 \/ i = 2) as [-> | [-> | ->]] by lia;
   assert (j = 0 \/ j = 1 \/ j = 2) as [-> | [-> | ->]] by lia; try lia; vm_compute; reflexivity|]).
  - vm_compute. reflexivity.
  - eexists. split; [vm_compute; reflexivity|]. vm_compute. discriminate.
Qed.
Print Assumptions C05_gather_3D_mixed_shift_refuted.

(** With a halo the gather is wrong as well: the processor rectangles are
    shifted by the halo width but the global array is not, so the last rows are
    written out of bounds.  No caller in src/ uses a halo. *)
Theorem C05_gather_with_halo_refuted :
  exists d, mpp_define_domain2d 2 2 1 1 1 1 = Ok d
    /\ global_field_2D d 1 0 [(2, 2, [7;8;9;10])] (repeat 0 4) = UB.
Proof. eexists. split; vm_compute; reflexivity. Qed.
Print Assumptions C05_gather_with_halo_refuted.

(** Non-vacuity: a 5 x 3 grid over 2 x 2 processors, corner field. *)
Example C05_example :
  exists d, mpp_define_domain2d 5 3 2 2 0 0 = Ok d /\
  d_isc d = [0;3;0;3] /\ d_jec d = [1;1;2;2] /\
  global_field_2D d 4 3 [(3,2,[0;1;2;10;11;12]); (2,2,[3;4;13;14]); (3,1,[20;21;22]); (2,1,[23;24])] (repeat (-1) 15)
  = Ok [0;1;2;3;4;10;11;12;13;14;20;21;22;23;24].
Proof. eexists. vm_compute. repeat split. Qed.

Lemma upd_app_mid {A} (l1 : list A) x v l2 : upd (l1 ++ x :: l2) (length l1) v = l1 ++ v :: l2.
Proof. induction l1; simpl; congruence. Qed.

(** Gather of unequal pieces ([mpp_gather_field_*]): the pieces in rank order. *)
Theorem C05_gather_field_concat : forall (A : Type) (locs : list (list A)) (g0 : list A),
  zlen g0 = zlen (concat locs) -> gather_field locs g0 = Ok (concat locs).
Proof.
  intros A locs g0 L. unfold gather_field.
  assert (Inner : forall (l done rest : list A), zlen rest >= zlen l ->
     exists rest', ofor 0 (zlen l) (fun '(g, n) i => do g <- (do v <- oget l i ; oset g n v) ; Ok (g, n + 1)) (done ++ rest, zlen done)
       = Ok ((done ++ l) ++ rest', zlen (done ++ l)) /\ zlen rest' = zlen rest - zlen l).
  { intros l done rest Hr.
    destruct (ofor_inv (fun m (st : list A * Z) => exists pre suf rest', l = pre ++ suf /\ zlen pre = m
        /\ st = ((done ++ pre) ++ rest', zlen done + m) /\ zlen rest' = zlen rest - m)
      (fun '(g, n) i => do g <- (do v <- oget l i ; oset g n v) ; Ok (g, n + 1)) 0 (zlen l) (done ++ rest, zlen done))
      as (st & E & pre & suf & rest' & El & Lp & -> & Lr).
    - apply zlen_nonneg.
    - exists [], l, rest. rewrite app_nil_r, Z.add_0_r, Z.sub_0_r. auto.
    - intros i st Hi (pre & suf & rest' & El & Lp & -> & Lr).
      destruct suf as [|x suf]; [rewrite app_nil_r in El; subst; lia|].
      assert (zget l i = Some x) as Hx.
      { rewrite El, zget_app_r by lia. rewrite Lp, Z.sub_diag. reflexivity. }
      unfold oget. rewrite Hx. cbn [bind].
      destruct rest' as [|y rest']; [rewrite zlen_nil in Lr; lia|]. rewrite zlen_cons in Lr.
      unfold oset, zset. rewrite zlen_app, zlen_app, zlen_cons.
      pose proof (zlen_nonneg done). pose proof (zlen_nonneg rest').
      destruct (Z.leb_spec 0 (zlen done + i)); [|lia].
      destruct (Z.ltb_spec (zlen done + i) (zlen done + zlen pre + (1 + zlen rest'))); [|lia]. cbn [andb bind].
      eexists. split; [reflexivity|]. exists (pre ++ [x]), suf, rest'.
      split; [rewrite <- app_assoc; exact El|]. split; [rewrite zlen_app; unfold zlen in *; simpl; lia|].
      split; [|lia]. f_equal; [|lia].
      replace (Z.to_nat (zlen done + i)) with (length (done ++ pre)) by (rewrite app_length; unfold zlen in *; lia).
      rewrite upd_app_mid, <- !app_assoc. reflexivity.
    - assert (suf = []) as ->.
      { destruct suf; auto. rewrite El in Lp. rewrite zlen_app, zlen_cons in Lp. pose proof (zlen_nonneg suf). lia. }
      rewrite app_nil_r in El. subst pre. exists rest'. rewrite E. split; [|lia]. rewrite zlen_app. reflexivity. }
  assert (Outer : forall (ls : list (list A)) done rest, zlen rest = zlen (concat ls) ->
    ofold (fun st l => ofor 0 (zlen l) (fun '(g, n) i => do g <- (do v <- oget l i ; oset g n v) ; Ok (g, n + 1)) st) ls (done ++ rest, zlen done)
    = Ok (done ++ concat ls, zlen (done ++ concat ls))).
  { induction ls as [|l ls IH]; intros done rest Hr; simpl.
    - simpl in Hr. rewrite zlen_nil in Hr. destruct rest; [|rewrite zlen_cons in Hr; pose proof (zlen_nonneg rest); lia]. now rewrite app_nil_r.
    - simpl in Hr. rewrite zlen_app in Hr. pose proof (zlen_nonneg (concat ls)).
      destruct (Inner l done rest ltac:(lia)) as (rest' & E & Lr). rewrite E. cbn [bind].
      rewrite IH by lia. now rewrite <- app_assoc. }
  pose proof (Outer locs [] g0 L) as H. simpl in H. change (zlen (@nil A)) with 0 in H. rewrite H. reflexivity.
Qed.
Print Assumptions C05_gather_field_concat.

Example C05_gather_field_example : gather_field [[1;2];[];[3;4;5]] [0;0;0;0;0] = Ok [1;2;3;4;5].
Proof. reflexivity. Qed.

(** C05 (what a processor sends): exactly its own part of the field, whether its local array covers its
    compute domain or the domain with halo, for every halo width. *)
Theorem C05_sends_own_part : forall (A : Type) (F : Z -> Z -> Z -> A) d p isc iec jsc jec hx hy ishift jshift nz l,
  owns d p isc iec jsc jec -> isc <= iec -> jsc <= jec -> 0 <= d_xhalo d -> 0 <= d_yhalo d ->
  0 <= ishift <= 1 -> 0 <= jshift <= 1 -> 0 <= nz ->
  hx = 0 /\ hy = 0 \/ hx = d_xhalo d /\ hy = d_yhalo d ->
  patch F (isc - hx) (iec - isc + 1 + 2 * hx + ishift) (jsc - hy) (jec - jsc + 1 + 2 * hy + jshift) nz l ->
  exists buf, send_buffer d p (iec - isc + 1 + 2 * hx + ishift) (jec - jsc + 1 + 2 * hy + jshift) nz l = Ok (ishift, jshift, buf)
    /\ patch F isc (iec - isc + 1 + ishift) jsc (jec - jsc + 1 + jshift) nz buf.
Proof.
  intros A F d p isc iec jsc jec hx hy a b nz l Ho Hi Hj Hx Hy Ha Hb Hz Hh HP.
  unfold send_buffer. rewrite (own_owns _ _ _ _ _ _ Ho). cbn [bind].
  replace (mpp_get_shift _ _ _ _ _ _) with (@Ok (Z * Z) (a, b)).
  2:{ unfold mpp_get_shift. assert (a = 0 \/ a = 1) as [-> | ->] by lia; assert (b = 0 \/ b = 1) as [-> | ->] by lia;
      destruct Hh as [(-> & ->) | (-> & ->)];
      repeat match goal with |- context [?x =? ?y] => destruct (Z.eqb_spec x y); try (exfalso; lia); cbn [andb orb] end; try reflexivity; exfalso; lia. }
  cbn [bind]. destruct HP as (Hl & HP).
  destruct (Z.eqb_spec (iec - isc + 1 + 2 * hx + a) (iec + a - isc + 1)) as [Ex|Ex]; [destruct (Z.eqb_spec (jec - jsc + 1 + 2 * hy + b) (jec + b - jsc + 1)) as [Ey|Ey]|]; cbn [andb].
  - assert (hx = 0) by lia. assert (hy = 0) by lia. subst hx hy. rewrite copy_grow by (rewrite Hl; f_equal; lia). cbn [bind]. exists l. split; [reflexivity|].
    rewrite !Z.sub_0_r in HP. replace (iec - isc + 1 + 2 * 0 + a) with (iec - isc + 1 + a) in * by lia. replace (jec - jsc + 1 + 2 * 0 + b) with (jec - jsc + 1 + b) in * by lia. split; auto.
  - assert (hx = d_xhalo d /\ hy = d_yhalo d) as (-> & ->) by lia. apply (rest F d isc iec jsc jec a b nz l); auto. split; auto.
  - assert (hx = d_xhalo d /\ hy = d_yhalo d) as (-> & ->) by lia. apply (rest F d isc iec jsc jec a b nz l); auto. split; auto.
Qed.
Print Assumptions C05_sends_own_part.

Example C05_sends_example : exists d, mpp_define_domain2d 2 2 1 1 1 1 = Ok d /\ send_buffer d 0 4 4 1 (zseq 0 16) = Ok (0, 0, [5; 6; 9; 10]).
Proof. eexists. vm_compute. split; reflexivity. Qed.
