(** * Proofs about the 2-D decomposition and gathers *)
From Verif Require Import Base Loops M_Extent P_Extent M_Domain2D Spec_Domain2D.

Lemma define_domain2d_spec ni nj l0 l1 xh yh :
  1 <= l0 <= ni -> 1 <= l1 <= nj ->
  exists d, mpp_define_domain2d ni nj l0 l1 xh yh = Ok d
    /\ d_xhalo d = xh /\ d_yhalo d = yh /\ d_nxg d = ni /\ d_nyg d = nj
    /\ zlen (d_isc d) = l0 * l1
    /\ forall j i, 0 <= j < l1 -> 0 <= i < l0 ->
         owns d (j * l0 + i) (start_of ni l0 i + xh) (start_of ni l0 (i + 1) - 1 + xh)
              (start_of nj l1 j + yh) (start_of nj l1 (j + 1) - 1 + yh).
Proof.
  intros Hx Hy. unfold mpp_define_domain2d.
  destruct (compute_extent_spec ni l0 (repeat 0 (Z.to_nat l0)) (repeat 0 (Z.to_nat l0)))
    as (bx & ex & -> & Hbx); [auto| rewrite zlen_repeat; lia | rewrite zlen_repeat; lia |].
  cbn [bind].
  destruct (compute_extent_spec nj l1 (repeat 0 (Z.to_nat l1)) (repeat 0 (Z.to_nat l1)))
    as (by_ & ey & -> & Hby); [auto| rewrite zlen_repeat; lia | rewrite zlen_repeat; lia |].
  cbn [bind].
  rewrite ofor_nest2 by lia.
  set (f0 := repeat 0 (Z.to_nat (l0 * l1))).
  assert (Lf : zlen f0 = l0 * l1) by (unfold f0; rewrite zlen_repeat; nia).
  match goal with |- context [ofor 0 (l1 * l0) ?f ?s] =>
    destruct (ofor_inv (fun m st => exists a b c e, st = (a, b, c, e, m)
      /\ zlen a = l0 * l1 /\ zlen b = l0 * l1 /\ zlen c = l0 * l1 /\ zlen e = l0 * l1
      /\ forall n, 0 <= n < m ->
           zget a n = Some (start_of ni l0 (n mod l0) + xh)
           /\ zget b n = Some (start_of ni l0 (n mod l0 + 1) - 1 + xh)
           /\ zget c n = Some (start_of nj l1 (n / l0) + yh)
           /\ zget e n = Some (start_of nj l1 (n / l0 + 1) - 1 + yh)) f 0 (l1 * l0) s)
    as (st & E & a & b & c & e & -> & La & Lb & Lc & Le & Hn) end.
  - nia.
  - exists f0, f0, f0, f0. repeat split; auto; lia.
  - intros n st Hn (a & b & c & e & -> & La & Lb & Lc & Le & IH).
    destruct (divmod_range l1 l0 n ltac:(lia) ltac:(lia)) as (_ & Hq & Hr & Hqr).
    rewrite !Z.add_0_l.
    destruct (Hbx _ Hr) as [B1 B2]. destruct (Hby _ Hq) as [B3 B4].
    unfold oget. rewrite B1, B2, B3, B4. cbn [bind]. unfold oset.
    destruct (zset_Some a n (start_of ni l0 (n mod l0) + xh) ltac:(nia)) as [a' Ea].
    destruct (zset_Some b n (start_of ni l0 (n mod l0 + 1) - 1 + xh) ltac:(nia)) as [b' Eb].
    destruct (zset_Some c n (start_of nj l1 (n / l0) + yh) ltac:(nia)) as [c' Ec].
    destruct (zset_Some e n (start_of nj l1 (n / l0 + 1) - 1 + yh) ltac:(nia)) as [e' Ee].
    rewrite Ea, Eb, Ec, Ee. cbn [bind]. eexists; split; [reflexivity|].
    exists a', b', c', e'. split; [reflexivity|].
    rewrite (zset_len _ _ _ _ Ea), (zset_len _ _ _ _ Eb), (zset_len _ _ _ _ Ec), (zset_len _ _ _ _ Ee).
    repeat (split; [assumption|]). intros m Hm.
    destruct (Z.eq_dec m n) as [->|Hne].
    + rewrite (zget_zset_eq _ _ _ _ Ea), (zget_zset_eq _ _ _ _ Eb), (zget_zset_eq _ _ _ _ Ec), (zget_zset_eq _ _ _ _ Ee). auto.
    + rewrite (zget_zset_ne _ _ _ _ _ Ea), (zget_zset_ne _ _ _ _ _ Eb), (zget_zset_ne _ _ _ _ _ Ec), (zget_zset_ne _ _ _ _ _ Ee) by auto.
      apply IH. lia.
  - rewrite E. cbn [bind]. eexists; split; [reflexivity|]. cbn. repeat (split; auto).
    all: try (specialize (Hn (j * l0 + i) ltac:(nia)); rewrite rowmajor_div, rowmajor_mod in Hn by lia; tauto).
Qed.

Lemma own_owns d p isc iec jsc jec : owns d p isc iec jsc jec -> own d p = Ok (isc, iec, jsc, jec).
Proof. intros (H1 & H2 & H3 & H4). unfold own, oget. now rewrite H1, H2, H3, H4. Qed.

Lemma get_shift_spec nxc nyc a b : 0 <= a <= 1 -> 0 <= b <= 1 ->
  mpp_get_shift nxc nyc nxc nyc (nxc + a) (nyc + b) = Ok (a, b).
Proof.
  intros Ha Hb. unfold mpp_get_shift.
  assert (a = 0 \/ a = 1) as [-> | ->] by lia; assert (b = 0 \/ b = 1) as [-> | ->] by lia;
    repeat match goal with |- context [?x =? ?y] => destruct (Z.eqb_spec x y); try lia end; reflexivity.
Qed.

Lemma copy_grow {A} (l : list A) n : n = zlen l ->
  ofor 0 n (fun b i => do v <- oget l i ; Ok (b ++ [v])) [] = Ok l.
Proof.
  intros ->. destruct l as [|x l'] eqn:El; [reflexivity|]. rewrite <- El.
  rewrite (ofor_grow (zlen l) _ (fun i => match zget l i with Some v => v | None => x end)).
  - f_equal. apply zget_ext.
    + rewrite zlen_map, zlen_zseq by apply zlen_nonneg. reflexivity.
    + intros i Hi. rewrite zlen_map, zlen_zseq in Hi by apply zlen_nonneg.
      rewrite zget_map, zget_zseq by auto. simpl. destruct (zget_in_range l i Hi) as [v ->]. reflexivity.
  - apply zlen_nonneg.
  - intros b n Hn. unfold oget. destruct (zget_in_range l n Hn) as [v ->]. reflexivity.
Qed.

Lemma send_buffer_spec {A} (F : Z -> Z -> Z -> A) d p isc iec jsc jec a b nz l :
  owns d p isc iec jsc jec -> d_xhalo d = 0 -> d_yhalo d = 0 ->
  0 <= a <= 1 -> 0 <= b <= 1 ->
  patch F isc (iec - isc + 1 + a) jsc (jec - jsc + 1 + b) nz l ->
  send_buffer d p (iec - isc + 1 + a) (jec - jsc + 1 + b) nz l = Ok (a, b, l).
Proof.
  intros Ho Hx Hy Ha Hb [Hl _]. unfold send_buffer. rewrite (own_owns _ _ _ _ _ _ Ho). cbn [bind].
  rewrite Hx, Hy. replace (iec + 0 - (isc - 0) + 1) with (iec - isc + 1) by lia.
  replace (jec + 0 - (jsc - 0) + 1) with (jec - jsc + 1) by lia.
  rewrite get_shift_spec by auto. cbn [bind].
  replace (iec + a - isc + 1) with (iec - isc + 1 + a) by lia.
  replace (jec + b - jsc + 1) with (jec - jsc + 1 + b) by lia.
  rewrite !Z.eqb_refl. cbn [andb]. rewrite copy_grow by lia. reflexivity.
Qed.

Lemma ListDec_find (f : Z -> bool) N :
  (exists n, 0 <= n < N /\ f n = true) \/ (forall n, 0 <= n < N -> ~ f n = true).
Proof.
  destruct (existsb f (zseq 0 N)) eqn:E.
  - left. apply existsb_exists in E. destruct E as (n & Hn & Hf). apply In_zseq in Hn. exists n. split; [lia|auto].
  - right. intros n Hn Hf. assert (existsb f (zseq 0 N) = true); [|congruence].
    apply existsb_exists. exists n. split; auto. apply In_zseq. lia.
Qed.

Lemma place_spec {A} (F : Z -> Z -> Z -> A) (G : Z -> A) isc nx jsc ny nz nxg nyg buf g :
  0 <= nx -> 0 <= ny -> 0 <= nz -> patch F isc nx jsc ny nz buf ->
  (forall k j i, 0 <= k < nz -> 0 <= j < ny -> 0 <= i < nx ->
     let x := k * nxg * nyg + (jsc + j) * nxg + (isc + i) in
     0 <= x < zlen g /\ G x = F k (jsc + j) (isc + i)) ->
  exists g', place isc nx jsc ny nz nxg nyg buf g = Ok g' /\ zlen g' = zlen g
    /\ (forall k j i, 0 <= k < nz -> 0 <= j < ny -> 0 <= i < nx ->
          let x := k * nxg * nyg + (jsc + j) * nxg + (isc + i) in zget g' x = Some (G x))
    /\ (forall x, zget g x = Some (G x) -> zget g' x = Some (G x)).
Proof.
  intros Hx Hy Hz [Lb Hb] HG. unfold place. rewrite ofor_nest3 by auto.
  set (idx := fun n => (n / (ny * nx)) * nxg * nyg + (jsc + n mod (ny * nx) / nx) * nxg + (isc + (n mod (ny * nx)) mod nx)).
  assert (Hdec : forall n, 0 <= n < nz * (ny * nx) -> 0 <= n / (ny * nx) < nz /\ 0 <= n mod (ny * nx) / nx < ny
     /\ 0 <= (n mod (ny * nx)) mod nx < nx
     /\ n = ((n / (ny * nx)) * ny + n mod (ny * nx) / nx) * nx + (n mod (ny * nx)) mod nx).
  { intros n Hn. destruct (divmod_range nz (ny * nx) n ltac:(nia) Hn) as (_ & H1 & H2 & H3).
    destruct (divmod_range ny nx (n mod (ny * nx)) Hx H2) as (_ & H4 & H5 & H6).
    repeat split; try lia. }
  match goal with |- context [ofor 0 ?N ?f _] =>
    destruct (ofor_place N f idx (fun n => oget buf n) G g) as (g' & E & L & H1 & H2) end.
  - nia.
  - intros g1 n Hn. reflexivity.
  - intros n Hn. destruct (Hdec n Hn) as (D1 & D2 & D3 & D4).
    destruct (HG _ _ _ D1 D2 D3) as [R1 R2]. split; [|exact R1].
    specialize (Hb _ _ _ D1 D2 D3). rewrite <- D4 in Hb. unfold oget. rewrite Hb. f_equal.
    unfold idx. rewrite R2. reflexivity.
  - rewrite E. cbn [bind]. exists g'. split; [reflexivity|]. split; [auto|]. split.
    + intros k j i Hk Hj Hi.
      assert (Hn : 0 <= k * (ny * nx) + (j * nx + i) < nz * (ny * nx)).
      { apply rowmajor_range; auto. apply rowmajor_range; auto. }
      specialize (H1 _ Hn). unfold idx in H1.
      assert (0 <= j * nx + i < ny * nx) by (apply rowmajor_range; auto).
      rewrite (rowmajor_div (ny * nx)), (rowmajor_mod (ny * nx)) in H1 by auto.
      rewrite rowmajor_div, rowmajor_mod in H1 by auto. exact H1.
    + intros x Hgx. 
      destruct (ListDec_find (fun n => idx n =? x) (nz * (ny * nx))) as [(n & Hn & Ei)|Hno].
      * apply Z.eqb_eq in Ei. rewrite <- Ei. apply H1; auto.
      * rewrite H2; auto. intros n Hn Ei. apply (Hno n Hn). now apply Z.eqb_eq.
Qed.

Lemma owns_fun d p a b c e a' b' c' e' :
  owns d p a b c e -> owns d p a' b' c' e' -> a = a' /\ b = b' /\ c = c' /\ e = e'.
Proof. intros (H1 & H2 & H3 & H4) (H5 & H6 & H7 & H8). repeat split; congruence. Qed.

(** The receive loop shared by the 2-D and 3-D gathers. *)
Lemma gather_loop {A} (F : Z -> Z -> Z -> A) (G : Z -> A) d npes a b nz nxg nyg loc g :
  0 <= npes -> 0 <= nz -> distributed d npes a b nz F loc -> d_xhalo d = 0 -> d_yhalo d = 0 ->
  0 <= a <= 1 -> 0 <= b <= 1 ->
  (forall p isc iec jsc jec, 0 <= p < npes -> owns d p isc iec jsc jec ->
     isc <= iec /\ jsc <= jec /\
     forall k j i, 0 <= k < nz -> jsc <= j <= jec + b -> isc <= i <= iec + a ->
       let x := k * nxg * nyg + j * nxg + i in 0 <= x < zlen g /\ G x = F k j i) ->
  exists g', ofor 0 npes (fun g p =>
      do '(sx, sy, ldata) <- oget loc p ;
      do '(_, _, buf) <- send_buffer d p sx sy nz ldata ;
      do '(isc, iec, jsc, jec) <- own d p ;
      if zlen buf =? (iec - isc + 1 + a) * (jec - jsc + 1 + b) * nz
      then place isc (iec - isc + 1 + a) jsc (jec - jsc + 1 + b) nz nxg nyg buf g else UB) g = Ok g'
    /\ zlen g' = zlen g
    /\ forall p isc iec jsc jec k j i, 0 <= p < npes -> owns d p isc iec jsc jec ->
         0 <= k < nz -> jsc <= j <= jec + b -> isc <= i <= iec + a ->
         zget g' (k * nxg * nyg + j * nxg + i) = Some (F k j i).
Proof.
  intros Hn Hz HD Hx Hy Ha Hb HG.
  match goal with |- context [ofor 0 npes ?f g] =>
    destruct (ofor_inv (fun m g1 => zlen g1 = zlen g
      /\ forall p isc iec jsc jec k j i, 0 <= p < m -> owns d p isc iec jsc jec ->
         0 <= k < nz -> jsc <= j <= jec + b -> isc <= i <= iec + a ->
         zget g1 (k * nxg * nyg + j * nxg + i) = Some (G (k * nxg * nyg + j * nxg + i))) f 0 npes g)
      as (g' & E & L & H) end.
  - auto.
  - split; auto. intros; lia.
  - intros p g1 Hp (L1 & IH). destruct (HD p ltac:(lia)) as (isc & iec & jsc & jec & l & Ho & El & Hpatch).
    unfold oget. rewrite El. cbn [bind]. rewrite (send_buffer_spec F _ _ _ _ _ _ _ _ _ _ Ho Hx Hy Ha Hb Hpatch).
    cbn [bind]. rewrite (own_owns _ _ _ _ _ _ Ho). cbn [bind].
    destruct (HG p _ _ _ _ ltac:(lia) Ho) as (O1 & O2 & HGp).
    pose proof Hpatch as [Ll _]. rewrite Ll, Z.eqb_refl.
    destruct (place_spec F G isc (iec - isc + 1 + a) jsc (jec - jsc + 1 + b) nz nxg nyg l g1)
      as (g2 & E2 & L2 & H1 & H2); try lia; auto.
    { intros k j i Hk Hj Hi x. rewrite L1. apply HGp; lia. }
    exists g2. split; [exact E2|]. split; [congruence|].
    intros p' isc' iec' jsc' jec' k j i Hp' Ho' Hk Hj Hi.
    destruct (Z.eq_dec p' p) as [->|Hne].
    + destruct (owns_fun _ _ _ _ _ _ _ _ _ _ Ho Ho') as (<- & <- & <- & <-).
      specialize (H1 k (j - jsc) (i - isc) Hk ltac:(lia) ltac:(lia)). cbv zeta in H1.
      replace (jsc + (j - jsc)) with j in H1 by lia. replace (isc + (i - isc)) with i in H1 by lia. exact H1.
    + apply H2. eapply IH; eauto. lia.
  - exists g'. split; [exact E|]. split; [auto|]. intros p isc iec jsc jec k j i Hp Ho Hk Hj Hi.
    rewrite (H p isc iec jsc jec k j i); auto; try lia. f_equal.
    destruct (HG p _ _ _ _ Hp Ho) as (_ & _ & HGp). apply HGp; auto.
Qed.

(** Every point of the (shifted) global grid lies in some processor's patch. *)
Lemma cover_1d n d a i : 1 <= d <= n -> 0 <= a <= 1 -> 0 <= i < n + a ->
  exists q, 0 <= q < d /\ start_of n d q <= i <= start_of n d (q + 1) - 1 + a.
Proof.
  intros H Ha Hi. destruct (Z.lt_ge_cases i n) as [Hlt|Hge].
  - destruct (start_of_cover n d i H ltac:(lia)) as (q & Hq & Hc). exists q. split; auto. lia.
  - exists (d - 1). split; [lia|]. replace (d - 1 + 1) with d by lia. rewrite start_of_d by auto.
    pose proof (start_of_mono n d (d - 1) d H ltac:(lia) ltac:(lia)) as M. rewrite start_of_d in M by auto. lia.
Qed.

Lemma start_range n d q : 1 <= d <= n -> 0 <= q < d ->
  0 <= start_of n d q /\ start_of n d q <= start_of n d (q + 1) - 1 /\ start_of n d (q + 1) <= n.
Proof.
  intros H Hq. pose proof (start_of_mono n d 0 q H ltac:(lia) ltac:(lia)).
  pose proof (start_of_mono n d q (q + 1) H ltac:(lia) ltac:(lia)).
  pose proof (start_of_mono n d (q + 1) d H ltac:(lia) ltac:(lia)).
  rewrite start_of_0 in * by auto. rewrite start_of_d in * by auto. lia.
Qed.

Lemma dom_rect ni nj l0 l1 xh yh d p isc iec jsc jec :
  1 <= l0 <= ni -> 1 <= l1 <= nj -> mpp_define_domain2d ni nj l0 l1 xh yh = Ok d ->
  0 <= p < l0 * l1 -> owns d p isc iec jsc jec ->
  isc = start_of ni l0 (p mod l0) + xh /\ iec = start_of ni l0 (p mod l0 + 1) - 1 + xh
  /\ jsc = start_of nj l1 (p / l0) + yh /\ jec = start_of nj l1 (p / l0 + 1) - 1 + yh.
Proof.
  intros Hx Hy E Hp Ho. destruct (define_domain2d_spec ni nj l0 l1 xh yh Hx Hy) as (d' & E' & _ & _ & _ & _ & _ & Hd).
  rewrite E in E'. inversion E'; subst d'.
  destruct (divmod_range l1 l0 p ltac:(lia) ltac:(lia)) as (_ & Hq & Hr & Hqr).
  specialize (Hd _ _ Hq Hr). rewrite <- Hqr in Hd. exact (owns_fun _ _ _ _ _ _ _ _ _ _ Ho Hd).
Qed.

Lemma pack_spec {A} (F : Z -> Z -> Z -> A) nz is js nx ny isd jsd nxd nyd l : 0 <= nz -> 0 <= nx -> 0 <= ny ->
  isd <= is -> is + nx <= isd + nxd -> jsd <= js -> js + ny <= jsd + nyd -> patch F isd nxd jsd nyd nz l ->
  exists buf, pack_data_domain l nz is js nx ny isd jsd nxd nyd = Ok buf /\ patch F is nx js ny nz buf.
Proof.
  intros Hz Hx Hy H1 H2 H3 H4 (Hl & HP). unfold pack_data_domain. rewrite ofor_nest3 by auto.
  rewrite (ofor_grow _ _ (fun n => F (n / (ny * nx)) (js + n mod (ny * nx) / nx) (is + (n mod (ny * nx)) mod nx))).
  - eexists. split; [reflexivity|]. split; [rewrite zlen_map, zlen_zseq by nia; ring|]. intros k j i Hk Hj Hi.
    assert (Hn : 0 <= j * nx + i < ny * nx) by (apply rowmajor_range; auto).
    replace ((k * ny + j) * nx + i) with (k * (ny * nx) + (j * nx + i)) by ring.
    pose proof (rowmajor_range nz (ny * nx) k _ Hk Hn). rewrite zget_map, zget_zseq by (auto; nia). cbn [option_map]. f_equal.
    rewrite !Z.add_0_l. rewrite rowmajor_div, rowmajor_mod by auto. rewrite rowmajor_div, rowmajor_mod by auto. reflexivity.
  - nia.
  - intros buf n Hn. destruct (divmod_range nz (ny * nx) n ltac:(nia) Hn) as (_ & Hk & Hm & _). destruct (divmod_range ny nx _ Hx Hm) as (_ & Hj & Hi & _).
    rewrite Z.add_0_l. set (k := n / (ny * nx)) in *. set (j := n mod (ny * nx) / nx) in *. set (i := (n mod (ny * nx)) mod nx) in *.
    specialize (HP k (js + j - jsd) (is + i - isd) Hk ltac:(lia) ltac:(lia)). unfold oget.
    replace (k * nxd * nyd + (js + j - jsd) * nxd + (is + i - isd)) with ((k * nyd + (js + j - jsd)) * nxd + (is + i - isd)) by ring. rewrite HP. cbn [bind]. do 3 f_equal. f_equal; lia.
Qed.
Lemma rest {A} (F : Z -> Z -> Z -> A) d isc iec jsc jec a b nz l :
  isc <= iec -> jsc <= jec -> 0 <= d_xhalo d -> 0 <= d_yhalo d -> 0 <= a <= 1 -> 0 <= b <= 1 -> 0 <= nz ->
  patch F (isc - d_xhalo d) (iec - isc + 1 + 2 * d_xhalo d + a) (jsc - d_yhalo d) (jec - jsc + 1 + 2 * d_yhalo d + b) nz l ->
  exists buf, (if (iec - isc + 1 + 2 * d_xhalo d + a =? iec + d_xhalo d - (isc - d_xhalo d) + 1 + a) && (jec - jsc + 1 + 2 * d_yhalo d + b =? jec + d_yhalo d - (jsc - d_yhalo d) + 1 + b) then
      do b0 <- pack_data_domain l nz isc jsc (iec + a - isc + 1) (jec + b - jsc + 1) (isc - d_xhalo d) (jsc - d_yhalo d) (iec + d_xhalo d - (isc - d_xhalo d) + 1 + a) (jec + d_yhalo d - (jsc - d_yhalo d) + 1 + b) ;
      Ok (a, b, b0) else Err E_not_on_domain) = Ok (a, b, buf)
    /\ patch F isc (iec - isc + 1 + a) jsc (jec - jsc + 1 + b) nz buf.
Proof.
  intros Hi Hj Hx Hy Ha Hb Hz HP. rewrite (proj2 (Z.eqb_eq _ _)) by lia. rewrite (proj2 (Z.eqb_eq _ _)) by lia. cbn [andb].
  replace (iec + d_xhalo d - (isc - d_xhalo d) + 1 + a) with (iec - isc + 1 + 2 * d_xhalo d + a) by lia. replace (jec + d_yhalo d - (jsc - d_yhalo d) + 1 + b) with (jec - jsc + 1 + 2 * d_yhalo d + b) by lia.
  destruct (pack_spec F nz isc jsc (iec + a - isc + 1) (jec + b - jsc + 1) (isc - d_xhalo d) (jsc - d_yhalo d) (iec - isc + 1 + 2 * d_xhalo d + a) (jec - jsc + 1 + 2 * d_yhalo d + b) l Hz ltac:(lia) ltac:(lia) ltac:(lia) ltac:(lia) ltac:(lia) ltac:(lia) HP) as (buf & -> & HB).
  cbn [bind]. exists buf. split; [reflexivity|]. replace (iec - isc + 1 + a) with (iec + a - isc + 1) by lia. replace (jec - jsc + 1 + b) with (jec + b - jsc + 1) by lia. exact HB.
Qed.
