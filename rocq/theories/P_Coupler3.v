(** * Proofs about make_coupler_mosaic: all cells, processors and tiles *)
From Coq Require Import Reals Lra.
From Verif Require Import Base Loops Vec P_Extent P_Interp P_Interp2 P_RemapLand4 P_RemapLand6 P_Coupler P_Coupler2 M_Extent M_Domain2D T_Domain2D M_Interp Spec_Interp M_Coupler Spec_Coupler.
Open Scope Z_scope.

(** ** Search ranges of all tiles *)
Definition searched (same : bool) (na : Z) (tiles : list tile) (lo hi : R) (r : list (Z * Z * Z * Z)) : Prop :=
  forall n, 0 <= n < zlen tiles -> let t := tile_at tiles n in exists js je, oget r n = Ok (js, je, fst (columns t ((n =? na) || negb same)), snd (columns t ((n =? na) || negb same))) /\
    0 <= js /\ je <= t_ny t - 1 /\
    forall i j, In (i, j) (cells t) ->
      (j < js -> forall v, In v (quad t (i, j)) -> (snd v <= lo)%R) /\ (je < j -> forall v, In v (quad t (i, j)) -> (hi <= snd v)%R).
Lemma ranges_run same na tiles lo hi : (forall n, 0 <= n < zlen tiles -> proper (tile_at tiles n)) ->
  exists r, ranges same na tiles (lo, hi) = Ok r /\ searched same na tiles lo hi r.
Proof.
  intros Hp. unfold ranges.
  match goal with |- context [ofor 0 _ ?f []] => destruct (ofor_inv (fun n r => zlen r = n /\ forall k, 0 <= k < n -> let t := tile_at tiles k in exists js je, zget r k = Some (js, je, fst (columns t ((k =? na) || negb same)), snd (columns t ((k =? na) || negb same))) /\
    0 <= js /\ je <= t_ny t - 1 /\
    forall i j, In (i, j) (cells t) ->
      (j < js -> forall v, In v (quad t (i, j)) -> (snd v <= lo)%R) /\ (je < j -> forall v, In v (quad t (i, j)) -> (hi <= snd v)%R)) f 0 (zlen tiles) [] (zlen_nonneg _)) as (r & E & L & H) end.
  - split; [reflexivity|]. intros. lia.
  - intros n r Hn (L & H). rewrite Z.add_0_l in Hn. rewrite oget_tile by auto. cbn [bind fst snd]. destruct (rows_atm_run (tile_at tiles n) lo hi (Hp n Hn)) as (js & je & E & H1 & H2 & H3).
    rewrite E. cbn [bind]. destruct (columns (tile_at tiles n) ((n =? na) || negb same)) as (is, ie) eqn:EC. eexists. split; [reflexivity|]. split; [rewrite zlen_app, L; reflexivity|].
    intros k Hk. cbn zeta. destruct (Z.eq_dec k n) as [->|N].
    + exists js, je. rewrite EC. cbn [fst snd]. rewrite zget_app_r, L, Z.sub_diag by lia. split; [reflexivity|]. auto.
    + rewrite zget_app_l by lia. apply H. lia.
  - exists r. split; auto. intros n Hn. cbn zeta. destruct (H n ltac:(lia)) as (js & je & E1 & H1). exists js, je. split; auto. now apply oget_Ok.
Qed.

Section All.
  Variables (o : options) (g : geometry) (atm lnd ocn : list tile) (omask : list (list R)).
  Hypothesis HS : setting o g atm lnd ocn omask.
  Hypothesis HR : room o g atm lnd ocn omask.
  Local Notation lcell := (land_cell o g atm lnd ocn omask).
  Local Notation ocell := (ocean_cell o g atm ocn omask).
  Local Notation dry := (dry_area o g atm lnd ocn omask).
  Local Notation ground := (ground o g atm lnd).
  Let Snd := set_sound _ _ _ _ _ _ HS.

  Definition lcells (na : Z) (ca : Z * Z) (nl : Z) : list xcell := flat_map (lcell na ca nl) (cells (tile_at lnd nl)).
  Definition ocells (na : Z) (ca : Z * Z) (no : Z) : list xcell := if facing o na no then flat_map (ocell na ca no) (cells (tile_at ocn no)) else [].

  Section Cell.
    Variables (na : Z) (ca : Z * Z) (lo hi : R).
    Hypothesis Hna : 0 <= na < zlen atm.
    Hypothesis Hca : In ca (cells (tile_at atm na)).
    Local Notation q0 := (quad (tile_at atm na) ca).
    Hypothesis Hband : forall v, In v q0 -> (lo <= snd v <= hi)%R.
    Local Notation cell := (ACell na (fst ca) (snd ca) (minval (ys q0)) (maxval (ys q0)) (air g atm na ca) (size (tile_at atm na) ca)).
    Local Notation good := (good o g atm lnd na ca).
    Local Notation piece_of := (piece_of o g atm lnd na ca).

    Definition raise (f : Z -> Z * Z -> R) (p : piece) : piece := Piece (p_i p) (p_j p) (p_t p) (p_poly p) (p_area p + f (p_t p) (p_i p, p_j p)).
    Lemma raise_raise f h p : raise f (raise h p) = raise (fun nl cl => h nl cl + f nl cl)%R p.
    Proof. unfold raise. cbn. f_equal. lra. Qed.
    Lemma raise_ext f h p : (forall nl cl, f nl cl = h nl cl) -> raise f p = raise h p.
    Proof. intros H. unfold raise. now rewrite H. Qed.
    Lemma raise_0 f p : (f (p_t p) (p_i p, p_j p) = 0)%R -> raise f p = p.
    Proof. intros H. unfold raise. rewrite H, Rplus_0_r. now destruct p. Qed.
    Lemma raise_good f p : good p -> good (raise f p).
    Proof. intros H. exact H. Qed.

    (** The ocean cells of a part of a tile *)
    Lemma ocean_list_run no l : 0 <= no < zlen ocn -> (forall co, In co l -> In co (cells (tile_at ocn no))) -> forall xc pieces, (forall p, In p pieces -> good p) ->
      zlen (xc ++ flat_map (ocell na ca no) l) <= o_max o ->
      ofold (fun s c => add_ocean o g cell lnd (tile_at ocn no) (nth (Z.to_nat no) omask []) s (fst c) (snd c)) l (xc, pieces) =
      Ok (xc ++ flat_map (ocell na ca no) l, map (raise (fun nl cl => rsum (dry na ca nl cl no) l)) pieces).
    Proof.
      intros Hno. induction l as [|co l IH]; intros Hin xc pieces Hg Hl; cbn [ofold flat_map] in *.
      - rewrite app_nil_r. do 2 f_equal. rewrite <- (map_id pieces) at 1. apply map_ext. intros p. symmetry. apply raise_0. reflexivity.
      - rewrite app_assoc in Hl. rewrite (add_ocean_run o g atm lnd ocn omask HS na ca Hna Hca no co Hno (Hin co ltac:(now left)) xc pieces Hg).
        2: { rewrite zlen_app in Hl. pose proof (zlen_nonneg (flat_map (ocell na ca no) l)). lia. }
        cbn [bind]. rewrite IH; auto; try (intros; apply Hin; now right).
        + rewrite <- app_assoc. do 2 f_equal. rewrite map_map. apply map_ext. intros p. change (bump o g atm lnd ocn omask na ca no co p) with (raise (fun nl cl => dry na ca nl cl no co) p).
          rewrite raise_raise. apply raise_ext. intros nl cl. now rewrite rsum_cons.
        + intros p Hp. apply in_map_iff in Hp. destruct Hp as (p' & <- & Hp). now apply (Hg p').
    Qed.
    Definition dries (no nl : Z) (cl : Z * Z) : R := if facing o na no then rsum (dry na ca nl cl no) (cells (tile_at ocn no)) else 0%R.
    Lemma ocean_tile_run no r xc pieces : 0 <= no < zlen ocn -> searched (o_ocn_same o) na ocn lo hi r -> (forall p, In p pieces -> good p) -> zlen (xc ++ ocells na ca no) <= o_max o ->
      (do '(js, je, is, ie) <- oget r no ; over js je is ie (add_ocean o g cell lnd (tile_at ocn no) (nth (Z.to_nat no) omask [])) (xc, pieces)) =
      Ok (xc ++ ocells na ca no, map (raise (dries no)) pieces).
    Proof.
      intros Hno Hr Hg Hl. destruct (Hr no Hno) as (js & je & E & H0 & H1 & H). rewrite E. cbn [bind]. fold (facing o na no) in *.
      set (t := tile_at ocn no) in *. rewrite over_rect. unfold ocells, dries in *. fold (facing o na no). destruct (facing o na no) eqn:F; cbn [columns fst snd].
      - assert (forall i j, In (i, j) (cells t) -> j < js \/ je < j -> apart (air g atm na ca) (beside g atm na ca t (i, j))) as Hout.
        { intros i j Hc Hj. destruct (H i j Hc) as (Ha & Hb). eapply lat_rows; eauto. destruct Hj; auto. }
        assert (flat_map (ocell na ca no) (rect js je 0 (t_nx t - 1)) = flat_map (ocell na ca no) (cells t)) as E1.
        { apply flat_map_rows; auto. intros i j Hc Hj. eapply ocean_cell_apart; eauto. }
        subst t. rewrite ocean_list_run; auto.
        + rewrite E1. do 2 f_equal. apply map_ext_in. intros p Hp. unfold raise. f_equal. f_equal. apply rsum_rows; auto. intros i j Hc Hj.
          eapply dry_apart; eauto.
        + intros (i, j) Hc. apply In_rect in Hc. apply In_cells. lia.
        + now rewrite E1.
      - unfold facing in F. apply orb_false_iff in F. destruct F as (_ & F). apply negb_false_iff in F. pose proof (set_wide _ _ _ _ _ _ HS F no Hno) as W. fold t in W.
        assert (rect js je (t_nx t - 1) 0 = []) as ->.
        { unfold rect. apply flat_map_empty. intros j _. rewrite zseq_nonpos by lia. reflexivity. }
        cbn [ofold]. rewrite app_nil_r. do 2 f_equal. rewrite <- (map_id pieces) at 1. apply map_ext. intros p. symmetry. apply raise_0. reflexivity.
    Qed.
    Lemma ocean_tiles_run r pieces X axo : searched (o_ocn_same o) na ocn lo hi r -> (forall p, In p pieces -> good p) ->
      vec axo (zlen ocn) X -> (forall no, 0 <= no < zlen ocn -> zlen (X no ++ ocells na ca no) <= o_max o) ->
      exists axo', ofor 0 (zlen ocn) (fun '(axo, pieces) no =>
        do to <- oget ocn no ; do '(js, je, is, ie) <- oget r no ; do om <- oget omask no ;
        do cells <- oget axo no ;
        do '(cells, pieces) <- over js je is ie (add_ocean o g cell lnd to om) (cells, pieces) ;
        do axo <- oset axo no cells ;
        Ok (axo, pieces)) (axo, pieces) = Ok (axo', map (raise (land_area o g atm lnd ocn omask na ca)) pieces) /\
        vec axo' (zlen ocn) (fun no => X no ++ ocells na ca no).
    Proof.
      intros Hr Hg HX Hl.
      match goal with |- context [ofor 0 _ ?f (axo, pieces)] => destruct (ofor_inv (fun no st => vec (fst st) (zlen ocn) (fun k => if k <? no then X k ++ ocells na ca k else X k) /\
        snd st = map (raise (fun nl cl => rsum (fun no => dries no nl cl) (zseq 0 no))) pieces) f 0 (zlen ocn) (axo, pieces) (zlen_nonneg _)) as ((axo' & ps) & E & H1 & H2) end.
      - cbn [fst snd]. split.
        + eapply vec_ext; [|exact HX]. intros k Hk. cbn. destruct (Z.ltb_spec k 0); auto; lia.
        + rewrite <- (map_id pieces) at 1. apply map_ext. intros p. symmetry. apply raise_0. reflexivity.
      - intros no (axo1, ps) Hno (H1 & H2). rewrite Z.add_0_l in Hno. cbn [fst snd] in *. rewrite oget_tile by auto. cbn [bind].
        assert (forall S (f : Z -> Z -> Z -> Z -> outcome S), True) as _ by auto.
        destruct (set_mask _ _ _ _ _ _ HS) as (Lm & _).
        pose proof (vec_get _ _ _ no H1 Hno) as Eg. cbn beta in Eg. rewrite Z.ltb_irrefl in Eg.
        assert (forall p, In p ps -> good p) as Hg'. { subst ps. intros p Hp. apply in_map_iff in Hp. destruct Hp as (p' & <- & Hp). now apply (Hg p'). }
        pose proof (ocean_tile_run no r (X no) ps Hno Hr Hg' (Hl no Hno)) as Et.
        destruct (Hr no Hno) as (js & je & Er & _). rewrite Er in *. cbn [bind] in *. rewrite (oget_nth omask [] no) by lia. cbn [bind].
        rewrite Eg. cbn [bind]. rewrite Et. cbn [bind].
        destruct (vec_set axo1 (zlen ocn) _ (fun k => if k <? no + 1 then X k ++ ocells na ca k else X k) no (X no ++ ocells na ca no) H1 Hno) as (axo2 & E2 & V2).
        { intros k Hk. destruct (Z.eqb_spec k no) as [->|N]; [destruct (Z.ltb_spec no (no + 1)); auto; lia|]. destruct (Z.ltb_spec k (no + 1)), (Z.ltb_spec k no); auto; lia. }
        rewrite E2. cbn [bind]. eexists. split; [reflexivity|]. cbn [fst snd]. split; auto. subst ps. rewrite map_map. apply map_ext. intros p. rewrite raise_raise. apply raise_ext.
        intros nl cl. rewrite zseq_snoc, rsum_app by lia. rewrite Z.add_0_l. change (rsum (fun no0 => dries no0 nl cl) [no]) with (dries no nl cl + 0)%R. lra.
      - exists axo'. cbn [fst snd] in *. rewrite Z.add_0_l in *. subst ps. split; [exact E|]. eapply vec_ext; [|exact H1]. intros k Hk. cbn. destruct (Z.ltb_spec k (zlen ocn)); auto; lia.
    Qed.

    (** The land cells *)
    Lemma piece_good nl cl p : 0 <= nl < zlen lnd -> In cl (cells (tile_at lnd nl)) -> In p (piece_of nl cl) -> good p.
    Proof.
      intros Hn Hc. unfold P_Coupler2.piece_of. destruct (land_counts_dec _ _ _ _ _ _ _ _) as [c|n]; [|easy]. intros [<-|[]]. exists cl. cbn. repeat split; auto; try lia. now destruct cl.
    Qed.
    Definition pieces_of (nl : Z) : list piece := flat_map (piece_of nl) (cells (tile_at lnd nl)).
    Lemma land_tile_run nl r acc : 0 <= nl < zlen lnd -> searched (o_lnd_same o) na lnd lo hi r -> zlen (acc ++ pieces_of nl) <= MX ->
      (do '(js, je, is, ie) <- oget r nl ; over js je is ie (add_piece o g cell nl (tile_at lnd nl)) acc) = Ok (acc ++ pieces_of nl).
    Proof.
      intros Hn Hr Hl. destruct (Hr nl Hn) as (js & je & E & H0 & H1 & H). rewrite E. cbn [bind]. set (t := tile_at lnd nl) in *. rewrite over_rect.
      set (is := fst (columns t ((nl =? na) || negb (o_lnd_same o)))) in *. set (ie := snd (columns t ((nl =? na) || negb (o_lnd_same o)))) in *.
      assert (forall c, In c (rect js je is ie) -> In c (cells t)) as Hin.
      { intros (i, j) Hc. destruct (set_lnd _ _ _ _ _ _ HS nl Hn) as (Hx & _). fold t in Hx. apply In_rect in Hc. apply In_cells. unfold is, ie, columns in Hc. destruct ((nl =? na) || negb (o_lnd_same o)); cbn in Hc; lia. }
      assert (flat_map (piece_of nl) (rect js je is ie) = pieces_of nl) as E1.
      { unfold is, ie. destruct ((nl =? na) || negb (o_lnd_same o)) eqn:F; cbn [columns fst snd].
        - apply flat_map_rows; auto. intros i j Hc Hj. unfold P_Coupler2.piece_of. destruct (land_counts_dec _ _ _ _ _ _ _ _) as [c|n]; auto. exfalso. revert c.
          apply (not_lcounts o g atm lnd ocn omask HS na ca Hna Hca nl); auto. apply (ground_apart o g atm lnd ocn omask HS na ca Hna Hca nl); auto.
          fold t. destruct (H i j Hc) as (Ha & Hb). eapply lat_rows; eauto. destruct Hj; auto.
        - apply orb_false_iff in F. destruct F as (F1 & F2). apply negb_false_iff in F2.
          assert (forall c, In c (cells t) -> piece_of nl c = []) as Hz.
          { intros c Hc. unfold P_Coupler2.piece_of. destruct (land_counts_dec _ _ _ _ _ _ _ _) as [c'|n]; auto. exfalso. revert c'.
            apply (not_lcounts o g atm lnd ocn omask HS na ca Hna Hca nl); auto. unfold Spec_Coupler.ground. rewrite F2. destruct (Z.eqb_spec na nl); [lia|]. cbn [andb]. rewrite (sound_none g Snd). lra. }
          unfold pieces_of. fold t. rewrite (flat_map_empty _ (cells t)) by auto. apply flat_map_empty. intros c Hc. apply Hz. apply Hin. exact Hc. }
      rewrite (ofold_cap _ (piece_of nl) MX); [now rewrite E1| |now rewrite E1]. intros acc' (i, j) Hc Hl'. apply (add_piece_run o g atm lnd ocn omask HS na ca Hna Hca nl); auto.
    Qed.
    Definition all_pieces : list piece := flat_map pieces_of (zseq 0 (zlen lnd)).
    Lemma all_pieces_len : zlen all_pieces <= MX.
    Proof.
      pose proof (room_ground _ _ _ _ _ _ HR na ca Hna Hca) as H. unfold grounds in H.
      match type of H with zlen ?l <= _ => assert (all_pieces = map (fun x => Piece (fst (snd x)) (snd (snd x)) (fst x) (ground na ca (fst x) (snd x)) 0) l) as E end.
      { unfold all_pieces, pieces_of. rewrite map_flat_map. apply flat_map_ext_in. intros nl _. rewrite map_flat_map. apply flat_map_ext_in. intros cl _. unfold P_Coupler2.piece_of.
        destruct (land_counts_dec _ _ _ _ _ _ _ _); reflexivity. }
      rewrite E, zlen_map. exact H.
    Qed.
    Lemma land_tiles_run r : searched (o_lnd_same o) na lnd lo hi r ->
      ofor 0 (zlen lnd) (fun acc nl =>
        do tl <- oget lnd nl ; do '(js, je, is, ie) <- oget r nl ;
        over js je is ie (add_piece o g cell nl tl) acc) [] = Ok all_pieces.
    Proof.
      intros Hr. unfold ofor. change all_pieces with ([] ++ all_pieces). apply (ofold_cap _ pieces_of MX); [|exact all_pieces_len].
      intros acc nl Hn Hl. apply In_zseq in Hn. rewrite oget_tile by lia. cbn [bind]. apply land_tile_run; auto; lia.
    Qed.
    Lemma all_pieces_good p : In p all_pieces -> good p.
    Proof. intros H. apply in_flat_map in H. destruct H as (nl & Hn & H). apply In_zseq in Hn. apply in_flat_map in H. destruct H as (cl & Hc & H). apply (piece_good nl cl); auto; lia. Qed.

    Definition kept (p : piece) : list xcell :=
      if land_counts_dec o atm lnd na ca (p_t p) (p_i p, p_j p) (p_area p) then [XCell (fst ca) (snd ca) (p_i p) (p_j p) (p_area p)] else [].
    Lemma keep_run l : forall axl X, (forall p, In p l -> good p) -> vec axl (zlen lnd) X ->
      (forall nl, 0 <= nl < zlen lnd -> zlen (X nl ++ flat_map (fun p => if p_t p =? nl then kept p else []) l) <= o_max o) ->
      exists axl', ofold (keep_piece o cell lnd) l axl = Ok axl' /\ vec axl' (zlen lnd) (fun nl => X nl ++ flat_map (fun p => if p_t p =? nl then kept p else []) l).
    Proof.
      induction l as [|p l IH]; intros axl X Hg HX Hl; cbn [ofold flat_map] in *.
      - exists axl. split; auto. eapply vec_ext; [|exact HX]. intros. now rewrite app_nil_r.
      - destruct (Hg p (or_introl eq_refl)) as (cl & Ht & Hc & Ec & _ & _). subst cl.
        assert (exists axl1, keep_piece o cell lnd axl p = Ok axl1 /\ vec axl1 (zlen lnd) (fun nl => X nl ++ if p_t p =? nl then kept p else [])) as (axl1 & E1 & V1).
        { unfold keep_piece. rewrite oget_tile by auto. cbn [bind]. rewrite size_get by (auto; apply (set_lnd _ _ _ _ _ _ HS); auto). cbn [bind a_area a_i a_j]. specialize (Hl (p_t p) Ht). rewrite Z.eqb_refl in Hl. unfold kept in *.
          destruct (land_counts_dec o atm lnd na ca (p_t p) (p_i p, p_j p) (p_area p)) as [c|n].
          - destruct (rlt_spec (o_thresh o) (p_area p / Rmin (size (tile_at lnd (p_t p)) (p_i p, p_j p)) (size (tile_at atm na) ca))) as [|N]; [|contradiction].
            rewrite (vec_get _ _ _ _ HX Ht). cbn [bind]. rewrite !zlen_app in Hl. change (zlen [_]) with 1 in Hl. pose proof (zlen_nonneg (flat_map (fun p0 => if p_t p0 =? p_t p then kept p0 else []) l)) as Hz. unfold kept in Hz.
            destruct (Z.ltb_spec (zlen (X (p_t p))) (o_max o)); [|lia]. apply (vec_set _ _ X); auto. intros nl Hn. rewrite (Z.eqb_sym nl). destruct (Z.eqb_spec (p_t p) nl) as [->|]; auto. now rewrite app_nil_r.
          - destruct (rlt_spec (o_thresh o) (p_area p / Rmin (size (tile_at lnd (p_t p)) (p_i p, p_j p)) (size (tile_at atm na) ca))) as [|N]; [contradiction|].
            exists axl. split; auto. eapply vec_ext; [|exact HX]. intros nl Hn. cbn. destruct (p_t p =? nl); now rewrite app_nil_r. }
        rewrite E1. cbn [bind]. destruct (IH axl1 _ ltac:(intros; apply Hg; now right) V1) as (axl2 & E2 & V2).
        { intros nl Hn. rewrite <- app_assoc. apply Hl; auto. }
        exists axl2. split; auto. eapply vec_ext; [|exact V2]. intros nl Hn. cbn beta. now rewrite <- app_assoc.
    Qed.
    Lemma kept_all nl : 0 <= nl < zlen lnd ->
      flat_map (fun p => if p_t p =? nl then kept p else []) (map (raise (land_area o g atm lnd ocn omask na ca)) all_pieces) = lcells na ca nl.
    Proof.
      intros Hn. rewrite flat_map_map. unfold all_pieces. rewrite flat_map_nested.
      assert (forall n, 0 <= n < zlen lnd -> flat_map (fun p => if p_t (raise (land_area o g atm lnd ocn omask na ca) p) =? nl then kept (raise (land_area o g atm lnd ocn omask na ca) p) else []) (pieces_of n) = if n =? nl then lcells na ca nl else []) as H.
      { intros n Hn'. unfold pieces_of. rewrite flat_map_nested.
        assert (forall cl, In cl (cells (tile_at lnd n)) -> flat_map (fun p => if p_t (raise (land_area o g atm lnd ocn omask na ca) p) =? nl then kept (raise (land_area o g atm lnd ocn omask na ca) p) else []) (piece_of n cl) = if n =? nl then lcell na ca n cl else []) as G.
        { intros cl Hc. unfold P_Coupler2.piece_of, land_cell. destruct (land_counts_dec o atm lnd na ca n cl (g_area g (ground na ca n cl))) as [c|c]; cbn [flat_map]; [|destruct (n =? nl); auto].
          rewrite app_nil_r. cbn [raise p_t]. destruct (n =? nl); auto. unfold kept. cbn [raise p_t p_i p_j p_area]. rewrite Rplus_0_l. rewrite <- surjective_pairing. reflexivity. }
        rewrite (flat_map_ext_in _ _ _ G). destruct (Z.eqb_spec n nl) as [->|]; [reflexivity|]. apply flat_map_empty. auto. }
      rewrite (flat_map_ext_in _ (fun n => if n =? nl then lcells na ca nl else [])) by (intros n Hn'; apply In_zseq in Hn'; apply H; lia).
      replace (zlen lnd) with (nl + (1 + (zlen lnd - nl - 1))) by lia. rewrite (zseq_app 0 nl), (zseq_app (0 + nl) 1) by lia. rewrite !flat_map_app.
      rewrite (flat_map_empty _ (zseq 0 nl)), (flat_map_empty _ (zseq (0 + nl + 1) _)); cycle 1.
      { intros n Hk. apply In_zseq in Hk. destruct (Z.eqb_spec n nl); auto; lia. }
      { intros n Hk. apply In_zseq in Hk. destruct (Z.eqb_spec n nl); auto; lia. }
      rewrite zseq_S by lia. cbn [flat_map]. change (zseq (0 + nl + 1) (1 - 1)) with (@nil Z). cbn [flat_map]. rewrite Z.add_0_l, Z.eqb_refl, !app_nil_r. reflexivity.
    Qed.

    Lemma one_cell_run la lr or axl axo X Y : ca = (la mod t_nx (tile_at atm na), la / t_nx (tile_at atm na)) -> 0 <= la < t_nx (tile_at atm na) * t_ny (tile_at atm na) ->
      searched (o_lnd_same o) na lnd lo hi lr -> searched (o_ocn_same o) na ocn lo hi or ->
      vec axl (zlen lnd) X -> vec axo (zlen ocn) Y ->
      (forall nl, 0 <= nl < zlen lnd -> zlen (X nl ++ lcells na ca nl) <= o_max o) -> (forall no, 0 <= no < zlen ocn -> zlen (Y no ++ ocells na ca no) <= o_max o) ->
      exists axl' axo', one_cell o g na (tile_at atm na) lnd ocn omask lr or (axl, axo) la = Ok (axl', axo') /\
        vec axl' (zlen lnd) (fun nl => X nl ++ lcells na ca nl) /\ vec axo' (zlen ocn) (fun no => Y no ++ ocells na ca no).
    Proof.
      intros Eca Hla Hlr Hor HX HY LX LY. unfold one_cell. rewrite (cell_run o g atm lnd ocn omask HS na ca Hna Hca (tile_at atm na) la eq_refl Eca Hla). cbn [bind].
      rewrite land_tiles_run by auto. cbn [bind]. destruct (ocean_tiles_run or all_pieces Y axo Hor all_pieces_good HY LY) as (axo' & E & V). rewrite E. cbn [bind].
      destruct (keep_run (map (raise (land_area o g atm lnd ocn omask na ca)) all_pieces) axl X) as (axl' & E2 & V2); auto.
      - intros p Hp. apply in_map_iff in Hp. destruct Hp as (p' & <- & Hp). exact (all_pieces_good p' Hp).
      - intros nl Hn. rewrite kept_all by auto. auto.
      - rewrite E2. cbn [bind]. exists axl', axo'. split; [reflexivity|]. split; auto. eapply vec_ext; [|exact V2]. intros nl Hn. cbn beta. now rewrite kept_all.
    Qed.
  End Cell.

  (** ** One processor *)
  Section Tile.
    Variable na : Z.
    Hypothesis Hna : 0 <= na < zlen atm.
    Local Notation t := (tile_at atm na).
    Local Notation N := (t_nx t * t_ny t).
    Local Notation ca la := (la mod t_nx t, la / t_nx t).
    Definition lpart (l : list Z) (nl : Z) : list xcell := flat_map (fun la => lcells na (ca la) nl) l.
    Definition opart (l : list Z) (no : Z) : list xcell := flat_map (fun la => ocells na (ca la) no) l.
    Lemma proper_t : proper t.
    Proof. exact (set_atm _ _ _ _ _ _ HS na Hna). Qed.
    Lemma lpart_all nl : lpart (zseq 0 N) nl = land_exchange o g atm lnd ocn omask na nl.
    Proof. unfold lpart, land_exchange. destruct proper_t as (Hx & Hy & _). rewrite <- (cells_la t) by lia. rewrite flat_map_map. reflexivity. Qed.
    Lemma opart_all no : opart (zseq 0 N) no = ocean_exchange o g atm ocn omask na no.
    Proof.
      unfold opart, ocean_exchange, ocells. destruct proper_t as (Hx & Hy & _). rewrite <- (cells_la t) by lia. rewrite flat_map_map.
      destruct (facing o na no); [reflexivity|]. apply flat_map_empty. auto.
    Qed.
    Lemma part_le {B} (f : Z -> list B) is n : 0 <= is -> 0 <= n -> is + n <= N -> zlen (flat_map f (zseq is n)) <= zlen (flat_map f (zseq 0 N)).
    Proof.
      intros H1 H2 H3. replace N with (is + (n + (N - is - n))) by lia. rewrite (zseq_app 0 is), (zseq_app (0 + is) n) by lia. rewrite !flat_map_app, !zlen_app, Z.add_0_l.
      pose proof (zlen_nonneg (flat_map f (zseq 0 is))). pose proof (zlen_nonneg (flat_map f (zseq (is + n) (N - is - n)))). lia.
    Qed.
    Lemma atm_pe_run is ie : 0 <= is -> ie < N -> is <= ie + 1 -> exists axl axo, atm_pe o g na t lnd ocn omask is ie = Ok (axl, axo) /\
      vec axl (zlen lnd) (lpart (zseq is (ie - is + 1))) /\ vec axo (zlen ocn) (opart (zseq is (ie - is + 1))).
    Proof.
      intros H0 H1 H2. unfold atm_pe. destruct (band_run t is ie proper_t H0 H1) as (lo & hi & E & Hb). rewrite E. cbn [bind].
      destruct (ranges_run (o_lnd_same o) na lnd lo hi (set_lnd _ _ _ _ _ _ HS)) as (lr & El & Hlr). rewrite El. cbn [bind].
      destruct (ranges_run (o_ocn_same o) na ocn lo hi (set_ocn _ _ _ _ _ _ HS)) as (or & Eo & Hor). rewrite Eo. cbn [bind].
      match goal with |- context [ofor is ?n ?f ?s] => destruct (ofor_inv (fun la st => vec (fst st) (zlen lnd) (lpart (zseq is (la - is))) /\ vec (snd st) (zlen ocn) (opart (zseq is (la - is)))) f is n s ltac:(lia)) as ((axl & axo) & Ef & V1 & V2) end.
      - cbn [fst snd]. rewrite Z.sub_diag. change (zseq is 0) with (@nil Z). split.
        + pose proof (vec_repeat (@nil xcell) (zlen lnd) (zlen_nonneg _)) as V. unfold zlen at 1 in V. rewrite Nat2Z.id in V. exact V.
        + pose proof (vec_repeat (@nil xcell) (zlen ocn) (zlen_nonneg _)) as V. unfold zlen at 1 in V. rewrite Nat2Z.id in V. exact V.
      - intros la (axl, axo) Hla (V1 & V2). cbn [fst snd] in *. destruct proper_t as (Hx & _).
        assert (forall B (f : Z -> list B), flat_map f (zseq is (la - is)) ++ f la = flat_map f (zseq is (la + 1 - is))) as Hs.
        { intros B f. replace (la + 1 - is) with (la - is + 1) by lia. rewrite zseq_snoc by lia. rewrite flat_map_app. cbn [flat_map]. rewrite app_nil_r. do 2 f_equal. lia. }
        destruct (one_cell_run na (ca la) lo hi Hna (In_la t la Hx ltac:(lia)) (Hb la ltac:(lia)) la lr or axl axo _ _ eq_refl ltac:(lia) Hlr Hor V1 V2) as (axl' & axo' & E1 & W1 & W2).
        + intros nl Hn. unfold lpart. rewrite (Hs _ (fun la => lcells na (ca la) nl)). etransitivity; [apply part_le; lia|].
          change (zlen (lpart (zseq 0 N) nl) <= o_max o). rewrite lpart_all. apply (room_land _ _ _ _ _ _ HR); auto.
        + intros no Hn. unfold opart. rewrite (Hs _ (fun la => ocells na (ca la) no)). etransitivity; [apply part_le; lia|].
          change (zlen (opart (zseq 0 N) no) <= o_max o). rewrite opart_all. apply (room_ocean _ _ _ _ _ _ HR); auto.
        + eexists. split; [exact E1|]. cbn [fst snd]. split; (eapply vec_ext; [|eassumption]); intros k Hk; cbn beta.
          * apply (Hs _ (fun la => lcells na (ca la) k)).
          * apply (Hs _ (fun la => ocells na (ca la) k)).
      - exists axl, axo. cbn [fst snd] in *. replace (is + (ie - is + 1) - is) with (ie - is + 1) in * by lia. auto.
    Qed.
  End Tile.
End All.

(** ** All processors *)
Lemma on_all_run {A} npts npes (work : Z -> Z -> outcome A) (P : Z -> Z -> A -> Prop) : 1 <= npes <= npts ->
  (forall p, 0 <= p < npes -> let is := start_of npts npes p in let ie := start_of npts npes (p + 1) - 1 in 0 <= is -> ie < npts -> is <= ie + 1 -> exists r, work is ie = Ok r /\ P is ie r) ->
  exists parts, on_all npts npes work = Ok parts /\ exists f, f 0 = 0 /\ f npes = npts /\ (forall p, 0 <= p < npes -> f p <= f (p + 1)) /\
    zlen parts = npes /\ forall p, 0 <= p < npes -> exists r, zget parts p = Some r /\ P (f p) (f (p + 1) - 1) r.
Proof.
  intros Hn Hw. unfold on_all. destruct (compute_extent_spec npts npes (repeat 0 (Z.to_nat npes)) (repeat 0 (Z.to_nat npes)) Hn) as (ib & ie & E & HE); try (rewrite zlen_repeat; lia).
  rewrite E. cbn [bind]. set (f := start_of npts npes).
  assert (forall j, 0 <= j < npes -> f j <= f (j + 1)) as Hmono.
  { intros j Hj. pose proof (start_of_mono npts npes j (j + 1) Hn ltac:(lia) ltac:(lia)). unfold f. lia. }
  match goal with |- context [ofor 0 npes ?h ?s] => destruct (ofor_inv (fun p acc => zlen acc = p /\ forall q, 0 <= q < p -> exists r, zget acc q = Some r /\ P (f q) (f (q + 1) - 1) r) h 0 npes s ltac:(lia)) as (parts & Ep & L & H) end.
  - split; [reflexivity|]. intros. lia.
  - intros p acc Hp (L & H). rewrite Z.add_0_l in Hp. destruct (HE p Hp) as (B1 & B2).
    rewrite (proj2 (oget_Ok _ _ _) B1). cbn [bind]. rewrite (proj2 (oget_Ok _ _ _) B2). cbn [bind]. fold f.
    pose proof (start_of_mono npts npes 0 p Hn ltac:(lia) ltac:(lia)) as M1. rewrite start_of_0 in M1 by auto. fold f in M1.
    pose proof (start_of_mono npts npes (p + 1) npes Hn ltac:(lia) ltac:(lia)) as M2. rewrite start_of_d in M2 by auto. fold f in M2.
    pose proof (Hmono p Hp). destruct (Hw p Hp ltac:(unfold f in *; lia) ltac:(unfold f in *; lia) ltac:(unfold f in *; lia)) as (r & Er & Pr). fold f in Er, Pr. rewrite Er. cbn [bind].
    eexists. split; [reflexivity|]. split; [rewrite zlen_app, L; reflexivity|]. intros q Hq. destruct (Z.eq_dec q p) as [->|N].
    + exists r. rewrite zget_app_r, L, Z.sub_diag by lia. auto.
    + rewrite zget_app_l by lia. apply H. lia.
  - exists parts. split; auto. exists f. split; [now apply start_of_0|]. split; [now apply start_of_d|]. split; auto.
Qed.
Lemma collect_run n parts (F : Z -> Z -> list xcell) : 0 <= n -> (forall p r, zget parts p = Some r -> vec r n (F p)) ->
  collect n parts = Ok (map (fun k => flat_map (fun p => F p k) (zseq 0 (zlen parts))) (zseq 0 n)).
Proof.
  intros Hn H. unfold collect, ofor. 
  rewrite (Loops.ofold_ext _ (fun out k => do x <- Ok (flat_map (fun p => F p k) (zseq 0 (zlen parts))) ; Ok (out ++ [x]))).
  - rewrite (ofold_map _ (fun k => flat_map (fun p => F p k) (zseq 0 (zlen parts)))) by auto. reflexivity.
  - intros acc k Hk. apply In_zseq in Hk. 
    assert (ofold (fun l r => do c <- oget r k ; Ok (l ++ [c])) parts [] = Ok (map (fun p => F p k) (zseq 0 (zlen parts)))) as ->.
    { assert (forall l, (exists pre, parts = pre ++ l) -> forall acc, ofold (fun l r => do c <- oget r k ; Ok (l ++ [c])) l acc = Ok (acc ++ map (fun p => F p k) (zseq (zlen parts - zlen l) (zlen l)))) as G.
      { induction l as [|r l IH]; intros (pre & Ep) acc'; cbn [ofold].
        - change (zlen []) with 0. rewrite zseq_nonpos by lia. cbn. now rewrite app_nil_r.
        - assert (zget parts (zlen parts - zlen (r :: l)) = Some r) as Eg.
          { rewrite Ep. rewrite zlen_app. replace (zlen pre + zlen (r :: l) - zlen (r :: l)) with (zlen pre) by lia. rewrite zget_app_r, Z.sub_diag by lia. reflexivity. }
          rewrite (vec_get _ _ _ k (H _ _ Eg)) by lia. cbn [bind]. rewrite IH by (exists (pre ++ [r]); rewrite <- app_assoc; exact Ep). rewrite <- app_assoc. do 2 f_equal.
          pose proof (zlen_nonneg l). rewrite (zlen_cons r). rewrite (zseq_S _ (1 + zlen l)) by lia. cbn [map app]. f_equal. do 2 f_equal; lia. }
      rewrite (G parts) by (exists []; reflexivity). rewrite Z.sub_diag. reflexivity. }
    cbn [bind]. rewrite C05_gather_field_concat by (rewrite zlen_repeat; reflexivity). cbn [bind]. now rewrite <- flat_map_concat_map.
Qed.

Section Main.
  Variables (o : options) (g : geometry) (atm lnd ocn : list tile) (omask : list (list R)).
  Hypothesis HS : setting o g atm lnd ocn omask.
  Hypothesis HR : room o g atm lnd ocn omask.
  Lemma atm_tile_run na npes : 0 <= na < zlen atm -> 1 <= npes <= t_nx (tile_at atm na) * t_ny (tile_at atm na) ->
    atm_tile o g na (tile_at atm na) lnd ocn omask npes =
    Ok (map (land_exchange o g atm lnd ocn omask na) (zseq 0 (zlen lnd)), map (ocean_exchange o g atm ocn omask na) (zseq 0 (zlen ocn))).
  Proof.
    intros Hna Hn. unfold atm_tile. set (t := tile_at atm na) in *.
    destruct (on_all_run (t_nx t * t_ny t) npes (atm_pe o g na t lnd ocn omask)
      (fun is ie r => vec (fst r) (zlen lnd) (lpart o g atm lnd ocn omask na (zseq is (ie - is + 1))) /\ vec (snd r) (zlen ocn) (opart o g atm ocn omask na (zseq is (ie - is + 1)))) Hn) as (parts & E & f & F0 & FN & FM & L & H).
    { intros p _ is ie H0 H1 H2. destruct (atm_pe_run o g atm lnd ocn omask HS HR na Hna is ie H0 H1 H2) as (axl & axo & E & V). exists (axl, axo). auto. }
    rewrite E. cbn [bind].
    rewrite (collect_run (zlen lnd) (map fst parts) (fun p => lpart o g atm lnd ocn omask na (zseq (f p) (f (p + 1) - 1 - f p + 1)))) by
      (apply zlen_nonneg || (intros p r Hp; rewrite zget_map in Hp; destruct (zget parts p) as [r'|] eqn:Ep; [|discriminate]; injection Hp as <-; pose proof (zget_Some_range _ _ _ Ep); destruct (H p ltac:(lia)) as (r & Er & V1 & V2); assert (r' = r) as -> by congruence; exact V1)).
    cbn [bind].
    rewrite (collect_run (zlen ocn) (map snd parts) (fun p => opart o g atm ocn omask na (zseq (f p) (f (p + 1) - 1 - f p + 1)))) by
      (apply zlen_nonneg || (intros p r Hp; rewrite zget_map in Hp; destruct (zget parts p) as [r'|] eqn:Ep; [|discriminate]; injection Hp as <-; pose proof (zget_Some_range _ _ _ Ep); destruct (H p ltac:(lia)) as (r & Er & V1 & V2); assert (r' = r) as -> by congruence; exact V2)).
    cbn [bind]. rewrite !zlen_map, L. do 2 f_equal; apply map_ext_in; intros k _.
    - rewrite <- (lpart_all o g atm lnd ocn omask HS na Hna). unfold lpart. rewrite <- flat_map_nested, (windows f npes) by (auto; lia). rewrite F0, FN, Z.sub_0_r. reflexivity.
    - rewrite <- (opart_all o g atm lnd ocn omask HS na Hna). unfold opart. rewrite <- flat_map_nested, (windows f npes) by (auto; lia). rewrite F0, FN, Z.sub_0_r. reflexivity.
  Qed.
  Lemma atm_all_run npes : (forall na, 0 <= na < zlen atm -> 1 <= npes <= t_nx (tile_at atm na) * t_ny (tile_at atm na)) ->
    atm_all o g atm lnd ocn omask npes = Ok (map (fun na => (map (land_exchange o g atm lnd ocn omask na) (zseq 0 (zlen lnd)), map (ocean_exchange o g atm ocn omask na) (zseq 0 (zlen ocn)))) (zseq 0 (zlen atm))).
  Proof.
    intros Hn. unfold atm_all, ofor.
    rewrite (Loops.ofold_ext _ (fun acc na => do r <- Ok (map (land_exchange o g atm lnd ocn omask na) (zseq 0 (zlen lnd)), map (ocean_exchange o g atm ocn omask na) (zseq 0 (zlen ocn))) ; Ok (acc ++ [r]))).
    - rewrite (ofold_map _ (fun na => (map (land_exchange o g atm lnd ocn omask na) (zseq 0 (zlen lnd)), map (ocean_exchange o g atm ocn omask na) (zseq 0 (zlen ocn))))) by auto. reflexivity.
    - intros acc na Hk. apply In_zseq in Hk. rewrite oget_tile by lia. cbn [bind]. rewrite atm_tile_run by (try apply Hn; lia). reflexivity.
  Qed.
End Main.
