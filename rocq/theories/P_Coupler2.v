(** * Proofs about make_coupler_mosaic: one atmosphere cell *)
From Coq Require Import Reals Lra.
From Verif Require Import Base Loops Vec P_Interp P_Interp2 P_RemapLand4 P_Coupler M_Interp Spec_Interp M_Coupler Spec_Coupler.
Open Scope Z_scope.

Section Cell.
  Variables (o : options) (g : geometry) (atm lnd ocn : list tile) (omask : list (list R)).
  Hypothesis HS : setting o g atm lnd ocn omask.
  Variables (na : Z) (ca : Z * Z).
  Hypothesis Hna : 0 <= na < zlen atm.
  Hypothesis Hca : In ca (cells (tile_at atm na)).
  Local Notation A := (air g atm na ca).
  Local Notation beside := (beside g atm na ca).
  Local Notation wet := (wet ocn omask).
  Local Notation ground := (ground o g atm lnd na ca).
  Local Notation lcounts := (land_counts o atm lnd na ca).
  Let q0 := quad (tile_at atm na) ca.
  Let cell := ACell na (fst ca) (snd ca) (minval (ys q0)) (maxval (ys q0)) A (size (tile_at atm na) ca).

  Let Snd := set_sound _ _ _ _ _ _ HS.
  Lemma cell_run t la : t = tile_at atm na -> ca = (la mod t_nx t, la / t_nx t) -> 0 <= la < t_nx t * t_ny t -> atm_cell g na t la = Ok cell.
  Proof.
    intros -> E H. unfold atm_cell. pose proof (set_atm _ _ _ _ _ _ HS na Hna) as Hp. rewrite corners_run by (auto; now rewrite <- E). cbn [bind]. rewrite <- E.
    rewrite size_la by auto. cbn [bind]. rewrite <- E. unfold cell, q0, air. rewrite E. reflexivity.
  Qed.
  Lemma cell_avg : a_avg cell = mean (map fst A).
  Proof. unfold a_avg. cbn [a_poly cell]. apply avgval_mean. Qed.
  Lemma A_some : A <> [].
  Proof. apply (sound_some g Snd). apply quad_4. Qed.
  Lemma beside_some t c : beside t c <> [].
  Proof. apply (sound_some g Snd). apply quad_4. Qed.
  Lemma A_lat v : In v A -> (minval (ys q0) <= snd v <= maxval (ys q0))%R.
  Proof.
    intros H. split.
    - apply (proj2 (sound_lat g Snd q0 PI (minval (ys q0)) (quad_4 _ _))); auto. intros u Hu. apply minval_le. now apply in_map.
    - apply (proj1 (sound_lat g Snd q0 PI (maxval (ys q0)) (quad_4 _ _))); auto. intros u Hu. apply maxval_ge. now apply in_map.
  Qed.
  Lemma size_pos : (0 < size (tile_at atm na) ca)%R.
  Proof. destruct (set_atm _ _ _ _ _ _ HS na Hna) as (_ & _ & _ & _ & _ & H). auto. Qed.
  Lemma not_counts x a : (0 < a)%R -> (x <= 0)%R -> ~ counts o x a (size (tile_at atm na) ca).
  Proof.
    intros Ha Hx C. unfold counts in C. pose proof size_pos as Hs. pose proof (set_thresh _ _ _ _ _ _ HS) as Ht.
    assert (0 < Rmin a (size (tile_at atm na) ca))%R as Hm by (apply Rmin_glb_lt; auto).
    assert (x / Rmin a (size (tile_at atm na) ca) <= 0)%R; [|lra]. unfold Rdiv. pose proof (Rinv_0_lt_compat _ Hm). nra.
  Qed.
  Lemma lsize_pos nl cl : 0 <= nl < zlen lnd -> In cl (cells (tile_at lnd nl)) -> (0 < size (tile_at lnd nl) cl)%R.
  Proof. intros H Hc. destruct (set_lnd _ _ _ _ _ _ HS nl H) as (_ & _ & _ & _ & _ & H'). auto. Qed.
  Lemma osize_pos no co : 0 <= no < zlen ocn -> In co (cells (tile_at ocn no)) -> (0 < size (tile_at ocn no) co)%R.
  Proof. intros H Hc. destruct (set_ocn _ _ _ _ _ _ HS no H) as (_ & _ & _ & _ & _ & H'). auto. Qed.
  Lemma not_lcounts nl cl x : 0 <= nl < zlen lnd -> In cl (cells (tile_at lnd nl)) -> (x <= 0)%R -> ~ lcounts nl cl x.
  Proof. intros Hn Hc Hx. apply not_counts; auto. now apply lsize_pos. Qed.

  (** Latitudes before fix_lon separate the polygons after it. *)
  Lemma lat_above t c : (maxval (ys q0) <= minval (ys (quad t c)))%R -> forall r, apart A (g_fix g (quad t c) r).
  Proof.
    intros H r. right. right. left. exists (maxval (ys q0)). split; [intros; now apply A_lat|]. intros v Hv.
    apply (proj2 (sound_lat g Snd (quad t c) r (maxval (ys q0)) (quad_4 _ _))); auto. intros u Hu. pose proof (minval_le (ys (quad t c)) (snd u) (in_map snd _ _ Hu)). lra.
  Qed.
  Lemma lat_below t c : (maxval (ys (quad t c)) <= minval (ys q0))%R -> forall r, apart A (g_fix g (quad t c) r).
  Proof.
    intros H r. right. right. right. exists (minval (ys q0)). split; [|intros; now apply A_lat]. intros v Hv.
    apply (proj1 (sound_lat g Snd (quad t c) r (minval (ys q0)) (quad_4 _ _))); auto. intros u Hu. pose proof (maxval_ge (ys (quad t c)) (snd u) (in_map snd _ _ Hu)). lra.
  Qed.
  Lemma lat_rows t c lo hi : (forall v, In v q0 -> (lo <= snd v <= hi)%R) ->
    (forall v, In v (quad t c) -> (snd v <= lo)%R) \/ (forall v, In v (quad t c) -> (hi <= snd v)%R) -> forall r, apart A (g_fix g (quad t c) r).
  Proof.
    intros H [L|L] r.
    - right. right. right. exists lo. split.
      + intros v. apply (proj1 (sound_lat g Snd (quad t c) r lo (quad_4 _ _))). auto.
      + intros v. apply (proj2 (sound_lat g Snd q0 PI lo (quad_4 _ _))). intros u Hu. now apply H.
    - right. right. left. exists hi. split.
      + intros v. apply (proj1 (sound_lat g Snd q0 PI hi (quad_4 _ _))). intros u Hu. now apply H.
      + intros v. apply (proj2 (sound_lat g Snd (quad t c) r hi (quad_4 _ _))). auto.
  Qed.

  (** ** The pieces *)
  Definition piece_of (nl : Z) (cl : Z * Z) : list piece :=
    if land_counts_dec o atm lnd na ca nl cl (g_area g (ground nl cl)) then [Piece (fst cl) (snd cl) nl (ground nl cl) 0] else [].
  Lemma ground_apart nl cl : 0 <= nl < zlen lnd -> In cl (cells (tile_at lnd nl)) ->
    apart A (beside (tile_at lnd nl) cl) -> (g_area g (ground nl cl) <= 0)%R.
  Proof.
    intros Hn Hc H. unfold Spec_Coupler.ground. destruct (o_lnd_same o) eqn:E.
    - destruct ((na =? nl) && (snd ca =? snd cl) && (fst ca =? fst cl)) eqn:F; [|rewrite (sound_none g Snd); lra].
      apply andb_true_iff in F. destruct F as (F & F3). apply andb_true_iff in F. destruct F as (F1 & F2).
      assert (na = nl) as <- by lia. assert (ca = cl) as <- by (destruct ca, cl; cbn in *; f_equal; lia).
      destruct (set_same _ _ _ _ _ _ HS E na ca Hna ltac:(lia) Hca) as (_ & E2). rewrite E2 in H. apply (sound_flat g Snd); auto. apply A_some.
    - apply (sound_apart g Snd); auto. apply A_some. apply beside_some.
  Qed.
  Lemma add_piece_run nl il jl acc : 0 <= nl < zlen lnd -> In (il, jl) (cells (tile_at lnd nl)) -> zlen (acc ++ piece_of nl (il, jl)) <= MX ->
    add_piece o g cell nl (tile_at lnd nl) acc il jl = Ok (acc ++ piece_of nl (il, jl)).
  Proof.
    intros Hn Hc Hl. pose proof (set_lnd _ _ _ _ _ _ HS nl Hn) as Hp. unfold add_piece. rewrite corners_run by auto. cbn [bind].
    unfold cut_land. cbn [a_ymax a_ymin a_poly a_t a_i a_j a_area cell]. set (q := quad (tile_at lnd nl) (il, jl)) in *.
    assert (apart A (beside (tile_at lnd nl) (il, jl)) -> piece_of nl (il, jl) = []) as Hno.
    { intros H. unfold piece_of. destruct (land_counts_dec o atm lnd na ca nl (il, jl) (g_area g (ground nl (il, jl)))) as [c|n]; auto.
      exfalso. revert c. apply not_lcounts; auto. now apply ground_apart. }
    destruct (rle_spec (maxval (ys q0)) (minval (ys q))) as [L1|L1]; cbn [orb].
    { cbn [bind]. rewrite Hno; [now rewrite app_nil_r|]. apply lat_above. auto. }
    destruct (rle_spec (maxval (ys q)) (minval (ys q0))) as [L2|L2]; cbn [orb].
    { cbn [bind]. rewrite Hno; [now rewrite app_nil_r|]. apply lat_below. auto. }
    rewrite cell_avg. fold (beside (tile_at lnd nl) (il, jl)). change (g_fix g q (mean (map fst A))) with (beside (tile_at lnd nl) (il, jl)). set (p := beside (tile_at lnd nl) (il, jl)) in *.
    destruct (rle_spec (maxval (xs p)) (minval (xs A))) as [L3|L3]; cbn [orb].
    { cbn [bind]. rewrite Hno; [now rewrite app_nil_r|]. right. left. now apply box_lon. }
    destruct (rle_spec (maxval (xs A)) (minval (xs p))) as [L4|L4]; cbn [orb].
    { cbn [bind]. rewrite Hno; [now rewrite app_nil_r|]. left. now apply box_lon. }
    match goal with |- bind ?c _ = _ => assert (c = Ok (ground nl (il, jl))) as -> end.
    { unfold Spec_Coupler.ground. destruct (o_lnd_same o) eqn:E; [|reflexivity]. cbn [fst snd].
      destruct ((na =? nl) && (snd ca =? jl) && (fst ca =? il)) eqn:F; [|reflexivity].
      apply andb_true_iff in F. destruct F as (F & F3). apply andb_true_iff in F. destruct F as (F1 & F2).
      assert (na = nl) as <- by lia. assert (ca = (il, jl)) as Ec by (destruct ca; cbn in *; f_equal; lia).
      destruct (set_same _ _ _ _ _ _ HS E na ca Hna ltac:(lia) Hca) as (_ & E2). unfold p. rewrite <- Ec, E2. now rewrite Z.eqb_refl. }
    cbn [bind]. unfold piece_of in *. cbn [fst snd] in *.
    destruct (ground nl (il, jl)) as [|v P] eqn:EG.
    - destruct (land_counts_dec o atm lnd na ca nl (il, jl) (g_area g [])) as [c|n]; [|now rewrite app_nil_r]. exfalso. revert c. apply not_lcounts; auto.
      rewrite (sound_none g Snd). lra.
    - rewrite size_get by auto. cbn [bind].
      destruct (land_counts_dec o atm lnd na ca nl (il, jl) (g_area g (v :: P))) as [c|n].
      + destruct (rlt_spec (o_thresh o) (g_area g (v :: P) / Rmin (size (tile_at lnd nl) (il, jl)) (size (tile_at atm na) ca))) as [|N]; [|contradiction].
        destruct (Z.ltb_spec (zlen acc) MX); auto. rewrite zlen_app in Hl. change (zlen [_]) with 1 in Hl. lia.
      + destruct (rlt_spec (o_thresh o) (g_area g (v :: P) / Rmin (size (tile_at lnd nl) (il, jl)) (size (tile_at atm na) ca))) as [|N]; [contradiction|]. now rewrite app_nil_r.
  Qed.

  (** A piece with the land area found so far *)
  Definition good (p : piece) : Prop := exists cl, 0 <= p_t p < zlen lnd /\ In cl (cells (tile_at lnd (p_t p))) /\ cl = (p_i p, p_j p) /\
    p_poly p = ground (p_t p) cl /\ lcounts (p_t p) cl (g_area g (p_poly p)).
  Definition bump (no : Z) (co : Z * Z) (p : piece) : piece :=
    Piece (p_i p) (p_j p) (p_t p) (p_poly p) (p_area p + dry_area o g atm lnd ocn omask na ca (p_t p) (p_i p, p_j p) no co).
  Lemma good_area p : good p -> (0 < g_area g (p_poly p))%R.
  Proof.
    intros (cl & Ht & Hc & E & Ep & Hg). apply Rnot_le_lt. intros C. revert Hg. apply not_lcounts; auto.
  Qed.
  Lemma good_some p : good p -> p_poly p <> [].
  Proof. intros H E. pose proof (good_area p H). rewrite E, (sound_none g Snd) in H0. lra. Qed.
  Lemma boxed_refl p : boxed p p.
  Proof. intros c. auto. Qed.
  Lemma good_boxed p : good p -> boxed (p_poly p) A.
  Proof.
    intros Hg. pose proof (good_some p Hg) as Hn. destruct Hg as (cl & Ht & Hc & E & Ep & Hg). rewrite Ep in *. unfold Spec_Coupler.ground in *. destruct (o_lnd_same o).
    - destruct ((na =? p_t p) && (snd ca =? snd cl) && (fst ca =? fst cl)); [|congruence]. apply boxed_refl.
    - apply (sound_box g Snd).
  Qed.
  Lemma good_reference p v P : good p -> p_poly p = v :: P -> reference o g atm lnd na ca (fst v).
  Proof. intros (cl & Ht & Hc & E & Ep & Hg) EP. right. exists (p_t p), cl, v, P. rewrite <- Ep. auto. Qed.

  Variables (no : Z) (co : Z * Z).
  Hypothesis Hno : 0 <= no < zlen ocn.
  Hypothesis Hco : In co (cells (tile_at ocn no)).
  Local Notation qo := (quad (tile_at ocn no) co).
  Local Notation B := (beside (tile_at ocn no) co).

  Lemma dry_apart p : good p -> apart A B -> dry_area o g atm lnd ocn omask na ca (p_t p) (p_i p, p_j p) no co = 0%R.
  Proof.
    intros Hg HA. unfold dry_area. destruct (Rlt_dec tiny (1 - wet no co)) as [L|L]; auto.
    destruct (land_counts_dec o atm lnd na ca (p_t p) (p_i p, p_j p) _) as [c|n]; auto. exfalso. revert c.
    pose proof (good_boxed p Hg) as Hb. pose proof (good_some p Hg) as Hs. destruct Hg as (cl & Ht & Hc & E & Ep & _). subst cl. apply not_lcounts; auto. unfold dry_part. rewrite <- Ep.
    assert (g_area g (g_clip g (p_poly p) B) <= 0)%R.
    { apply (sound_apart g Snd); auto. apply beside_some. apply (apart_boxed g _ A); auto. }
    unfold tiny in L. nra.
  Qed.
  Lemma bump_0 p : dry_area o g atm lnd ocn omask na ca (p_t p) (p_i p, p_j p) no co = 0%R -> bump no co p = p.
  Proof. intros E. unfold bump. rewrite E, Rplus_0_r. destruct p; reflexivity. Qed.
  Lemma bump_good p : good p -> good (bump no co p).
  Proof. intros H. exact H. Qed.

  (** The ocean cell as left by earlier calls of fix_lon *)
  Definition left_by (po : poly) : Prop :=
    if o_lnd_same o then po = B else exists r, reference o g atm lnd na ca r /\ po = g_fix g qo r.
  Lemma left_next po p : good p -> left_by po -> exists po', (forall S (f : poly -> outcome S),
      (do x0 <- oget (xs (p_poly p)) 0 ; do po' <- (if o_lnd_same o then Ok po else if zlen po <? 4 then UB else Ok (g_fix g (firstn 4 po) x0)) ; f po') = f po') /\ left_by po' /\
    po' <> [] /\ (po' = B \/ apart A po' /\ apart A B).
  Proof.
    intros Hg Hl. pose proof (good_some p Hg) as Hs. destruct (p_poly p) as [|v P] eqn:EP; [congruence|].
    unfold left_by in *. destruct (o_lnd_same o) eqn:E.
    - subst po. exists B. split; [reflexivity|]. split; auto. split; auto. apply beside_some.
    - destruct Hl as (r & Hr & ->). pose proof (good_reference p v P Hg EP) as Hv. pose proof (set_steady _ _ _ _ _ _ HS E na ca no co Hna Hca Hno Hco) as St.
      destruct (St r (fst v) Hr Hv) as (S1 & S2 & _). exists (g_fix g qo (fst v)). split.
      { intros S f. change (oget (xs (v :: P)) 0) with (Ok (fst v) : outcome R). cbn [bind].
        assert (zlen (g_fix g qo r) = 4) as L by (unfold zlen; rewrite S1; reflexivity). rewrite L. change (4 <? 4) with false. cbv iota. cbn [bind]. rewrite firstn_all2 by lia. now rewrite S2. }
      split; [eauto|]. split; [apply (sound_some g Snd); apply quad_4|].
      assert (reference o g atm lnd na ca (mean (map fst A))) as Hm by (now left).
      destruct (St (fst v) (mean (map fst A)) Hv Hm) as (_ & _ & [S3|(S3 & S4)]); [left; exact S3|]. right. unfold apart. tauto.
  Qed.

  Lemma add_land_run po done p : good p -> left_by po -> (tiny < 1 - wet no co)%R ->
    exists po', add_land o g cell lnd (wet no co) (po, done) p = Ok (po', done ++ [bump no co p]) /\ left_by po'.
  Proof.
    intros Hg Hl Hw. unfold add_land. destruct (left_next po p Hg Hl) as (po' & E & Hl' & Hs & HB). rewrite E. exists po'. split; auto.
    cbn [a_ymax a_ymin a_area cell].
    assert (apart A po' \/ g_area g (g_clip g (p_poly p) po') <= 0 -> bump no co p = p)%R as Hz.
    { intros H. apply bump_0. destruct HB as [->|(H1 & H2)]; [|now apply dry_apart].
      destruct H as [H|H]; [now apply dry_apart|]. unfold dry_area. destruct (Rlt_dec tiny (1 - wet no co)); auto.
      destruct (land_counts_dec o atm lnd na ca (p_t p) (p_i p, p_j p) _) as [c|n]; auto. exfalso. revert c.
      destruct Hg as (cl & Ht & Hc & E' & Ep & _). subst cl. apply not_lcounts; auto. unfold dry_part. rewrite <- Ep. unfold tiny in *. nra. }
    assert (apart (p_poly p) po' -> bump no co p = p) as Hz2.
    { intros H. apply Hz. right. apply (sound_apart g Snd); auto. now apply good_some. }
    destruct (rle_spec (maxval (xs po')) (minval (xs (p_poly p)))) as [L1|L1]; cbn [orb].
    { rewrite Hz2; auto. right. left. now apply box_lon. }
    destruct (rle_spec (maxval (xs (p_poly p))) (minval (xs po'))) as [L2|L2]; cbn [orb].
    { rewrite Hz2; auto. left. now apply box_lon. }
    assert ((maxval (ys q0) <= minval (ys (p_poly p)) \/ maxval (ys (p_poly p)) <= minval (ys q0))%R -> False) as Hflat.
    { intros H. pose proof (good_area p Hg) as Ha. pose proof (good_boxed p Hg) as Hb. pose proof (good_some p Hg) as Hn.
      pose proof (sound_flat g Snd (p_poly p) Hn) as F. destruct (Rlt_irrefl 0). apply (Rlt_le_trans _ _ _ Ha), F. right. right. left.
      destruct H as [H|H]; [exists (maxval (ys q0))|exists (minval (ys q0))]; destruct (Hb (maxval (ys q0))) as (_ & _ & B3 & _); destruct (Hb (minval (ys q0))) as (_ & _ & _ & B4); split; intros v Hv.
      - apply B3; auto. intros; now apply A_lat.
      - pose proof (minval_le (ys (p_poly p)) (snd v) (in_map snd _ _ Hv)). lra.
      - pose proof (maxval_ge (ys (p_poly p)) (snd v) (in_map snd _ _ Hv)). lra.
      - apply B4; auto. intros; now apply A_lat. }
    destruct (rle_spec (maxval (ys q0)) (minval (ys (p_poly p)))) as [L3|L3]; cbn [orb]; [exfalso; auto|].
    destruct (rle_spec (maxval (ys (p_poly p))) (minval (ys q0))) as [L4|L4]; cbn [orb]; [exfalso; auto|].
    destruct (g_clip g (p_poly p) po') as [|v P] eqn:EC.
    { rewrite Hz; auto. right. rewrite (sound_none g Snd). lra. }
    destruct Hg as (cl & Ht & Hc & E' & Ep & Hgr). subst cl.
    pose proof (set_lnd _ _ _ _ _ _ HS (p_t p) Ht) as Hp. rewrite oget_tile by auto. cbn [bind]. rewrite size_get by auto. cbn [bind].
    destruct (rlt_spec (o_thresh o) (g_area g (v :: P) * (1 - wet no co) / Rmin (size (tile_at lnd (p_t p)) (p_i p, p_j p)) (size (tile_at atm na) ca))) as [c|n].
    - destruct HB as [->|(H1 & H2)].
      + do 4 f_equal. unfold bump. f_equal. f_equal. unfold dry_area. destruct (Rlt_dec tiny (1 - wet no co)); [|contradiction].
        assert (dry_part o g atm lnd ocn omask na ca (p_t p) (p_i p, p_j p) no co = g_area g (v :: P) * (1 - wet no co))%R as -> by (unfold dry_part; now rewrite <- Ep, EC).
        destruct (land_counts_dec o atm lnd na ca (p_t p) (p_i p, p_j p) _) as [c'|n']; auto. contradiction.
      + exfalso. revert c. assert (g_area g (v :: P) <= 0)%R.
        { rewrite <- EC. apply (sound_apart g Snd); auto; [|apply (apart_boxed g _ A); auto; apply good_boxed; exists (p_i p, p_j p); auto].
          apply good_some. exists (p_i p, p_j p). auto. }
        apply (not_lcounts (p_t p) (p_i p, p_j p)); auto. unfold tiny in *. nra.
    - do 4 f_equal. symmetry. destruct HB as [->|(H1 & H2)]; [|apply Hz; auto]. apply bump_0. unfold dry_area. destruct (Rlt_dec tiny (1 - wet no co)); auto.
      assert (dry_part o g atm lnd ocn omask na ca (p_t p) (p_i p, p_j p) no co = g_area g (v :: P) * (1 - wet no co))%R as -> by (unfold dry_part; now rewrite <- Ep, EC).
      destruct (land_counts_dec o atm lnd na ca (p_t p) (p_i p, p_j p) _) as [c'|n']; auto. contradiction.
  Qed.
  Lemma add_lands_run pieces : forall po done, (forall p, In p pieces -> good p) -> left_by po -> (tiny < 1 - wet no co)%R ->
    exists po', ofold (add_land o g cell lnd (wet no co)) pieces (po, done) = Ok (po', done ++ map (bump no co) pieces).
  Proof.
    induction pieces as [|p l IH]; intros po done Hg Hl Hw; cbn [ofold map].
    - exists po. now rewrite app_nil_r.
    - destruct (add_land_run po done p (Hg p ltac:(now left)) Hl Hw) as (po1 & E & Hl1). rewrite E. cbn [bind].
      destruct (IH po1 (done ++ [bump no co p]) ltac:(intros; apply Hg; now right) Hl1 Hw) as (po2 & E2). exists po2. rewrite E2. now rewrite <- app_assoc.
  Qed.
  Lemma ocean_cell_apart : apart A B -> ocean_cell o g atm ocn omask na ca no co = [].
  Proof.
    intros H. unfold ocean_cell. destruct (Rlt_dec tiny (wet no co)) as [L|L]; auto. destruct (counts_dec o _ _ _) as [c|n]; auto. exfalso. revert c.
    apply not_counts; [now apply osize_pos|]. unfold ocean_part. assert (g_area g (g_clip g A B) <= 0)%R by (apply (sound_apart g Snd); auto; [apply A_some|apply beside_some]). unfold tiny in L. nra.
  Qed.
  Lemma wet_get : oget (nth (Z.to_nat no) omask []) (snd co * t_nx (tile_at ocn no) + fst co) = Ok (wet no co).
  Proof.
    destruct (set_mask _ _ _ _ _ _ HS) as (_ & L). specialize (L no Hno). destruct co as (i, j). apply In_cells in Hco.
    destruct (set_ocn _ _ _ _ _ _ HS no Hno) as (Hx & Hy & _). rewrite oget_at by (cbn [fst snd]; nia). reflexivity.
  Qed.
  Lemma add_ocean_run xc pieces : (forall p, In p pieces -> good p) -> zlen (xc ++ ocean_cell o g atm ocn omask na ca no co) <= o_max o ->
    add_ocean o g cell lnd (tile_at ocn no) (nth (Z.to_nat no) omask []) (xc, pieces) (fst co) (snd co) =
    Ok (xc ++ ocean_cell o g atm ocn omask na ca no co, map (bump no co) pieces).
  Proof.
    intros Hg Hl. pose proof (set_ocn _ _ _ _ _ _ HS no Hno) as Hp. unfold add_ocean. rewrite corners_run by (auto; now rewrite <- surjective_pairing). rewrite <- surjective_pairing. cbn [bind].
    rewrite wet_get. cbn [bind]. cbn [a_ymax a_ymin a_poly a_t a_i a_j a_area cell]. rewrite cell_avg. change (g_fix g qo (mean (map fst A))) with B.
    change MIN_AREA_FRAC with tiny.
    assert (apart A B -> Ok (xc, pieces) = Ok (xc ++ ocean_cell o g atm ocn omask na ca no co, map (bump no co) pieces)) as Hz.
    { intros H. rewrite (ocean_cell_apart H), app_nil_r. do 2 f_equal. rewrite <- (map_id pieces) at 1. apply map_ext_in. intros p Hp'. symmetry. apply bump_0. apply dry_apart; auto. }
    destruct (rlt_spec tiny (wet no co)) as [W|W].
    2: { cbn [andb]. cbv iota. cbn [bind].
      assert (ocean_cell o g atm ocn omask na ca no co = []) as EO by (unfold ocean_cell; destruct (Rlt_dec tiny (wet no co)); [contradiction|auto]). rewrite EO, app_nil_r.
      destruct (rlt_spec tiny (1 - wet no co)) as [W2|W2].
      - destruct (add_lands_run pieces B [] Hg) as (po' & E); auto.
        { unfold left_by. destruct (o_lnd_same o); auto. exists (mean (map fst A)). split; [now left|reflexivity]. }
        rewrite E. reflexivity.
      - exfalso. unfold tiny in *. lra. }
    cbn [andb].
    destruct (rle_spec (maxval (xs B)) (minval (xs A))) as [L1|L1]; cbn [orb].
    { apply Hz. right. left. now apply box_lon. }
    destruct (rle_spec (maxval (xs A)) (minval (xs B))) as [L2|L2]; cbn [orb].
    { apply Hz. left. now apply box_lon. }
    destruct (rle_spec (maxval (ys q0)) (minval (ys qo))) as [L3|L3]; cbn [orb].
    { apply Hz. now apply lat_above. }
    destruct (rle_spec (maxval (ys qo)) (minval (ys q0))) as [L4|L4]; cbn [orb].
    { apply Hz. now apply lat_below. }
    match goal with |- bind ?c _ = _ => assert (c = Ok (xc ++ ocean_cell o g atm ocn omask na ca no co)) as -> end.
    { unfold ocean_cell in *. unfold ocean_part in *. destruct (Rlt_dec tiny (wet no co)) as [W'|]; [|contradiction].
      destruct (g_clip g A B) as [|v P] eqn:EC.
      - destruct (counts_dec o _ _ _) as [c|n]; [|now rewrite app_nil_r]. exfalso. revert c. apply not_counts; [now apply osize_pos|]. rewrite (sound_none g Snd). lra.
      - assert (oget (t_area (tile_at ocn no)) (snd co * t_nx (tile_at ocn no) + fst co) = Ok (size (tile_at ocn no) co)) as -> by (clear -Hp Hco; destruct co; now apply size_get). cbn [bind].
        destruct (counts_dec o (g_area g (v :: P) * wet no co) (size (tile_at ocn no) co) (size (tile_at atm na) ca)) as [c|n].
        + destruct (rlt_spec (o_thresh o) (g_area g (v :: P) * wet no co / Rmin (size (tile_at ocn no) co) (size (tile_at atm na) ca))) as [|N]; [|contradiction].
          destruct (Z.ltb_spec (zlen xc) (o_max o)); auto. rewrite zlen_app in Hl. change (zlen [_]) with 1 in Hl. lia.
        + destruct (rlt_spec (o_thresh o) (g_area g (v :: P) * wet no co / Rmin (size (tile_at ocn no) co) (size (tile_at atm na) ca))) as [|N]; [contradiction|]. now rewrite app_nil_r. }
    cbn [bind]. destruct (rlt_spec tiny (1 - wet no co)) as [W2|W2].
    - destruct (add_lands_run pieces B [] Hg) as (po' & E); auto.
      { unfold left_by. destruct (o_lnd_same o); auto. exists (mean (map fst A)). split; [now left|reflexivity]. }
      rewrite E. reflexivity.
    - f_equal. f_equal. rewrite <- (map_id pieces) at 1. apply map_ext_in. intros p Hp'. symmetry. apply bump_0. unfold dry_area. destruct (Rlt_dec tiny (1 - wet no co)); auto. contradiction.
  Qed.
End Cell.
