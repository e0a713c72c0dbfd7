(** * Proofs about make_coupler_mosaic: land or wave cells with ocean cells *)
From Coq Require Import Reals Lra.
From Verif Require Import Base Loops Vec P_Extent P_Interp P_Interp2 P_RemapLand4 P_RemapLand6 P_Coupler P_Coupler2 P_Coupler3 M_Extent M_Interp Spec_Interp M_Coupler Spec_Coupler.
Open Scope Z_scope.

(** ** The rows *)
Lemma rows_lnd_run t lat lo hi : proper t -> along_parallels t lat -> exists js je, rows_lnd t lo hi = Ok (js, je) /\ 0 <= js /\ je <= t_ny t - 1 /\
  ((exists j, 0 <= j <= t_ny t /\ (lo < lat j < hi)%R) -> forall i j, In (i, j) (cells t) ->
    (j < js -> forall v, In v (quad t (i, j)) -> (snd v <= lo)%R) /\ (je < j -> forall v, In v (quad t (i, j)) -> (hi <= snd v)%R)).
Proof.
  intros (Hx & Hy & _ & Ly & _) (HL & HM). unfold rows_lnd.
  pose (I := fun j (st : Z * Z) => (forall k, 0 <= k < j -> (lo < lat k < hi)%R -> fst st <= k <= snd st) /\ fst st <= t_ny t /\
    ((snd st = -1 /\ fst st = t_ny t) \/ (0 <= fst st <= snd st /\ snd st <= t_ny t /\ (lo < lat (fst st) < hi)%R /\ (lo < lat (snd st) < hi)%R))).
  match goal with |- context [ofor 0 _ ?f ?s] => destruct (ofor_inv I f 0 (t_ny t + 1) s ltac:(lia)) as ((js & je) & E & H1 & H2 & H3) end.
  - split; [intros; lia|]. cbn. auto with zarith.
  - intros j st Hj Hst.
    match goal with |- context [ofor 0 _ ?f st] => destruct (ofor_inv (fun i st => if i =? 0 then I j st else I (j + 1) st) f 0 (t_nx t + 1) st ltac:(lia)) as (st' & E & H) end.
    + exact Hst.
    + intros i (js, je) Hi Hq. rewrite oget_at by nia. cbn [bind]. eexists. split; [reflexivity|].
      change (at_ (t_y t) (j * (t_nx t + 1) + i)) with (snd (point t i j)). rewrite (HL i j) by lia.
      assert (I j (js, je)) as (Q1 & Q2 & Q3).
      { destruct (i =? 0); auto. destruct Hq as (Q1 & Q2 & Q3). split; auto. intros k Hk. apply Q1. lia. }
      destruct (Z.eqb_spec (i + 1) 0); [lia|]. cbn [fst snd] in *.
      destruct (rlt_spec lo (lat j)) as [A|A], (rlt_spec (lat j) hi) as [B|B]; cbn [andb].
      2-4: split; [|split]; auto; intros k Hk Hr; destruct (Z.eq_dec k j) as [->|]; [exfalso; lra|apply Q1; auto; lia].
      destruct (Z.ltb_spec j js), (Z.ltb_spec je j); (split; [intros k Hk Hr; cbn [fst snd]; destruct (Z.eq_dec k j) as [->|]; [lia|specialize (Q1 k ltac:(lia) Hr); lia]|]); cbn [fst snd]; (split; [lia|]); right.
      * destruct Q3 as [(-> & ->)|(Q3 & Q4 & Q5 & Q6)]; [|exfalso; lia]. repeat split; auto; lia.
      * destruct Q3 as [(-> & ->)|(Q3 & Q4 & Q5 & Q6)]; [exfalso; lia|]. repeat split; auto; lia || lra.
      * destruct Q3 as [(-> & ->)|(Q3 & Q4 & Q5 & Q6)]; [assert (j = t_ny t) as -> by lia|]; repeat split; auto; lia || lra.
      * destruct Q3 as [(-> & ->)|(Q3 & Q4 & Q5 & Q6)]; [exfalso; lia|]. repeat split; auto; lia || lra.
    + exists st'. split; auto. rewrite Z.add_0_l in H. destruct (Z.eqb_spec (t_nx t + 1) 0); [lia|exact H].
  - rewrite E. cbn [bind]. exists (Z.max 0 (js - 1)), (Z.min (t_ny t - 1) (je + 1)). split; [reflexivity|]. split; [lia|]. split; [lia|].
    intros (j0 & Hj0 & R0) i j Hc. apply In_cells in Hc. cbn [fst snd] in *. rewrite Z.add_0_l in H1. pose proof (H1 j0 ltac:(lia) R0) as B0. destruct H3 as [(-> & _)|(Q3 & Q4 & Q5 & Q6)]; [lia|].
    split; intros Hr v Hv; destruct (In_quad _ _ _ Hv) as (a & b & Ha & Hb & ->); cbn [fst snd]; rewrite (HL (i + a) (j + b)) by lia.
    + pose proof (HM (j + b) js ltac:(lia) ltac:(lia)). apply Rnot_lt_le. intros C. pose proof (H1 (j + b) ltac:(lia) ltac:(lra)). lia.
    + pose proof (HM je (j + b) ltac:(lia) ltac:(lia)). apply Rnot_lt_le. intros C. pose proof (H1 (j + b) ltac:(lia) ltac:(lra)). lia.
Qed.

(** No row between the latitudes: nothing is searched but a single row. *)
Lemma rows_lnd_none t lat lo hi : proper t -> along_parallels t lat -> (forall j, 0 <= j <= t_ny t -> ~ (lo < lat j < hi)%R) -> rows_lnd t lo hi = Ok (Z.max 0 (t_ny t - 1), Z.min (t_ny t - 1) 0).
Proof.
  intros (Hx & Hy & _ & Ly & _) (HL & _) HN. unfold rows_lnd.
  match goal with |- context [ofor 0 _ ?f ?s] => destruct (ofor_inv (fun _ st => st = (t_ny t, -1)) f 0 (t_ny t + 1) s ltac:(lia)) as (st & E & ->) end; [reflexivity| |rewrite E; reflexivity].
  intros j st Hj ->.
  match goal with |- context [ofor 0 _ ?f ?s] => destruct (ofor_inv (fun _ st => st = (t_ny t, -1)) f 0 (t_nx t + 1) s ltac:(lia)) as (st & E & ->) end; [reflexivity| |eauto].
  intros i st Hi ->. rewrite oget_at by nia. cbn [bind]. change (at_ (t_y t) (j * (t_nx t + 1) + i)) with (snd (point t i j)). rewrite (HL i j) by lia.
  eexists. split; [reflexivity|]. specialize (HN j ltac:(lia)). destruct (rlt_spec lo (lat j)), (rlt_spec (lat j) hi); cbn [andb]; auto. exfalso. auto.
Qed.

Section Side.
  Variables (o : options) (g : geometry) (lnd ocn : list tile) (omask : list (list R)).
  Hypothesis HS : side_setting o g lnd ocn omask.
  Local Notation o1 := (Options (o_max o) (o_thresh o) true (o_ocn_same o)).
  Local Notation ocell := (ocean_cell o g lnd ocn omask).
  Local Notation ocells := (ocells o g lnd ocn omask).
  Lemma setting1 : setting o1 g lnd [] ocn omask.
  Proof.
    destruct HS. split; auto.
    - change (zlen []) with 0. intros. lia.
    - change (zlen []) with 0. intros. lia.
    - cbn. discriminate.
  Qed.
  Section Cell.
    Variables (na : Z) (ca : Z * Z).
    Hypothesis Hna : 0 <= na < zlen lnd.
    Hypothesis Hca : In ca (cells (tile_at lnd na)).
    Local Notation q0 := (quad (tile_at lnd na) ca).
    Local Notation A := (air g lnd na ca).
    Local Notation cell := (ACell na (fst ca) (snd ca) (minval (ys q0)) (maxval (ys q0)) A (size (tile_at lnd na) ca)).
    Local Notation wet := (wet ocn omask).
    Lemma add_side_run no co xc : 0 <= no < zlen ocn -> In co (cells (tile_at ocn no)) -> zlen (xc ++ ocell na ca no co) <= o_max o ->
      add_side o g cell (tile_at ocn no) (nth (Z.to_nat no) omask []) xc (fst co) (snd co) = Ok (xc ++ ocell na ca no co).
    Proof.
      intros Hno Hco Hl. pose proof (side_ocn _ _ _ _ _ HS no Hno) as Hp. unfold add_side.
      rewrite (wet_get o1 g lnd [] ocn omask setting1 no co Hno Hco). cbn [bind].
      change MIN_AREA_FRAC with tiny. cbn [a_ymax a_ymin a_poly a_t a_i a_j a_area]. 
      assert (a_avg cell = mean (map fst A)) as EA by apply avgval_mean. rewrite !EA.
      set (B := beside g lnd na ca (tile_at ocn no) co).
      assert (apart A B -> Ok xc = Ok (xc ++ ocell na ca no co)) as Hz.
      { intros H. pose proof (ocean_cell_apart o1 g lnd [] ocn omask setting1 na ca Hna Hca no co Hno Hco H) as E0. change (ocell na ca no co = []) in E0. now rewrite E0, app_nil_r. }
      destruct (rlt_spec tiny (wet no co)) as [W|W].
      2: { assert (ocell na ca no co = []) as -> by (unfold ocean_cell; destruct (Rlt_dec tiny (wet no co)); [contradiction|auto]). now rewrite app_nil_r. }
      rewrite corners_run by (auto; now rewrite <- surjective_pairing). rewrite <- surjective_pairing. cbn [bind].
      destruct (rle_spec (maxval (ys q0)) (minval (ys (quad (tile_at ocn no) co)))) as [L3|L3]; cbn [orb].
      { apply Hz. now apply (lat_above o1 g lnd [] ocn omask setting1). }
      destruct (rle_spec (maxval (ys (quad (tile_at ocn no) co))) (minval (ys q0))) as [L4|L4]; cbn [orb].
      { apply Hz. now apply (lat_below o1 g lnd [] ocn omask setting1). }
      change (g_fix g (quad (tile_at ocn no) co) (mean (map fst A))) with B.
      destruct (rle_spec (maxval (xs B)) (minval (xs A))) as [L1|L1]; cbn [orb].
      { apply Hz. right. left. now apply box_lon. }
      destruct (rle_spec (maxval (xs A)) (minval (xs B))) as [L2|L2]; cbn [orb].
      { apply Hz. left. now apply box_lon. }
      unfold ocean_cell in *. unfold ocean_part in *. fold B in Hl |- *. destruct (Rlt_dec tiny (wet no co)) as [W'|]; [|contradiction].
      destruct (g_clip g A B) as [|v P] eqn:EC.
      - destruct (counts_dec o _ _ _) as [c|n]; [|now rewrite app_nil_r]. exfalso. revert c.
        refine (not_counts o1 g lnd [] ocn omask setting1 na ca Hna Hca _ _ _ _); [now apply (osize_pos o1 g lnd [] ocn omask setting1)|]. rewrite (sound_none g (side_sound _ _ _ _ _ HS)). lra.
      - assert (oget (t_area (tile_at ocn no)) (snd co * t_nx (tile_at ocn no) + fst co) = Ok (size (tile_at ocn no) co)) as -> by (clear -Hp Hco; destruct co; now apply size_get). cbn [bind].
        destruct (counts_dec o (g_area g (v :: P) * wet no co) (size (tile_at ocn no) co) (size (tile_at lnd na) ca)) as [c|n].
        + destruct (rlt_spec (o_thresh o) (g_area g (v :: P) * wet no co / Rmin (size (tile_at ocn no) co) (size (tile_at lnd na) ca))) as [|N]; [|contradiction].
          destruct (Z.ltb_spec (zlen xc) (o_max o)); auto. rewrite zlen_app in Hl. change (zlen [_]) with 1 in Hl. lia.
        + destruct (rlt_spec (o_thresh o) (g_area g (v :: P) * wet no co / Rmin (size (tile_at ocn no) co) (size (tile_at lnd na) ca))) as [|N]; [contradiction|]. now rewrite app_nil_r.
    Qed.
    Lemma side_list_run no l : 0 <= no < zlen ocn -> (forall co, In co l -> In co (cells (tile_at ocn no))) -> forall xc, zlen (xc ++ flat_map (ocell na ca no) l) <= o_max o ->
      ofold (fun s c => add_side o g cell (tile_at ocn no) (nth (Z.to_nat no) omask []) s (fst c) (snd c)) l xc = Ok (xc ++ flat_map (ocell na ca no) l).
    Proof.
      intros Hno. induction l as [|co l IH]; intros Hin xc Hl; cbn [ofold flat_map] in *; [now rewrite app_nil_r|].
      rewrite app_assoc in Hl. rewrite (add_side_run no co xc Hno (Hin co ltac:(now left))).
      - cbn [bind]. rewrite IH; auto; try (intros; apply Hin; now right). now rewrite <- app_assoc.
      - rewrite zlen_app in Hl. pose proof (zlen_nonneg (flat_map (ocell na ca no) l)). lia.
    Qed.
    Variables lo hi : R.
    Hypothesis Hband : forall v, In v q0 -> (lo <= snd v <= hi)%R.
    Lemma side_tile_one no r xc : 0 <= no < zlen ocn -> searched (o_ocn_same o) na ocn lo hi r -> zlen (xc ++ ocells na ca no) <= o_max o ->
      (do '(js, je, is, ie) <- oget r no ; over js je is ie (add_side o g cell (tile_at ocn no) (nth (Z.to_nat no) omask [])) xc) = Ok (xc ++ ocells na ca no).
    Proof.
      intros Hno Hr Hl. destruct (Hr no Hno) as (js & je & E & H0 & H1 & H). rewrite E. cbn [bind]. fold (facing o na no) in *.
      rewrite over_rect. unfold P_Coupler3.ocells in *. fold (facing o na no). destruct (facing o na no) eqn:F; cbn [columns fst snd].
      - assert (flat_map (ocell na ca no) (rect js je 0 (t_nx (tile_at ocn no) - 1)) = flat_map (ocell na ca no) (cells (tile_at ocn no))) as E1.
        { apply flat_map_rows; auto. intros i j Hc Hj. apply (ocean_cell_apart o1 g lnd [] ocn omask setting1 na ca Hna Hca no (i, j) Hno Hc).
          destruct (H i j Hc) as (Ha & Hb). apply (lat_rows o1 g lnd [] ocn omask setting1 na ca (tile_at ocn no) (i, j) lo hi Hband). destruct Hj; auto. }
        rewrite side_list_run; auto.
        + now rewrite E1.
        + intros (i, j) Hc. apply In_rect in Hc. apply In_cells. lia.
        + now rewrite E1.
      - unfold facing in F. apply orb_false_iff in F. destruct F as (_ & F). apply negb_false_iff in F. pose proof (side_wide _ _ _ _ _ HS F no Hno) as W.
        assert (rect js je (t_nx (tile_at ocn no) - 1) 0 = []) as ->.
        { unfold rect. apply flat_map_empty. intros j _. rewrite zseq_nonpos by lia. reflexivity. }
        cbn [ofold]. now rewrite app_nil_r.
    Qed.
    Lemma side_tiles_one r X axo : searched (o_ocn_same o) na ocn lo hi r -> vec axo (zlen ocn) X -> (forall no, 0 <= no < zlen ocn -> zlen (X no ++ ocells na ca no) <= o_max o) ->
      exists axo', ofor 0 (zlen ocn) (fun lxo no =>
        do to <- oget ocn no ; do '(js, je, is, ie) <- oget r no ; do om <- oget omask no ;
        do cells <- oget lxo no ;
        do cells <- over js je is ie (add_side o g cell to om) cells ;
        oset lxo no cells) axo = Ok axo' /\ vec axo' (zlen ocn) (fun no => X no ++ ocells na ca no).
    Proof.
      intros Hr HX Hl.
      match goal with |- context [ofor 0 _ ?f axo] => destruct (ofor_inv (fun no st => vec st (zlen ocn) (fun k => if k <? no then X k ++ ocells na ca k else X k)) f 0 (zlen ocn) axo (zlen_nonneg _)) as (axo' & E & H1) end.
      - eapply vec_ext; [|exact HX]. intros k Hk. cbn. destruct (Z.ltb_spec k 0); auto; lia.
      - intros no axo1 Hno H1. rewrite Z.add_0_l in Hno. rewrite oget_tile by auto. cbn [bind].
        destruct (side_mask _ _ _ _ _ HS) as (Lm & _).
        pose proof (vec_get _ _ _ no H1 Hno) as Eg. cbn beta in Eg. rewrite Z.ltb_irrefl in Eg.
        pose proof (side_tile_one no r (X no) Hno Hr (Hl no Hno)) as Et.
        destruct (Hr no Hno) as (js & je & Er & _). rewrite Er in *. cbn [bind] in *. rewrite (oget_nth omask [] no) by lia. cbn [bind].
        rewrite Eg. cbn [bind]. rewrite Et. cbn [bind].
        destruct (vec_set axo1 (zlen ocn) _ (fun k => if k <? no + 1 then X k ++ ocells na ca k else X k) no (X no ++ ocells na ca no) H1 Hno) as (axo2 & E2 & V2).
        { intros k Hk. destruct (Z.eqb_spec k no) as [->|N]; [destruct (Z.ltb_spec no (no + 1)); auto; lia|]. destruct (Z.ltb_spec k (no + 1)), (Z.ltb_spec k no); auto; lia. }
        exists axo2. auto.
      - exists axo'. rewrite Z.add_0_l in *. split; [exact E|]. eapply vec_ext; [|exact H1]. intros k Hk. cbn. destruct (Z.ltb_spec k (zlen ocn)); auto; lia.
    Qed.
  End Cell.

  (** ** One processor *)
  Variable lats : Z -> Z -> R.
  Hypothesis HL : forall no, 0 <= no < zlen ocn -> along_parallels (tile_at ocn no) (lats no).
  Lemma side_ranges_run na lo hi (live : Prop) : (live -> forall no, 0 <= no < zlen ocn -> exists j, 0 <= j <= t_ny (tile_at ocn no) /\ (lo < lats no j < hi)%R) ->
    exists r, ofor 0 (zlen ocn) (fun acc no =>
      do to <- oget ocn no ;
      do '(js, je) <- rows_lnd to lo hi ;
      let '(is, ie) := columns to ((no =? na) || negb (o_ocn_same o)) in
      Ok (acc ++ [(js, je, is, ie)])) [] = Ok r /\ (live -> searched (o_ocn_same o) na ocn lo hi r).
  Proof.
    intros Hc.
    match goal with |- context [ofor 0 _ ?f []] => destruct (ofor_inv (fun n r => zlen r = n /\ (live -> forall k, 0 <= k < n -> let t := tile_at ocn k in exists js je, zget r k = Some (js, je, fst (columns t ((k =? na) || negb (o_ocn_same o))), snd (columns t ((k =? na) || negb (o_ocn_same o)))) /\
      0 <= js /\ je <= t_ny t - 1 /\
      forall i j, In (i, j) (cells t) ->
        (j < js -> forall v, In v (quad t (i, j)) -> (snd v <= lo)%R) /\ (je < j -> forall v, In v (quad t (i, j)) -> (hi <= snd v)%R))) f 0 (zlen ocn) [] (zlen_nonneg _)) as (r & E & L & H) end.
    - split; [reflexivity|]. intros. lia.
    - intros n r Hn (L & H). rewrite Z.add_0_l in Hn. rewrite oget_tile by auto. cbn [bind fst snd].
      destruct (rows_lnd_run (tile_at ocn n) (lats n) lo hi (side_ocn _ _ _ _ _ HS n Hn) (HL n Hn)) as (js & je & E & H1 & H2 & H3).
      rewrite E. cbn [bind]. destruct (columns (tile_at ocn n) ((n =? na) || negb (o_ocn_same o))) as (is, ie) eqn:EC. eexists. split; [reflexivity|]. split; [rewrite zlen_app, L; reflexivity|].
      intros Hlive k Hk. cbn zeta. destruct (Z.eq_dec k n) as [->|N].
      + exists js, je. rewrite EC. cbn [fst snd]. rewrite zget_app_r, L, Z.sub_diag by lia. split; [reflexivity|]. auto.
      + rewrite zget_app_l by lia. apply H; auto. lia.
    - exists r. split; auto. intros Hlive n Hn. cbn zeta. destruct (H Hlive n ltac:(lia)) as (js & je & E1 & H1). exists js, je. split; auto. now apply oget_Ok.
  Qed.
  Section Tile.
    Variable na : Z.
    Hypothesis Hna : 0 <= na < zlen lnd.
    Local Notation t := (tile_at lnd na).
    Local Notation N := (t_nx t * t_ny t).
    Local Notation ca la := (la mod t_nx t, la / t_nx t).
    Local Notation opart := (opart o g lnd ocn omask na).
    Lemma opart_all1 no : opart (zseq 0 N) no = ocean_exchange o g lnd ocn omask na no.
    Proof. exact (opart_all o1 g lnd [] ocn omask setting1 na Hna no). Qed.
    Lemma side_pe_run is ie : 0 <= is -> ie < N -> is <= ie + 1 ->
      (is <= ie -> forall no, 0 <= no < zlen ocn -> exists la lb, is <= la <= ie /\ is <= lb <= ie /\ crossed (tile_at ocn no) (lats no) (quad t (ca la)) (quad t (ca lb))) ->
      exists r, side_pe o (o_ocn_same o) g na t ocn omask is ie = Ok r /\ vec r (zlen ocn) (opart (zseq is (ie - is + 1))).
    Proof.
      intros H0 H1 H2 Hcr. pose proof (side_lnd _ _ _ _ _ HS na Hna) as Hp. unfold side_pe. destruct (band_run t is ie Hp H0 H1) as (lo & hi & E & Hb). rewrite E. cbn [bind fst snd].
      destruct (side_ranges_run na lo hi (is <= ie)) as (or & Eo & Hor).
      { intros Hl no Hno. destruct (Hcr Hl no Hno) as (la & lb & Hla & Hlb & j & u & v & Hj & Hu & Hv & Hr). exists j. split; auto. pose proof (Hb la Hla u Hu). pose proof (Hb lb Hlb v Hv). lra. }
      rewrite Eo. cbn [bind].
      match goal with |- context [ofor is ?n ?f ?s] => destruct (ofor_inv (fun la st => vec st (zlen ocn) (opart (zseq is (la - is)))) f is n s ltac:(lia)) as (axo & Ef & V2) end.
      - rewrite Z.sub_diag. change (zseq is 0) with (@nil Z).
        pose proof (vec_repeat (@nil xcell) (zlen ocn) (zlen_nonneg _)) as V. unfold zlen at 1 in V. rewrite Nat2Z.id in V. exact V.
      - intros la axo Hla V2. destruct Hp as (Hx & _).
        assert (forall B (f : Z -> list B), flat_map f (zseq is (la - is)) ++ f la = flat_map f (zseq is (la + 1 - is))) as Hs.
        { intros B f. replace (la + 1 - is) with (la - is + 1) by lia. rewrite zseq_snoc by lia. rewrite flat_map_app. cbn [flat_map]. rewrite app_nil_r. do 2 f_equal. lia. }
        rewrite (cell_run o1 g lnd [] ocn omask setting1 na (ca la) Hna (In_la t la Hx ltac:(lia)) t la eq_refl eq_refl ltac:(lia)). cbn [bind].
        destruct (side_tiles_one na (ca la) Hna (In_la t la Hx ltac:(lia)) lo hi (Hb la ltac:(lia)) or _ axo (Hor ltac:(lia)) V2) as (axo' & E1 & W2).
        + intros no Hn. unfold P_Coupler3.opart. rewrite (Hs _ (fun la => ocells na (ca la) no)). etransitivity; [apply (part_le lnd na (fun la => ocells na (ca la) no)); lia|].
          change (zlen (opart (zseq 0 N) no) <= o_max o). rewrite opart_all1. apply (side_room _ _ _ _ _ HS); auto.
        + exists axo'. split; [exact E1|]. eapply vec_ext; [|eassumption]; intros k Hk; cbn beta. apply (Hs _ (fun la => ocells na (ca la) k)).
      - exists axo. replace (is + (ie - is + 1) - is) with (ie - is + 1) in * by lia. auto.
    Qed.
    Lemma side_tile_run npes : 1 <= npes <= N ->
      (forall p, 0 <= p < npes -> forall no, 0 <= no < zlen ocn -> exists la lb, start_of N npes p <= la < start_of N npes (p + 1) /\ start_of N npes p <= lb < start_of N npes (p + 1) /\
        crossed (tile_at ocn no) (lats no) (quad t (ca la)) (quad t (ca lb))) \/
      (forall p no la, 0 <= p < npes -> 0 <= no < zlen ocn -> start_of N npes p <= la < start_of N npes (p + 1) -> crossed (tile_at ocn no) (lats no) (quad t (ca la)) (quad t (ca la))) ->
      side_tile o (o_ocn_same o) g na t ocn omask npes = Ok (map (ocean_exchange o g lnd ocn omask na) (zseq 0 (zlen ocn))).
    Proof.
      intros Hn Hcr. unfold side_tile.
      destruct (on_all_run N npes (side_pe o (o_ocn_same o) g na t ocn omask)
        (fun is ie r => vec r (zlen ocn) (opart (zseq is (ie - is + 1)))) Hn) as (parts & E & f & F0 & FN & FM & L & H).
      { intros p Hp is ie H0 H1 H2. apply side_pe_run; auto. intros Hl no Hno. subst is ie. destruct Hcr as [Hcr|Hcr].
        - destruct (Hcr p Hp no Hno) as (la & lb & Hla & Hlb & Hc). exists la, lb. split; [lia|]. split; [lia|auto].
        - exists (start_of N npes p), (start_of N npes p). split; [lia|]. split; [lia|]. apply (Hcr p); auto. lia. }
      rewrite E. cbn [bind].
      rewrite (collect_run (zlen ocn) parts (fun p => opart (zseq (f p) (f (p + 1) - 1 - f p + 1)))).
      - rewrite L. f_equal. apply map_ext_in; intros k _. rewrite <- opart_all1. unfold P_Coupler3.opart. rewrite <- flat_map_nested, (windows f npes) by (auto; lia). rewrite F0, FN, Z.sub_0_r. reflexivity.
      - apply zlen_nonneg.
      - intros p r Hp. pose proof (zget_Some_range _ _ _ Hp). destruct (H p ltac:(lia)) as (r' & Er & V). assert (r' = r) as -> by congruence. exact V.
    Qed.
  End Tile.
End Side.
