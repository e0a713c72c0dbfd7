(** * Proofs about the halo exchange: all boundaries of all tiles *)
From Coq Require Import Reals Lia.
From Verif Require Import Base Loops Vec Lst Spec_Interp P_Interp M_Mhalo Spec_Mhalo P_Mhalo.
Local Open Scope Z_scope.

Definition both (X : list ((dirn * cend) * (dirn * cend))) : list (dirn * cend) := map fst X ++ map snd X.
Definition no_end : dirn * cend := (WEST, MkEnd 0 0 0 0 0).
Definition nth_end (X : list ((dirn * cend) * (dirn * cend))) (l : Z) : dirn * cend := nth (Z.to_nat l) (both X) no_end.
Definition plain (c : (dirn * cend) * (dirn * cend)) : cend * cend := (snd (fst c), snd (snd c)).

Lemma oget_nth {A} (l : list A) i d : 0 <= i < zlen l -> oget l i = Ok (nth (Z.to_nat i) l d).
Proof. intros H. apply oget_Ok. unfold zget. destruct (Z.ltb_spec i 0); [lia|]. apply nth_error_nth'. unfold zlen in H. lia. Qed.
Lemma glued_sym G x y : glued G x y -> glued G y x.
Proof.
  intros (A & B & C & O). split; [exact B|]. split; [exact A|]. split; [auto|].
  assert (D : counterclockwise (fst x) (snd x) \/ ~ counterclockwise (fst x) (snd x)) by (unfold counterclockwise; destruct (fst x); lia).
  assert (D2 : counterclockwise (fst y) (snd y) \/ ~ counterclockwise (fst y) (snd y)) by (unfold counterclockwise; destruct (fst y); lia). tauto.
Qed.
Lemma handled_sym d d2 : handled d d2 -> handled d2 d.
Proof. destruct d, d2; auto. Qed.
Lemma directions_run E : (forall x, In x E -> direction (snd x) = Ok (fst x)) -> directions (map snd E) = Ok (map fst E).
Proof.
  intros H. unfold directions. assert (G : forall acc, ofold (fun l e => do d <- direction e ; Ok (l ++ [d])) (map snd E) acc = Ok (acc ++ map fst E)); [|exact (G [])].
  induction E as [|x E IH]; intros acc; cbn [map ofold]; [now rewrite app_nil_r|]. rewrite H by (now left). cbn [bind]. rewrite IH by (intros; apply H; now right). now rewrite <- app_assoc.
Qed.

Section Exchange.
  Variables (sh nz : Z) (G : list (Z * Z)) (X : list ((dirn * cend) * (dirn * cend))) (D0 : list (list R)).
  Hypotheses (Hsh : sh = 0 \/ sh = 1) (Hnz : 0 <= nz) (FIT : fits sh nz G D0).
  Hypothesis HX : forall c, In c X -> glued G (fst c) (snd c) /\ handled (fst (fst c)) (fst (snd c)) /\ same_depth G (fst c) (snd c) /\ same_depth G (snd c) (fst c).
  Hypothesis AP : forall l l', 0 <= l < zlen (both X) -> 0 <= l' < zlen (both X) -> l <> l' -> apart sh G (nth_end X l) (nth_end X l').
  Let nc := zlen X.
  Let partner l := Z.rem (l + nc) (2 * nc).

  Lemma both_len : zlen (both X) = 2 * nc.
  Proof. unfold both, nc. rewrite zlen_app. unfold zlen. rewrite !map_length. lia. Qed.
  Lemma partner_range l : 0 <= l < 2 * nc -> 0 <= partner l < 2 * nc /\ exists c, In c X /\ ((nth_end X l = fst c /\ nth_end X (partner l) = snd c) \/ (nth_end X l = snd c /\ nth_end X (partner l) = fst c)).
  Proof.
    intros Hl. unfold partner. destruct (Z.lt_ge_cases l nc) as [H|H].
    - rewrite Z.rem_small by lia. split; [lia|]. exists (nth (Z.to_nat l) X (no_end, no_end)). unfold nc, zlen in *. split; [apply nth_In; lia|]. left. unfold nth_end, both. split.
      + rewrite app_nth1 by (rewrite map_length; lia). change no_end with (fst (no_end, no_end)) at 1. apply map_nth.
      + rewrite app_nth2 by (rewrite map_length; lia). rewrite map_length. replace (Z.to_nat (l + Z.of_nat (length X)) - length X)%nat with (Z.to_nat l) by lia. change no_end with (snd (no_end, no_end)) at 1. apply map_nth.
    - rewrite Z.rem_mod_nonneg by lia. replace (l + nc) with (l - nc + 1 * (2 * nc)) by lia. rewrite Z.mod_add by lia. rewrite Z.mod_small by lia. split; [lia|]. exists (nth (Z.to_nat (l - nc)) X (no_end, no_end)). unfold nc, zlen in *. split; [apply nth_In; lia|]. right. unfold nth_end, both. split.
      + rewrite app_nth2 by (rewrite map_length; lia). rewrite map_length. replace (Z.to_nat l - length X)%nat with (Z.to_nat (l - Z.of_nat (length X))) by lia. change no_end with (snd (no_end, no_end)) at 1. apply map_nth.
      + rewrite app_nth1 by (rewrite map_length; lia). change no_end with (fst (no_end, no_end)) at 1. apply map_nth.
  Qed.
  Lemma linked l : 0 <= l < 2 * nc -> let x := nth_end X l in let y := nth_end X (partner l) in glued G x y /\ handled (fst x) (fst y) /\ same_depth G x y.
  Proof.
    intros Hl. destruct (partner_range l Hl) as (_ & c & Hc & [(E1 & E2)|(E1 & E2)]); cbn zeta; rewrite E1, E2; destruct (HX c Hc) as (A & B & C1 & C2); auto.
    split; [now apply glued_sym|]. split; auto. now apply handled_sym.
  Qed.

  Definition isb (l : Z) (b : bnd) : Prop :=
    let x := nth_end X l in let y := nth_end X (partner l) in let g := size_of G (e_tile (snd x)) in
    (is1 b, ie1 b, js1 b, je1 b) = own_part (fst g) (snd g) 1 sh (fst x) (snd x) /\ (is2 b, ie2 b, js2 b, je2 b) = other_part (fst g) (snd g) 1 sh (fst y) (snd y)
    /\ b_rot b = rotation_of (fst x) (fst y) /\ tile2 b = e_tile (snd y).

  Lemma part_size_own nx ny d e : on_side nx ny d e -> let '(a, b, c, f) := own_part nx ny 1 sh d e in (b - a + 1) * (f - c + 1) = points sh e.
  Proof. intros S. unfold points. destruct d; cbn [own_part on_side] in *; lia. Qed.
  Lemma part_size_other nx ny nx' ny' d e : on_side nx' ny' d e -> let '(a, b, c, f) := other_part nx ny 1 sh d e in (b - a + 1) * (f - c + 1) = points sh e.
  Proof. intros S. unfold points. destruct d; cbn [other_part on_side] in *; lia. Qed.
  Lemma one_boundary_run l n : 0 <= l < 2 * nc -> e_tile (snd (nth_end X l)) = n ->
    exists b, one_boundary (fst (size_of G n)) (snd (size_of G n)) 1 sh nc (map snd (both X)) (map fst (both X)) l = Ok b /\ isb l b.
  Proof.
    intros Hl <-. destruct (linked l Hl) as (((T1 & S1) & (T2 & S2) & LEN & OR) & HD & DP). pose proof (partner_range l Hl) as (Hp & _).
    unfold one_boundary. pose proof both_len as BL. assert (ML : forall {B} (f : dirn * cend -> B), zlen (map f (both X)) = 2 * nc) by (intros; unfold zlen in *; rewrite map_length; lia).
    assert (OG : forall {B} (f : dirn * cend -> B) i, 0 <= i < 2 * nc -> oget (map f (both X)) i = Ok (f (nth_end X i))).
    { intros B f i Hi. rewrite (oget_nth _ i (f no_end)) by (rewrite ML; auto). unfold nth_end. f_equal. apply map_nth. }
    fold (partner l). rewrite !OG by auto. cbn [bind]. unfold isb.
    set (x := nth_end X l) in *. set (y := nth_end X (partner l)) in *. set (g := size_of G (e_tile (snd x))) in *.
    pose proof (part_size_own _ _ _ _ S1) as P1. pose proof (part_size_other (fst g) (snd g) _ _ _ _ S2) as P2. fold g in P1.
    destruct (own_part (fst g) (snd g) 1 sh (fst x) (snd x)) as (((a1, b1), c1), d1). destruct (other_part (fst g) (snd g) 1 sh (fst y) (snd y)) as (((a2, b2), c2), d2).
    rewrite P1, P2. assert (PE : points sh (snd y) = points sh (snd x)) by (unfold points in *; lia). rewrite PE, Z.eqb_refl. cbn [negb]. eexists. split; [reflexivity|]. cbn. auto.
  Qed.
  Definition mine (n : Z) : list Z := filter (fun l => e_tile (snd (nth_end X l)) =? n) (zseq 0 (2 * nc)).
  Lemma tile_boundaries_run n : exists bs, tile_boundaries (fst (size_of G n)) (snd (size_of G n)) 1 sh nc (map snd (both X)) (map fst (both X)) n = Ok bs /\ Forall2 isb (mine n) bs.
  Proof.
    unfold tile_boundaries.
    assert (Hn : 0 <= 2 * nc) by (unfold nc, zlen; lia).
    match goal with |- context [ofor 0 (2 * nc) ?f _] => destruct (ofor_inv (fun k bs => Forall2 isb (filter (fun l => e_tile (snd (nth_end X l)) =? n) (zseq 0 k)) bs) f 0 (2 * nc) [] Hn) as (bs & E & H) end.
    - constructor.
    - intros k bs Hk H. rewrite (oget_nth _ k (snd no_end)) by (unfold zlen; rewrite map_length; pose proof both_len; unfold zlen in *; lia). cbn [bind]. rewrite map_nth. fold (nth_end X k).
      rewrite zseq_snoc by lia. cbn [Z.add]. rewrite filter_app. cbn [filter]. destruct (Z.eqb_spec (e_tile (snd (nth_end X k))) n) as [En|N].
      + destruct (one_boundary_run k n) as (b & -> & Hb); [lia|auto|]. cbn [bind]. eexists. split; [reflexivity|]. apply Forall2_app; auto.
      + eexists. split; [reflexivity|]. now rewrite app_nil_r.
    - rewrite E. exists bs. split; auto.
  Qed.

  (** State of the fields during the exchange. *)
  Definition W n := fst (size_of G n) + sh + 2.
  Definition H n := snd (size_of G n) + sh + 2.
  Definition keep (D : list (list R)) : Prop :=
    fits sh nz G D /\ forall n k p, 0 <= n < zlen G -> 0 <= k < nz -> -1 <= fst p <= fst (size_of G n) + sh -> -1 <= snd p <= snd (size_of G n) + sh ->
      (forall l s, 0 <= l < 2 * nc -> e_tile (snd (nth_end X l)) = n -> 0 <= s < points sh (snd (nth_end X l)) -> halo_point sh G (nth_end X l) s <> p) ->
      val sh (fst (size_of G n)) (snd (size_of G n)) (field_of D n) k p = val sh (fst (size_of G n)) (snd (size_of G n)) (field_of D0 n) k p.
  Definition done (D : list (list R)) (l : Z) : Prop :=
    let x := nth_end X l in let y := nth_end X (partner l) in let n := e_tile (snd x) in let n2 := e_tile (snd y) in
    forall k s, 0 <= k < nz -> 0 <= s < points sh (snd x) ->
      val sh (fst (size_of G n)) (snd (size_of G n)) (field_of D n) k (halo_point sh G x s) = val sh (fst (size_of G n2)) (snd (size_of G n2)) (field_of D0 n2) k (inner_point sh G y s).

  Lemma field_set D n f D' : 0 <= n < zlen D -> oset D n f = Ok D' -> zlen D' = zlen D /\ field_of D' n = f /\ forall n', 0 <= n' -> n' <> n -> field_of D' n' = field_of D n'.
  Proof.
    intros Hn E. apply oset_Ok in E. pose proof (zset_len _ _ _ _ E) as L. split; auto. split.
    - pose proof (zget_zset_eq _ _ _ _ E) as Z. unfold zget in Z. destruct (Z.ltb_spec n 0); [lia|]. unfold field_of. now apply nth_error_nth.
    - intros n' Hp N. assert (Z : zget D' n' = zget D n') by (apply (zget_zset_ne _ _ _ _ _ E); auto). unfold zget in Z. destruct (Z.ltb_spec n' 0); [lia|].
      unfold field_of. destruct (Z.lt_ge_cases n' (zlen D)) as [K|K].
      + destruct (nth_error D (Z.to_nat n')) as [v|] eqn:E1; [|apply nth_error_None in E1; unfold zlen in K; lia]. rewrite (nth_error_nth _ _ _ E1). now apply nth_error_nth.
      + rewrite !nth_overflow by (unfold zlen in *; lia). reflexivity.
  Qed.

  Lemma step D l b n : keep D -> 0 <= l < 2 * nc -> e_tile (snd (nth_end X l)) = n -> isb l b ->
    exists D', update_tile G sh nz n D [b] = Ok D' /\ keep D' /\ done D' l /\ forall l', 0 <= l' < 2 * nc -> l' <> l -> done D l' -> done D' l'.
  Proof.
    intros (FD & KD) Hl Hn (B1 & B2 & B3 & B4). destruct (linked l Hl) as (((T1 & S1) & (T2 & S2) & LEN & OR) & HD & DP). pose proof (partner_range l Hl) as (Hp & _).
    set (x := nth_end X l) in *. set (y := nth_end X (partner l)) in *. set (n2 := e_tile (snd y)) in *. rewrite Hn in *. set (g := size_of G n) in *. set (g2 := size_of G n2) in *.
    pose proof (proj1 FD) as LD. destruct (proj2 FD n T1) as (Gx & Gy & FL). destruct (proj2 FD n2 T2) as (Gx2 & Gy2 & FL2). fold g in Gx, Gy, FL. fold g2 in Gx2, Gy2, FL2.
    pose proof (filled_pairs sh nz (fst g) (snd g) (fst x) (fst y) (snd x) (snd y) Hsh S1 OR HD b B1) as FI.
    pose proof (visited_pairs sh nz (fst g) (snd g) (fst g2) (snd g2) (fst x) (fst y) (snd x) (snd y) Hsh S1 S2 LEN OR HD) as VI.
    specialize (VI ltac:(unfold same_depth in DP; fold n2 in DP; rewrite Hn in DP; exact DP) b B2 B3).
    set (m := points sh (snd x)) in *. set (L := pairs nz m (asc_of (fst x) (snd x))) in *.
    assert (PY : points sh (snd y) = m) by (unfold m, points in *; lia).
    assert (INL : forall z, In z L -> 0 <= fst z < nz /\ 0 <= snd z < m) by (intros (k, s) Hz; apply In_pairs in Hz; exact Hz).
    unfold update_tile. cbn [ofold]. rewrite B4. fold n2.
    rewrite (oget_nth G n (0, 0)), (oget_nth G n2 (0, 0)) by auto. cbn [bind]. fold (size_of G n). fold (size_of G n2). fold g. fold g2.
    rewrite (oget_nth D n2 []) by lia. cbn [bind]. fold (field_of D n2). unfold fill_buffer. rewrite VI.
    set (ps := fun z : Z * Z => place (fst g2 + sh + 2) (snd g2 + sh + 2) (spot (inward sh (fst y) (point sh (fst g2) (snd g2) (fst y) (snd y) (snd z))) (fst z))).
    assert (OM : forall {A B S} (f : S -> B -> outcome S) (h : A -> B) l s, ofold f (map h l) s = ofold (fun s a => f s (h a)) l s).
    { clear. intros A B S f h l. induction l as [|a l IH]; intros s; cbn; auto. destruct (f s (h a)); cbn; auto. }
    rewrite OM. match goal with |- context [ofold ?f L []] => change (ofold f L []) with (ofold (fun buf z => do v <- oget (field_of D n2) (ps z) ; Ok (buf ++ [v])) L []) end. rewrite (fill_run ps (field_of D n2) L []).
    2:{ intros z Hz. destruct (INL z Hz) as (Hk & Hs). unfold ps. rewrite spot_place, FL2. destruct (inner_range sh (fst g2) (snd g2) (fst y) (snd y) (snd z) Hsh Gx2 Gy2 S2 ltac:(lia)) as (R1 & R2). apply spot_range; lia. }
    cbn [bind app]. rewrite (oget_nth D n []) by lia. cbn [bind]. fold (field_of D n). unfold empty_buffer. rewrite FI.
    set (pd := fun z : Z * Z => place (fst g + sh + 2) (snd g + sh + 2) (spot (outward 1 (fst x) (point sh (fst g) (snd g) (fst x) (snd x) (snd z))) (fst z))).
    rewrite OM.
    assert (PDR : forall z, In z L -> 0 <= pd z < zlen (field_of D n)).
    { intros z Hz. destruct (INL z Hz) as (Hk & Hs). unfold pd. rewrite spot_place, FL. destruct (halo_range sh (fst g) (snd g) (fst x) (snd x) (snd z) ltac:(lia) Gx Gy S1 Hs) as (R1 & R2 & _). apply spot_range; lia. }
    assert (PDI : forall z z', In z L -> In z' L -> pd z = pd z' -> z = z').
    { intros (k, s) (k', s') Hz Hz' E. destruct (INL _ Hz) as (Hk & Hs). destruct (INL _ Hz') as (Hk' & Hs'). cbn [fst snd] in *. unfold pd in E. rewrite !spot_place in E. cbn [fst snd] in E.
      destruct (halo_range sh (fst g) (snd g) (fst x) (snd x) s ltac:(lia) Gx Gy S1 Hs) as (R1 & R2 & _). destruct (halo_range sh (fst g) (snd g) (fst x) (snd x) s' ltac:(lia) Gx Gy S1 Hs') as (R1' & R2' & _).
      apply spot_inj in E; [|lia..]. destruct E as (-> & E2 & E1). f_equal. apply (halo_inj sh (fst g) (snd g) (fst x) (snd x)). destruct (outward 1 (fst x) (point sh (fst g) (snd g) (fst x) (snd x) s)), (outward 1 (fst x) (point sh (fst g) (snd g) (fst x) (snd x) s')). cbn [fst snd] in *. f_equal; lia. }
    destruct (empty_run pd (fun z => at_ (field_of D n2) (ps z)) L [] (field_of D n) PDR) as (f' & c & E & LF & A1 & A2).
    { intros z z' Hz Hz' Ez. now rewrite (PDI z z' Hz Hz' Ez). }
    cbn [app] in E. change (zlen (@nil R)) with 0 in E.
    match goal with |- context [ofold ?f L (field_of D n, 0)] => replace (ofold f L (field_of D n, 0)) with (ofold (fun '(data, l) x0 => do w <- oget (map (fun z => at_ (field_of D n2) (ps z)) L) l ; do data <- oset data (pd x0) w ; Ok (data, l + 1)) L (field_of D n, 0)) by (apply ofold_ext; intros; match goal with st : (list R * Z)%type |- _ => destruct st end; reflexivity) end.
    rewrite E. cbn [bind fst].
    destruct (zset_Some D n f' ltac:(lia)) as (D' & ED). apply oset_Ok in ED. rewrite ED. cbn [bind]. exists D'. split; [reflexivity|].
    destruct (field_set D n f' D' ltac:(lia) ED) as (LD' & F1 & F2).
    assert (VH : forall (f : list R) k s, val sh (fst g) (snd g) f k (halo_point sh G x s) = at_ f (pd (k, s))) by (intros f k s; unfold val, halo_point, pd; rewrite Hn; reflexivity).
    assert (VI2 : forall (f : list R) k s, val sh (fst g2) (snd g2) f k (inner_point sh G y s) = at_ f (ps (k, s))) by (intros f k s; reflexivity).
    split; [split; [split; [lia|]|]|split].
    - intros n' Hn'. destruct (proj2 FD n' Hn') as (Q1 & Q2 & Q3). split; auto. split; auto. destruct (Z.eq_dec n' n) as [->|N]; [rewrite F1, LF; exact Q3|rewrite F2 by lia; exact Q3].
    - intros n' k p Hn' Hk P1 P2 NP. destruct (Z.eq_dec n' n) as [->|N].
      + rewrite <- (KD n k p) by auto. rewrite F1. unfold val. fold g. fold g in P1, P2. apply A2. { rewrite FL. apply spot_range; lia. }
        intros (k', s) Hz E2. destruct (INL _ Hz) as (Hk' & Hs). cbn [fst snd] in *. unfold pd in E2. rewrite spot_place in E2. cbn [fst snd] in E2.
        destruct (halo_range sh (fst g) (snd g) (fst x) (snd x) s ltac:(lia) Gx Gy S1 Hs) as (R1 & R2 & _). apply spot_inj in E2; [|lia..]. destruct E2 as (-> & E3 & E4).
        apply (NP l s Hl Hn Hs). fold x. unfold halo_point. rewrite Hn. fold g. destruct (outward 1 (fst x) (point sh (fst g) (snd g) (fst x) (snd x) s)), p. cbn [fst snd] in *. f_equal; lia.
      + rewrite F2 by lia. apply KD; auto.
    - unfold done. fold x. fold y. rewrite Hn. fold g. fold n2. fold g2. intros k s Hk Hs. rewrite F1, VH, (A1 (k, s)) by (apply In_pairs; auto). rewrite <- VI2.
      apply KD; auto; try (destruct (inner_range sh (fst g2) (snd g2) (fst y) (snd y) s Hsh Gx2 Gy2 S2 ltac:(lia)) as (R1 & R2); unfold inner_point; fold n2; fold g2; lia).
      intros l' s' Hl' Hn' Hs' E2. destruct (linked l' Hl') as (((_ & S') & _) & _). rewrite Hn' in S'. fold g2 in S'.
      destruct (halo_range sh (fst g2) (snd g2) _ _ s' ltac:(lia) Gx2 Gy2 S' Hs') as (_ & _ & R). destruct (inner_range sh (fst g2) (snd g2) (fst y) (snd y) s Hsh Gx2 Gy2 S2 ltac:(lia)) as (R1 & R2).
      unfold halo_point, inner_point in E2. rewrite Hn' in E2. fold n2 in E2. fold g2 in E2. rewrite E2 in R. lia.
    - intros l' Hl' Nl DL. unfold done in *. intros k s Hk Hs. specialize (DL k s Hk Hs). rewrite <- DL.
      destruct (Z.eq_dec (e_tile (snd (nth_end X l'))) n) as [En|N].
      + rewrite En. fold g. rewrite F1. unfold val. destruct (linked l' Hl') as (((_ & S') & _) & _). rewrite En in S'. fold g in S'.
        destruct (halo_range sh (fst g) (snd g) _ _ s ltac:(lia) Gx Gy S' Hs) as (R1 & R2 & _).
        assert (HP : halo_point sh G (nth_end X l') s = outward 1 (fst (nth_end X l')) (point sh (fst g) (snd g) (fst (nth_end X l')) (snd (nth_end X l')) s)) by (unfold halo_point; rewrite En; reflexivity).
        apply A2. { rewrite FL, HP. apply spot_range; lia. }
        intros (k', s') Hz E2. destruct (INL _ Hz) as (Hk' & Hs'). cbn [fst snd] in *. unfold pd in E2. rewrite spot_place in E2. cbn [fst snd] in E2.
        destruct (halo_range sh (fst g) (snd g) (fst x) (snd x) s' ltac:(lia) Gx Gy S1 Hs') as (R1' & R2' & _). rewrite HP in E2. apply spot_inj in E2; [|lia..]. destruct E2 as (_ & E3 & E4).
        apply (AP l' l) with (s := s) (t := s'); rewrite ?both_len; auto; [fold x; congruence|]. rewrite HP. fold x. unfold halo_point. rewrite Hn. fold g.
        destruct (outward 1 (fst x) (point sh (fst g) (snd g) (fst x) (snd x) s')), (outward 1 (fst (nth_end X l')) (point sh (fst g) (snd g) (fst (nth_end X l')) (snd (nth_end X l')) s)). cbn [fst snd] in *. f_equal; lia.
      + rewrite F2; auto. apply (linked l' Hl').
  Qed.
  Lemma update_app n D a c : update_tile G sh nz n D (a :: c) = do D1 <- update_tile G sh nz n D [a] ; update_tile G sh nz n D1 c.
  Proof. unfold update_tile. cbn [ofold]. match goal with |- bind ?e _ = _ => destruct e end; reflexivity. Qed.
  Lemma update_run n ls bs : Forall2 isb ls bs -> (forall l, In l ls -> 0 <= l < 2 * nc /\ e_tile (snd (nth_end X l)) = n) -> forall D, keep D ->
    exists D', update_tile G sh nz n D bs = Ok D' /\ keep D' /\ (forall l, In l ls -> done D' l) /\ forall l', 0 <= l' < 2 * nc -> done D l' -> done D' l'.
  Proof.
    induction 1 as [|l b ls bs B F IH]; intros HL D K.
    - exists D. split; [reflexivity|]. split; auto. split; auto. intros l [].
    - destruct (HL l (or_introl eq_refl)) as (Hl & Hn). destruct (step D l b n K Hl Hn B) as (D1 & E1 & K1 & O1 & P1).
      destruct (IH (fun l Hl => HL l (or_intror Hl)) D1 K1) as (D2 & E2 & K2 & O2 & P2). exists D2. rewrite update_app, E1. cbn [bind]. split; auto. split; auto.
      assert (OD : forall l', 0 <= l' < 2 * nc -> done D l' -> done D2 l'). { intros l' Hl' Dl. apply P2; auto. destruct (Z.eq_dec l' l) as [->|N]; auto. }
      split; auto. intros l' [<-|Hin]; auto.
  Qed.
  Lemma exchange_run : exists D', exchange G sh nz (map plain X) D0 = Ok D' /\ keep D' /\ forall l, 0 <= l < 2 * nc -> done D' l.
  Proof.
    unfold exchange. assert (EE : map fst (map plain X) ++ map snd (map plain X) = map snd (both X)). { unfold both. rewrite map_app, !map_map. reflexivity. }
    rewrite EE. assert (EN : zlen (map plain X) = nc) by (unfold nc, zlen; now rewrite map_length). rewrite EN. rewrite directions_run.
    2:{ intros x Hx. unfold both in Hx. apply in_app_or in Hx. destruct Hx as [Hx|Hx]; apply in_map_iff in Hx; destruct Hx as (c & <- & Hc); destruct (HX c Hc) as (((_ & S1) & (_ & S2) & _) & _); eapply direction_ok; eassumption. }
    cbn [bind]. assert (HG : 0 <= zlen G) by (unfold zlen; lia).
    match goal with |- context [ofor 0 (zlen G) ?f []] => destruct (ofor_inv (fun k B => zlen B = k /\ forall n, 0 <= n < k -> Forall2 isb (mine n) (nth (Z.to_nat n) B [])) f 0 (zlen G) [] HG) as (B & EB & LB & FB) end.
    - split; [reflexivity|]. intros; lia.
    - intros k B Hk (LB & FB). rewrite (oget_nth G k (0, 0)) by lia. cbn [bind]. fold (size_of G k). destruct (tile_boundaries_run k) as (bs & -> & Fb). cbn [bind]. eexists. split; [reflexivity|].
      split; [rewrite zlen_app, LB; reflexivity|]. intros n Hn. unfold zlen in LB. destruct (Z.eq_dec n k) as [->|N].
      + rewrite app_nth2 by lia. replace (Z.to_nat k - length B)%nat with 0%nat by lia. exact Fb.
      + rewrite app_nth1 by lia. apply FB. lia.
    - rewrite EB. cbn [bind].
      match goal with |- context [ofor 0 (zlen G) ?f D0] => destruct (ofor_inv (fun k D => keep D /\ forall l, 0 <= l < 2 * nc -> e_tile (snd (nth_end X l)) < k -> done D l) f 0 (zlen G) D0 HG) as (D' & E & K & O) end.
      + split; [split; auto|]. intros l Hl N. destruct (linked l Hl) as ((((N0 & _) & _) & _) & _). lia.
      + intros n D Hn (K & O). rewrite (oget_nth B n []) by lia. cbn [bind]. 
        destruct (update_run n (mine n) (nth (Z.to_nat n) B []) (FB n Hn)) with (D := D) as (D1 & E1 & K1 & O1 & P1); auto.
        { intros l Hl. unfold mine in Hl. apply filter_In in Hl. destruct Hl as (Hl & He). apply In_zseq in Hl. apply Z.eqb_eq in He. lia. }
        exists D1. split; auto. split; auto. intros l Hl Nl. destruct (Z.eq_dec (e_tile (snd (nth_end X l))) n) as [En|N]; [|apply P1; auto; apply O; auto; lia].
        apply O1. unfold mine. apply filter_In. split; [apply In_zseq; lia|]. now apply Z.eqb_eq.
      + exists D'. split; auto. split; auto. intros l Hl. apply O; auto. destruct (linked l Hl) as ((((_ & N0) & _) & _) & _). lia.
  Qed.
End Exchange.
