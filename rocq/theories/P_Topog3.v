(** * process_topo: isolated cells and the whole run *)
From Coq Require Import Lra Lia FunctionalExtensionality.
From Verif Require Import Base Loops Grid2 Vec M_Interp M_Runoff M_Topog Spec_Interp Spec_Topog P_Interp P_Runoff P_Topog P_Topog2.
Local Open Scope Z_scope.

Definition kmn (K : Z -> Z -> Z) x y := Z.min (Z.min (K x y) (K (x + 1) y)) (Z.min (K x (y + 1)) (K (x + 1) (y + 1))).
Definition kmx (K : Z -> Z -> Z) x y := Z.max (Z.max (kmn K x y) (kmn K (x - 1) y)) (Z.max (kmn K x (y - 1)) (kmn K (x - 1) (y - 1))).
Definition hmn (K : Z -> Z -> R) x y := Rmin (Rmin (K x y) (K (x + 1) y)) (Rmin (K x (y + 1)) (K (x + 1) (y + 1))).
Definition hmx (K : Z -> Z -> R) x y := Rmax (Rmax (hmn K x y) (hmn K (x - 1) y)) (Rmax (hmn K x (y - 1)) (hmn K (x - 1) (y - 1))).
Definition hs (F : Z -> Z -> R * Z) x y := fst (F x y).
Definition ks (F : Z -> Z -> R * Z) x y := snd (F x y).

Definition iso (keep : bool) (F : Z -> Z -> R * Z) (x y : Z) : R * Z :=
  let k := kmx (ks F) x y in
  if ((0 <=? k) || negb keep) && negb (ks F x y =? k) then (hmx (hs F) x y, k) else F x y.

Lemma imin_Z a b : imin a b = Z.min a b.
Proof. unfold imin. destruct (Z.ltb_spec a b); lia. Qed.
Lemma imax_Z a b : imax a b = Z.max a b.
Proof. unfold imax. destruct (Z.ltb_spec b a); lia. Qed.

Lemma kmin_run ni nj st F i j : rep st (ni + 2) (nj + 2) F -> 0 <= i <= ni -> 0 <= j <= nj -> kmin ni (snd st) i j = Ok (kmn (ks F) i j).
Proof.
  intros Hr Hi Hj. unfold kmin.
  rewrite (rep_kget _ _ _ _ i j _ Hr), (rep_kget _ _ _ _ (i + 1) j _ Hr), (rep_kget _ _ _ _ i (j + 1) _ Hr), (rep_kget _ _ _ _ (i + 1) (j + 1) _ Hr) by lia.
  cbn [bind]. unfold min4_int. now rewrite !imin_Z.
Qed.
Lemma hmin_run ni nj st F i j : rep st (ni + 2) (nj + 2) F -> 0 <= i <= ni -> 0 <= j <= nj -> hmin ni (fst st) i j = Ok (hmn (hs F) i j).
Proof.
  intros Hr Hi Hj. unfold hmin.
  rewrite (rep_hget _ _ _ _ i j _ Hr), (rep_hget _ _ _ _ (i + 1) j _ Hr), (rep_hget _ _ _ _ i (j + 1) _ Hr), (rep_hget _ _ _ _ (i + 1) (j + 1) _ Hr) by lia.
  cbn [bind]. unfold min4_double. now rewrite !rmin_R.
Qed.

Lemma isolated_step ni nj keep st F j i : rep st (ni + 2) (nj + 2) F -> 1 <= i <= ni -> 1 <= j <= nj ->
  exists st', isolated_cell ni keep st j i = Ok st' /\ rep st' (ni + 2) (nj + 2) (upd F i j (iso keep F i j)).
Proof.
  intros Hr Hi Hj. destruct st as (ht & kmt). unfold isolated_cell.
  pose proof (fun a b => kmin_run _ _ _ _ a b Hr) as KM. pose proof (fun a b => hmin_run _ _ _ _ a b Hr) as HM. cbn [fst snd] in KM, HM.
  rewrite !KM by lia. cbn [bind]. unfold max4_int. rewrite !imax_Z. unfold iso. fold (kmx (ks F) i j). set (k := kmx (ks F) i j).
  assert (Same : rep (ht, kmt) (ni + 2) (nj + 2) (upd F i j (F i j))).
  { eapply rep_ext; [|exact Hr]. intros. now rewrite upd_same. }
  destruct ((0 <=? k) || negb keep); cbn [andb]; [|eexists; split; [reflexivity|exact Same]].
  assert (Ek : oget kmt (j * (ni + 2) + i) = Ok (ks F i j)) by exact (rep_kget _ _ _ _ i j _ Hr ltac:(lia) ltac:(lia) eq_refl). rewrite Ek. cbn [bind].
  destruct (negb (ks F i j =? k)); [|eexists; split; [reflexivity|exact Same]].
  rewrite !HM by lia. cbn [bind]. unfold max4_double. rewrite !rmax_R. fold (hmx (hs F) i j).
  destruct (rep_set2 _ _ _ _ _ i j _ (hmx (hs F) i j) k Hr ltac:(lia) ltac:(lia) eq_refl) as (h' & k' & E1 & E2 & H').
  rewrite E1. cbn [bind]. rewrite E2. cbn [bind]. eexists; split; [reflexivity|exact H'].
Qed.

(** Block minima do not change while cells are lowered to their floor. *)
Lemma kmn_cells K x y : kmn K x y <= K x y /\ kmn K x y <= K (x + 1) y /\ kmn K x y <= K x (y + 1) /\ kmn K x y <= K (x + 1) (y + 1).
Proof. unfold kmn. lia. Qed.
Lemma kmx_blocks K x y : kmn K x y <= kmx K x y /\ kmn K (x - 1) y <= kmx K x y /\ kmn K x (y - 1) <= kmx K x y /\ kmn K (x - 1) (y - 1) <= kmx K x y.
Proof. unfold kmx. lia. Qed.
Lemma kmx_le K x y : kmx K x y <= K x y.
Proof.
  pose proof (kmn_cells K x y). pose proof (kmn_cells K (x - 1) y). pose proof (kmn_cells K x (y - 1)). pose proof (kmn_cells K (x - 1) (y - 1)).
  rewrite !Z.sub_add in *. unfold kmx. lia.
Qed.
Lemma kmn_keep K K' : (forall x y, kmx K x y <= K' x y <= K x y) -> forall x y, kmn K' x y = kmn K x y.
Proof.
  intros H x y. pose proof (H x y) as A1. pose proof (H (x + 1) y) as A2. pose proof (H x (y + 1)) as A3. pose proof (H (x + 1) (y + 1)) as A4.
  pose proof (kmx_blocks K x y) as B1. pose proof (kmx_blocks K (x + 1) y) as B2. pose proof (kmx_blocks K x (y + 1)) as B3. pose proof (kmx_blocks K (x + 1) (y + 1)) as B4.
  rewrite !Z.add_simpl_r in *. apply Z.le_antisymm.
  - unfold kmn. lia.
  - unfold kmn at 2. lia.
Qed.

Lemma hmn_cells K x y : (hmn K x y <= K x y /\ hmn K x y <= K (x + 1)%Z y /\ hmn K x y <= K x (y + 1)%Z /\ hmn K x y <= K (x + 1)%Z (y + 1)%Z)%R.
Proof.
  unfold hmn. pose proof (Rmin_l (Rmin (K x y) (K (x + 1) y)) (Rmin (K x (y + 1)) (K (x + 1) (y + 1)))). pose proof (Rmin_r (Rmin (K x y) (K (x + 1) y)) (Rmin (K x (y + 1)) (K (x + 1) (y + 1)))).
  pose proof (Rmin_l (K x y) (K (x + 1) y)). pose proof (Rmin_r (K x y) (K (x + 1) y)). pose proof (Rmin_l (K x (y + 1)) (K (x + 1) (y + 1))). pose proof (Rmin_r (K x (y + 1)) (K (x + 1) (y + 1))). lra.
Qed.
Lemma hmn_glb K x y v : (v <= K x y -> v <= K (x + 1)%Z y -> v <= K x (y + 1)%Z -> v <= K (x + 1)%Z (y + 1)%Z -> v <= hmn K x y)%R.
Proof. intros. unfold hmn. repeat apply Rmin_glb; auto. Qed.
Lemma hmx_blocks K x y : (hmn K x y <= hmx K x y /\ hmn K (x - 1)%Z y <= hmx K x y /\ hmn K x (y - 1)%Z <= hmx K x y /\ hmn K (x - 1)%Z (y - 1)%Z <= hmx K x y)%R.
Proof.
  unfold hmx. generalize (hmn K x y) (hmn K (x - 1) y) (hmn K x (y - 1)) (hmn K (x - 1) (y - 1)). intros a b c d.
  pose proof (Rmax_l (Rmax a b) (Rmax c d)). pose proof (Rmax_r (Rmax a b) (Rmax c d)). pose proof (Rmax_l a b). pose proof (Rmax_r a b). pose proof (Rmax_l c d). pose proof (Rmax_r c d). lra.
Qed.
Lemma hmx_le K x y : (hmx K x y <= K x y)%R.
Proof.
  pose proof (hmn_cells K x y). pose proof (hmn_cells K (x - 1) y). pose proof (hmn_cells K x (y - 1)). pose proof (hmn_cells K (x - 1) (y - 1)).
  rewrite !Z.sub_add in *. unfold hmx. repeat apply Rmax_lub; lra.
Qed.
Lemma hmn_keep K K' : (forall x y, hmx K x y <= K' x y <= K x y)%R -> forall x y, hmn K' x y = hmn K x y.
Proof.
  intros H x y. pose proof (H x y) as A1. pose proof (H (x + 1) y) as A2. pose proof (H x (y + 1)) as A3. pose proof (H (x + 1) (y + 1)) as A4.
  pose proof (hmx_blocks K x y) as B1. pose proof (hmx_blocks K (x + 1) y) as B2. pose proof (hmx_blocks K x (y + 1)) as B3. pose proof (hmx_blocks K (x + 1) (y + 1)) as B4.
  rewrite !Z.add_simpl_r in *. pose proof (hmn_cells K x y). pose proof (hmn_cells K' x y). apply Rle_antisym; apply hmn_glb; lra.
Qed.

Lemma iso_between keep F x y : kmx (ks F) x y <= snd (iso keep F x y) <= ks F x y /\ (hmx (hs F) x y <= fst (iso keep F x y) <= hs F x y)%R.
Proof.
  pose proof (kmx_le (ks F) x y). pose proof (hmx_le (hs F) x y). unfold iso. destruct (_ && _); cbn [fst snd]; [split; [lia|lra]|].
  unfold ks, hs in *. split; [lia|lra].
Qed.

Lemma iso_mix keep F (m : Z -> Z -> bool) x y : m x y = false -> iso keep (fun a b => if m a b then iso keep F a b else F a b) x y = iso keep F x y.
Proof.
  intros E. set (F' := fun a b => if m a b then iso keep F a b else F a b).
  assert (EK : forall a b, kmn (ks F') a b = kmn (ks F) a b).
  { apply kmn_keep. intros a b. pose proof (kmx_le (ks F) a b). destruct (iso_between keep F a b) as [B _]. replace (ks F' a b) with (if m a b then snd (iso keep F a b) else ks F a b) by (unfold ks, F'; destruct (m a b); auto). destruct (m a b); lia. }
  assert (EH : forall a b, hmn (hs F') a b = hmn (hs F) a b).
  { apply hmn_keep. intros a b. pose proof (hmx_le (hs F) a b). destruct (iso_between keep F a b) as [_ B]. replace (hs F' a b) with (if m a b then fst (iso keep F a b) else hs F a b) by (unfold hs, F'; destruct (m a b); auto). destruct (m a b); lra. }
  assert (E0 : F' x y = F x y) by (unfold F'; now rewrite E).
  unfold iso. assert (E1 : kmx (ks F') x y = kmx (ks F) x y) by (unfold kmx; now rewrite !EK). assert (E2 : hmx (hs F') x y = hmx (hs F) x y) by (unfold hmx; now rewrite !EH).
  assert (E3 : ks F' x y = ks F x y) by (unfold ks; now rewrite E0). now rewrite E0, E1, E2, E3.
Qed.

Lemma isolated_run ni nj tri fill keep st F : 1 <= ni -> 1 <= nj -> rep st (ni + 2) (nj + 2) F ->
  exists st', remove_isolated_cells ni nj tri fill keep st = Ok st'
    /\ rep st' (ni + 2) (nj + 2) (fun x y => if fill && inr 1 ni 1 (if tri then nj - 1 else nj) x y then iso keep F x y else F x y).
Proof.
  intros Hi Hj Hr. unfold remove_isolated_cells. destruct fill; cbn [andb]; [|eauto]. unfold for_cells.
  apply (sweep _ _ 1 ni 1 (if tri then nj - 1 else nj) (isolated_cell ni keep) F (iso keep F)); auto; try (destruct tri; lia).
  intros s j i Rj Ri Hs. destruct (isolated_step ni nj keep s _ j i Hs ltac:(lia) ltac:(destruct tri; lia)) as (s' & E & H'). exists s'. split; auto.
  rewrite iso_mix in H'; auto. apply done_self.
Qed.

Lemma kmn_shift K x y : kmn (fun a b => K (a - 1) (b - 1)) x y = kmn K (x - 1) (y - 1).
Proof. unfold kmn. now replace (x + 1 - 1) with (x - 1 + 1) by lia; replace (y + 1 - 1) with (y - 1 + 1) by lia. Qed.
Lemma hmn_shift K x y : hmn (fun a b => K (a - 1) (b - 1)) x y = hmn K (x - 1) (y - 1).
Proof. unfold hmn. now replace (x + 1 - 1) with (x - 1 + 1) by lia; replace (y + 1 - 1) with (y - 1 + 1) by lia. Qed.
Lemma iso_shift keep F x y : iso keep (fun a b => F (a - 1) (b - 1)) x y = iso keep F (x - 1) (y - 1).
Proof.
  unfold iso. change (ks (fun a b => F (a - 1) (b - 1))) with (fun a b => ks F (a - 1) (b - 1)). change (hs (fun a b => F (a - 1) (b - 1))) with (fun a b => hs F (a - 1) (b - 1)).
  unfold kmx, hmx. now rewrite !kmn_shift, !hmn_shift.
Qed.

Lemma local_run w h f V (Q : R * Z -> Prop) C st : 0 <= w -> 0 <= h ->
  (forall st F j i, 0 <= i < w -> 0 <= j < h -> rep st w h F -> Q (F i j) -> exists st', f st j i = Ok st' /\ rep st' w h (upd F i j (V (F i j)))) ->
  (forall x y, Q (C x y)) -> rep st w h C ->
  exists st', for_local w h f st = Ok st' /\ rep st' w h (fun x y => V (C x y)).
Proof.
  intros Hw Hh Hs HQ Hr. unfold for_local. destruct (sweep_own w h 0 w 0 h f V Q C st Hw Hh Hr) as (st' & E & H'); auto.
  exists st'. split; auto. eapply rep_ext; [|exact H']. intros x y Rx Ry. cbv beta. replace (inr 0 w 0 h x y) with true by (unfold inr; zc). reflexivity.
Qed.

(** ** The whole run *)
Section run.
Variables (ni nj nk : Z) (zw : list R) (o : options) (D : Z -> Z -> R).

Definition cell0 (x y : Z) : R * Z :=
  let c := level_fun nk zw o (D x y, -1) in
  let c := if o_full o then full_fun zw c else c in
  if o_flat o then flat_fun nk zw c else c.

Definition world (C : Z -> Z -> R * Z) (x y : Z) : R * Z :=
  match place ni nj (o_tripolar o) (o_cyclic_x o) (o_cyclic_y o) x y with Some (a, b) => C a b | None => (0%R, -1) end.

Lemma world_in C x y : 0 <= x < ni -> 0 <= y < nj -> world C x y = C x y.
Proof. intros Rx Ry. unfold world, place. destruct (Z.ltb_spec x 0), (Z.leb_spec ni x), (Z.ltb_spec y 0), (Z.leb_spec nj y); auto; lia. Qed.

Definition cell1 (x y : Z) : R * Z :=
  if o_adjust o && o_fill_isolated o && (y <? if o_tripolar o then nj - 1 else nj) then iso (o_keep_mask o) (world cell0) x y else cell0 x y.

Definition cell2 (x y : Z) : R * Z :=
  if o_adjust o then shallow_fun zw o (restrict_fun zw o (cell1 x y)) else cell1 x y.

Hypothesis (Hi : 1 <= ni) (Hj : 1 <= nj) (Lz : zlen zw = nk) (Hnk : 2 <= nk) (Hz : nondecreasing zw).
(** What the steps need to know of the cells. *)
Definition okc (c : R * Z) : Prop := ((0 < fst c)%R -> 0 <= snd c < nk) /\ snd c < nk.

Lemma okc_level h : okc (level_fun nk zw o (h, -1)).
Proof.
  unfold okc, level_fun. cbn [fst]. destruct (rlt_spec 0 h) as [P|P]; [|cbn [fst snd]; split; [intros; lra|lia]].
  destruct (nearest_ok nk zw Lz Hnk Hz h) as (k & E & Rk). rewrite E.
  destruct (rlt (at_ zw k) h); [|cbn [fst snd]; lia]. destruct (rlt _ (o_min_thickness o)); [cbn [fst snd]; lia|].
  destruct (Z.eqb_spec k (nk - 1)); cbn [fst snd]; lia.
Qed.
Lemma okc_full c : okc c -> okc (full_fun zw c).
Proof. unfold okc, full_fun. intros [H1 H2]. destruct (rlt_spec 0 (fst c)); cbn [fst snd]; auto. Qed.
Lemma okc_flat c : okc c -> okc (flat_fun nk zw c).
Proof. unfold okc, flat_fun. intros [H1 H2]. destruct (rlt_spec 0 (fst c)); cbn [fst snd]; auto. lia. Qed.

Lemma with_halo_run tmp : fields tmp ni nj D -> exists st, with_halo ni nj tmp = Ok st /\ rep st (ni + 2) (nj + 2) (fun x y => (if inr 1 ni 1 nj x y then D (x - 1) (y - 1) else 0%R, -1)).
Proof.
  intros Ht. unfold with_halo.
  destruct (nest_inv (fun j i ht => fields ht (ni + 2) (nj + 2) (fun x y => if done 1 ni 1 j i x y then D (x - 1) (y - 1) else 0%R))
    (fun ht j i => do v <- oget tmp ((j - 1) * ni + i - 1) ; oset ht (j * (ni + 2) + i) v) 1 nj 1 ni (alloc ((ni + 2) * (nj + 2)))) as (ht & E & H); try lia.
  - eapply fields_ext; [|apply (fields_repeat 0%R (ni + 2) (nj + 2) ((ni + 2) * (nj + 2))); lia]. intros x y _ _. cbv beta. now rewrite done_start.
  - intros j i ht Rj Ri H. rewrite (fget _ _ _ _ (i - 1) (j - 1) _ Ht) by lia. cbn [bind]. eapply fields_set; [exact H|lia|lia|].
    intros x y _ _. cbv beta. rewrite done_step by lia. destruct (Z.eqb_spec x i), (Z.eqb_spec y j); cbn [andb orb]; subst; auto.
  - intros j ht Rj. apply fields_ext. intros x y _ _. cbv beta. now rewrite done_row by lia.
  - rewrite E. cbn [bind]. eexists. split; [reflexivity|]. split; cbn [fst snd].
    + eapply fields_ext; [|exact H]. intros x y _ _. cbv beta. now rewrite done_end.
    + apply fields_repeat; lia.
Qed.

Lemma copy_local_run isc iec jsc jec st F : 0 <= isc <= iec -> iec < ni -> 0 <= jsc <= jec -> jec < nj -> rep st (ni + 2) (nj + 2) F ->
  exists st', copy_local ni isc iec jsc jec st = Ok st' /\ rep st' (iec - isc + 1) (jec - jsc + 1) (fun x y => F (isc + x + 1) (jsc + y + 1)).
Proof.
  intros A1 A2 A3 A4 Hr. unfold copy_local. destruct st as (ht & kmt). set (nx := iec - isc + 1). set (ny := jec - jsc + 1).
  destruct (nest_inv (fun j i (st : hk) => rep st nx ny (fun x y => if done 0 nx 0 (j - jsc) (i - isc) x y then F (isc + x + 1) (jsc + y + 1) else (0%R, 0)))
    (fun st j i => let '(depth, levels) := st in
      do h <- oget ht ((j + 1) * (ni + 2) + i + 1) ; do depth <- oset depth ((j - jsc) * nx + i - isc) h ;
      do k <- oget kmt ((j + 1) * (ni + 2) + i + 1) ; do levels <- oset levels ((j - jsc) * nx + i - isc) k ; Ok (depth, levels)) jsc ny isc nx (alloc (nx * ny), repeat 0 (Z.to_nat (nx * ny)))) as (st' & E & H); try lia.
  - split; cbn [fst snd]; (eapply fields_ext; [|apply fields_repeat; lia]); intros x y _ _; cbv beta; rewrite !Z.sub_diag, done_start; reflexivity.
  - intros j i (d & l) Rj Ri H.
    pose proof (rep_hget _ _ _ _ (i + 1) (j + 1) ((j + 1) * (ni + 2) + i + 1) Hr ltac:(lia) ltac:(lia) ltac:(lia)) as Eh. cbn [fst] in Eh. rewrite Eh. cbn [bind].
    pose proof (rep_kget _ _ _ _ (i + 1) (j + 1) ((j + 1) * (ni + 2) + i + 1) Hr ltac:(lia) ltac:(lia) ltac:(lia)) as Ek. cbn [snd] in Ek.
    destruct (rep_set2 _ _ _ _ _ (i - isc) (j - jsc) ((j - jsc) * nx + i - isc) (fst (F (i + 1) (j + 1))) (snd (F (i + 1) (j + 1))) H ltac:(lia) ltac:(lia) ltac:(lia)) as (d' & l' & E1 & E2 & H').
    rewrite E1. cbn [bind]. rewrite Ek. cbn [bind]. rewrite E2. cbn [bind]. eexists. split; [reflexivity|]. rewrite <- surjective_pairing in H'.
    eapply rep_ext; [|exact H']. intros x y _ _. unfold upd. replace (i + 1 - isc) with (i - isc + 1) by lia. rewrite done_step by lia.
    destruct (Z.eqb_spec x (i - isc)), (Z.eqb_spec y (j - jsc)); cbn [andb orb]; subst; auto.
    replace (isc + (i - isc) + 1) with (i + 1) by lia. replace (jsc + (j - jsc) + 1) with (j + 1) by lia. reflexivity.
  - intros j s Rj. apply rep_ext. intros x y _ _. cbv beta. replace (j + 1 - jsc) with (j - jsc + 1) by lia. replace (isc - isc) with 0 by lia. rewrite done_row by lia.
    now replace (isc + nx - isc) with (0 + nx) by lia.
  - exists st'. split; [exact E|]. eapply rep_ext; [|exact H]. intros x y Rx Ry. cbv beta. replace (jsc + ny - jsc) with (0 + ny) by lia. rewrite Z.sub_diag, done_end.
    replace (inr 0 nx 0 ny x y) with true; auto. unfold inr. clear - Rx Ry. zc.
Qed.

Lemma opt_sweep (b : bool) f V (Q : R * Z -> Prop) C st :
  (forall st F j i, 0 <= i < ni + 2 -> 0 <= j < nj + 2 -> rep st (ni + 2) (nj + 2) F -> Q (F i j) -> exists st', f st j i = Ok st' /\ rep st' (ni + 2) (nj + 2) (upd F i j (V (F i j)))) ->
  (forall x y, Q (C x y)) ->
  rep st (ni + 2) (nj + 2) (fun x y => if inr 1 ni 1 nj x y then C (x - 1) (y - 1) else (0%R, -1)) ->
  exists st', (if b then for_cells ni nj f st else Ok st) = Ok st'
   /\ rep st' (ni + 2) (nj + 2) (fun x y => if inr 1 ni 1 nj x y then (if b then V (C (x - 1) (y - 1)) else C (x - 1) (y - 1)) else (0%R, -1)).
Proof.
  intros Hs HQ Hr. destruct b; [|eauto]. unfold for_cells.
  destruct (sweep_own (ni + 2) (nj + 2) 1 ni 1 nj f V Q _ st ltac:(lia) ltac:(lia) Hr) as (st' & E & H').
  - intros x y Rx Ry. replace (inr 1 ni 1 nj x y) with true by (unfold inr; zc). auto.
  - intros s F j i Rj Ri. apply Hs; lia.
  - exists st'. split; auto. eapply rep_ext; [|exact H']. intros x y _ _. cbv beta. destruct (inr 1 ni 1 nj x y); auto.
Qed.

Lemma halo_eq (C : Z -> Z -> R * Z) x y : 0 <= x < ni + 2 -> 0 <= y < nj + 2 ->
  let B := fun x y => if inr 1 ni 1 nj x y then C (x - 1) (y - 1) else (0%R, -1) in
  let Y := fun x y => if (1 <=? x) && (x <=? ni) then
      if y =? nj + 1 then (if o_tripolar o then B (ni - x + 1) nj else if o_cyclic_y o then B x 1 else B x y)
      else if y =? 0 then (if negb (o_tripolar o) && o_cyclic_y o then B x nj else B x y) else B x y
    else B x y in
  (if o_cyclic_x o then (if x =? ni + 1 then Y 1 y else if x =? 0 then Y ni y else Y x y) else Y x y) = world C (x - 1) (y - 1).
Proof.
  clear Lz Hnk Hz. intros Rx Ry B Y.
  assert (Bin : forall a b, 1 <= a <= ni -> 1 <= b <= nj -> B a b = C (a - 1) (b - 1)) by (intros; unfold B; replace (inr 1 ni 1 nj a b) with true; auto; unfold inr; zc).
  assert (Bout : forall a b, a < 1 \/ ni < a \/ b < 1 \/ nj < b -> B a b = (0%R, -1)) by (intros; unfold B; replace (inr 1 ni 1 nj a b) with false; auto; unfold inr; zc).
  assert (Yin : forall a, 1 <= a <= ni -> Y a y = if y =? nj + 1 then (if o_tripolar o then C (ni - a) (nj - 1) else if o_cyclic_y o then C (a - 1) 0 else (0%R, -1))
      else if y =? 0 then (if negb (o_tripolar o) && o_cyclic_y o then C (a - 1) (nj - 1) else (0%R, -1)) else C (a - 1) (y - 1)).
  { intros a Ra. unfold Y. replace ((1 <=? a) && (a <=? ni)) with true by zc. destruct (Z.eqb_spec y (nj + 1)) as [Ey|Ny].
    - destruct (o_tripolar o); [rewrite Bin by lia; f_equal; lia|]. destruct (o_cyclic_y o); [rewrite Bin by lia; reflexivity|]. apply Bout. lia.
    - destruct (Z.eqb_spec y 0) as [E0|N0]; [|apply Bin; lia]. destruct (negb (o_tripolar o) && o_cyclic_y o); [apply Bin; lia|apply Bout; lia]. }
  assert (Yout : forall a, a < 1 \/ ni < a -> Y a y = (0%R, -1)).
  { intros a Ra. unfold Y. replace ((1 <=? a) && (a <=? ni)) with false by zc. apply Bout. lia. }
  assert (P : forall a, 1 <= a <= ni -> Y a y = match (if y - 1 <? 0 then (if negb (o_tripolar o) && o_cyclic_y o then Some (a - 1, nj - 1) else None)
    else if nj <=? y - 1 then (if o_tripolar o then Some (ni - 1 - (a - 1), nj - 1) else if o_cyclic_y o then Some (a - 1, 0) else None) else Some (a - 1, y - 1)) with Some (a, b) => C a b | None => (0%R, -1) end).
  { intros a Ra. rewrite Yin by auto. destruct (Z.ltb_spec (y - 1) 0), (Z.leb_spec nj (y - 1)), (Z.eqb_spec y (nj + 1)), (Z.eqb_spec y 0); try lia; auto;
      destruct (o_tripolar o), (o_cyclic_y o); cbn [negb andb]; auto; f_equal; lia. }
  clearbody Y. unfold world, place. destruct (Z.ltb_spec (x - 1) 0).
  - replace (x =? ni + 1) with false by zc. replace (x =? 0) with true by zc. destruct (o_cyclic_x o); [apply P; lia|apply Yout; lia].
  - destruct (Z.leb_spec ni (x - 1)).
    + replace (x =? ni + 1) with true by zc. destruct (o_cyclic_x o); [apply (P 1); lia|apply Yout; lia].
    + replace (x =? ni + 1) with false by zc. replace (x =? 0) with false by zc. destruct (o_cyclic_x o); apply P; lia.
Qed.

Lemma okc_cell0 x y : okc (cell0 x y).
Proof. unfold cell0. destruct (o_flat o), (o_full o); auto using okc_flat, okc_full, okc_level. Qed.

Lemma process_prefix tmp isc iec jsc jec :
  fields tmp ni nj D -> 0 <= isc <= iec -> iec < ni -> 0 <= jsc <= jec -> jec < nj ->
  let nx := iec - isc + 1 in let ny := jec - jsc + 1 in
  exists st8, rep st8 nx ny (fun x y => cell1 (isc + x) (jsc + y))
   /\ process_topo ni nj nk zw o isc iec jsc jec tmp
      = (do st <- adjust_local nx ny nk zw o st8 ; let '(depth, levels) := st in
         do levels <- ofor 0 (nx * ny) (fun l i => do k <- oget l i ; oset l i (k + 1)) levels ; Ok (depth, levels)).
Proof.
  intros Ht A1 A2 A3 A4 nx ny. unfold process_topo. fold nx ny.
  destruct (with_halo_run tmp Ht) as (st0 & -> & H0). cbn [bind].
  destruct (opt_sweep true (level_cell (ni + 2) nk zw (o_min_thickness o)) (level_fun nk zw o) (fun _ => True) (fun x y => (D x y, -1)) st0) as (st1 & E1 & H1).
  { intros. apply level_step; auto. } { auto. }
  { eapply rep_ext; [|exact H0]. intros x y _ _. cbv beta. destruct (inr 1 ni 1 nj x y); auto. }
  cbv beta iota in E1. rewrite E1. cbn [bind].
  destruct (opt_sweep (o_full o) (full_cell_step (ni + 2) zw) (full_fun zw) okc (fun x y => level_fun nk zw o (D x y, -1)) st1) as (st2 & E2 & H2).
  { intros s F j i Ri Rj Hr Q. apply (full_step nk); auto. apply Q. } { intros. apply okc_level. } { exact H1. }
  rewrite E2. cbn [bind].
  destruct (opt_sweep (o_flat o) (flat_bottom_step (ni + 2) nk zw) (flat_fun nk zw) (fun _ => True) (fun x y => if o_full o then full_fun zw (level_fun nk zw o (D x y, -1)) else level_fun nk zw o (D x y, -1)) st2) as (st3 & E3 & H3).
  { intros s F j i Ri Rj Hr Q. apply flat_step; auto. } { auto. } { exact H2. }
  rewrite E3. cbn [bind].
  destruct (fill_y_run ni nj (o_tripolar o) (o_cyclic_y o) st3 _ Hi Hj H3) as (st4 & E4 & H4). rewrite E4. cbn [bind].
  destruct (fill_x_run ni nj (o_cyclic_x o) st4 _ Hi Hj H4) as (st5 & E5 & H5). rewrite E5. cbn [bind].
  assert (H6 : rep st5 (ni + 2) (nj + 2) (fun x y => world cell0 (x - 1) (y - 1))).
  { eapply rep_ext; [|exact H5]. intros x y Rx Ry. exact (halo_eq cell0 x y Rx Ry). }
  assert (S7 : exists st, (if o_adjust o then remove_isolated_cells ni nj (o_tripolar o) (o_fill_isolated o) (o_keep_mask o) st5 else Ok st5) = Ok st
     /\ rep st (ni + 2) (nj + 2) (fun x y => if inr 1 ni 1 nj x y then cell1 (x - 1) (y - 1) else world cell0 (x - 1) (y - 1))).
  { assert (W0 : forall x y, inr 1 ni 1 nj x y = true -> world cell0 (x - 1) (y - 1) = cell0 (x - 1) (y - 1)).
    { intros x y. unfold inr. rewrite !andb_true_iff, !Z.leb_le, !Z.ltb_lt. intros. apply world_in; lia. }
    destruct (o_adjust o) eqn:EA.
    - destruct (isolated_run ni nj (o_tripolar o) (o_fill_isolated o) (o_keep_mask o) st5 _ Hi Hj H6) as (st & E & H). exists st. split; auto.
      eapply rep_ext; [|exact H]. intros x y _ _. cbv beta. rewrite iso_shift. unfold cell1. rewrite EA. cbn [andb]. specialize (W0 x y).
      set (njm := if o_tripolar o then nj - 1 else nj). assert (Em : njm <= nj) by (unfold njm; destruct (o_tripolar o); lia).
      assert (EI : inr 1 ni 1 njm x y = inr 1 ni 1 nj x y && (y - 1 <? njm)) by (clear - Em; unfold inr; zc).
      rewrite EI. destruct (o_fill_isolated o), (inr 1 ni 1 nj x y), (y - 1 <? njm); cbn [andb]; auto.
    - exists st5. split; auto. eapply rep_ext; [|exact H6]. intros x y _ _. cbv beta. unfold cell1. rewrite EA. cbn [andb]. specialize (W0 x y). destruct (inr 1 ni 1 nj x y); auto. }
  destruct S7 as (st7 & E7 & H7). rewrite E7. cbn [bind].
  destruct (copy_local_run isc iec jsc jec st7 _ A1 A2 A3 A4 H7) as (st8 & E8 & H8). rewrite E8. cbn [bind].
  fold nx ny in H8.
  assert (H9 : rep st8 nx ny (fun x y => cell1 (isc + x) (jsc + y))).
  { eapply rep_ext; [|exact H8]. intros x y Rx Ry. cbv beta. replace (inr 1 ni 1 nj (isc + x + 1) (jsc + y + 1)) with true by (clear - Rx Ry A1 A2 A3 A4; unfold inr, nx, ny in *; zc). f_equal; lia. }
  exists st8. split; auto.
Qed.

(** The two errors. *)
Lemma process_err tmp isc iec jsc jec : (forall x y, okc (cell1 x y)) ->
  fields tmp ni nj D -> 0 <= isc <= iec -> iec < ni -> 0 <= jsc <= jec -> jec < nj -> o_adjust o = true ->
  process_topo ni nj nk zw o isc iec jsc jec tmp = Err 1 \/ process_topo ni nj nk zw o isc iec jsc jec tmp = Err 2
  \/ (o_kmt_min o <= nk /\ o_deepen o && o_fill o = false /\ o_round o && (o_deepen o || o_fill o) = false).
Proof.
  intros Q1 Ht A1 A2 A3 A4 Ad. destruct (process_prefix tmp isc iec jsc jec Ht A1 A2 A3 A4) as (st8 & H9 & E). cbv zeta in *. rewrite E.
  set (nx := iec - isc + 1) in *. set (ny := jec - jsc + 1) in *. unfold adjust_local. rewrite Ad. unfold restrict_partial_cells.
  destruct (cell_minimum_run nk zw o Lz Hnk) as (p & Ep & Lp & Hp). rewrite Ep. cbn [bind].
  destruct (local_run nx ny (restrict_cell nx zw p (o_open_thin o)) (restrict_fun zw o) okc (fun x y => cell1 (isc + x) (jsc + y)) st8 ltac:(lia) ltac:(lia)) as (st & E' & H).
  { intros s F j i Ri Rj Hr Q. eapply restrict_step; eauto. apply Q. } { intros. apply Q1. } { exact H9. }
  rewrite E'. cbn [bind]. unfold enforce_min_depth. destruct (Z.ltb_spec nk (o_kmt_min o)); [left; reflexivity|].
  destruct (o_round o), (o_fill o), (o_deepen o); cbn; auto.
Qed.
Hypothesis (Hopt : o_adjust o = true -> o_kmt_min o <= nk /\ o_deepen o && o_fill o = false /\ o_round o && (o_deepen o || o_fill o) = false).
Theorem process_run tmp isc iec jsc jec : (forall x y, okc (cell1 x y)) -> (forall x y, okc (restrict_fun zw o (cell1 x y))) ->
  fields tmp ni nj D -> 0 <= isc <= iec -> iec < ni -> 0 <= jsc <= jec -> jec < nj ->
  exists depth levels, process_topo ni nj nk zw o isc iec jsc jec tmp = Ok (depth, levels)
   /\ fields depth (iec - isc + 1) (jec - jsc + 1) (fun x y => fst (cell2 (isc + x) (jsc + y)))
   /\ fields levels (iec - isc + 1) (jec - jsc + 1) (fun x y => snd (cell2 (isc + x) (jsc + y)) + 1).
Proof.
  intros Q1 Q2 Ht A1 A2 A3 A4. destruct (process_prefix tmp isc iec jsc jec Ht A1 A2 A3 A4) as (st8 & H9 & ->).
  set (nx := iec - isc + 1) in *. set (ny := jec - jsc + 1) in *.
  assert (S10 : exists st, adjust_local nx ny nk zw o st8 = Ok st /\ rep st nx ny (fun x y => cell2 (isc + x) (jsc + y))).
  { unfold adjust_local, cell2. destruct (o_adjust o); [|eauto]. destruct (Hopt eq_refl) as (O1 & O2 & O3). unfold restrict_partial_cells.
    destruct (cell_minimum_run nk zw o Lz Hnk) as (p & Ep & Lp & Hp). rewrite Ep. cbn [bind].
    destruct (local_run nx ny (restrict_cell nx zw p (o_open_thin o)) (restrict_fun zw o) okc (fun x y => cell1 (isc + x) (jsc + y)) st8 ltac:(lia) ltac:(lia)) as (st & E & H).
    { intros s F j i Ri Rj Hr Q. eapply restrict_step; eauto. apply Q. } { intros. apply Q1. } { exact H9. }
    rewrite E. cbn [bind]. unfold enforce_min_depth. destruct (Z.ltb_spec nk (o_kmt_min o)); [lia|].
    replace (1 <? _) with false by (destruct (o_round o), (o_fill o), (o_deepen o); auto; discriminate).
    destruct (local_run nx ny (shallow_cell nx zw (o_round o) (o_deepen o) (o_fill o) (o_kmt_min o - 1)) (shallow_fun zw o) okc (fun x y => restrict_fun zw o (cell1 (isc + x) (jsc + y))) st ltac:(lia) ltac:(lia)) as (st' & E' & H').
    { intros s F j i Ri Rj Hr Q. eapply shallow_step; eauto. apply Q. } { intros. apply Q2. } { exact H. }
    rewrite E'. eauto. }
  destruct S10 as ((depth & levels) & E10 & H10d & H10l). cbn [fst snd] in *. rewrite E10. cbn [bind].
  destruct (ofor_vec (fun l i => do k <- oget l i ; oset l i (k + 1)) (nx * ny) 0 (nx * ny) (fun i j => nth (Z.to_nat j) levels 0 + if j <? i then 1 else 0) levels) as (l' & E11 & L11 & H11).
  - nia.
  - destruct H10l as [L _]. split; auto. intros i Ri. replace (i <? 0) with false by (clear - Ri; zc). rewrite Z.add_0_r. unfold zget. destruct (Z.ltb_spec i 0); [lia|]. apply nth_error_nth'. unfold zlen in L. lia.
  - intros i g Ri HV. rewrite (vec_get _ _ _ _ HV) by lia. cbn [bind]. eapply vec_set; [exact HV|lia|]. intros j Rj. cbv beta. rewrite Z.ltb_irrefl. clear. zc.
  - rewrite E11. cbn [bind]. exists depth, l'. split; [reflexivity|]. split; auto. destruct H10l as [L H10l]. split; auto.
    intros x y Rx Ry. pose proof (rowmajor_range ny nx y x Ry Rx) as R. rewrite H11 by lia. replace (_ <? _) with true by (clear - R; zc). specialize (H10l x y Rx Ry).
    unfold zget in H10l. destruct (Z.ltb_spec (y * nx + x) 0); [lia|]. erewrite nth_error_nth by exact H10l. reflexivity.
Qed.

End run.
