(** * process_topo: isolated cells, across the border of the grid *)
From Coq Require Import Lra Lia.
From Verif Require Import Base Loops Grid2 Vec M_Interp M_Runoff M_Topog Spec_Interp Spec_Topog P_Interp P_Runoff P_Topog P_Topog2 P_Topog3 P_Topog4.
Local Open Scope Z_scope.

Lemma place_range ni nj tri cx cy x y a b : 1 <= ni -> 1 <= nj -> place ni nj tri cx cy x y = Some (a, b) -> 0 <= a < ni /\ 0 <= b < nj.
Proof.
  intros Hi Hj. unfold place. destruct (Z.ltb_spec x 0), (Z.leb_spec ni x), cx, (Z.ltb_spec y 0), (Z.leb_spec nj y), tri, cy; cbn [negb andb]; intros E; try discriminate E;
    apply (f_equal (fun v => match v with Some p => p | None => (0, 0) end)) in E; apply pair_equal_spec in E as (<- & <-); lia.
Qed.

(** The neighbourhood of an image of a cell is the image of the neighbourhood. *)
Lemma place_shift ni nj tri cx cy x y a b ex ey : 1 <= ni -> 1 <= nj -> -1 <= x <= ni -> -1 <= y <= nj ->
  place ni nj tri cx cy x y = Some (a, b) -> (tri = true -> b < nj - 1) ->
  -1 <= ex <= ni -> -1 <= ey <= nj -> -1 <= ex - x <= 1 -> -1 <= ey - y <= 1 ->
  place ni nj tri cx cy (ex - (x - a)) (ey - (y - b)) = place ni nj tri cx cy ex ey.
Proof.
  intros Hi Hj Rx Ry E Hb Rex Rey Dx Dy.
  assert (X : exists px, (if x <? 0 then (if cx then Some (ni - 1) else None) else if ni <=? x then (if cx then Some 0 else None) else Some x) = Some px /\ px = a /\
     (if y <? 0 then (if negb tri && cy then Some (px, nj - 1) else None) else if nj <=? y then (if tri then Some (ni - 1 - px, nj - 1) else if cy then Some (px, 0) else None) else Some (px, y)) = Some (a, b)).
  { unfold place in E. destruct (if x <? 0 then _ else _) as [px|]; [|discriminate E]. exists px. split; auto. split; auto.
    destruct (y <? 0), (nj <=? y), tri, cy; cbn [negb andb] in E; try discriminate E;
      apply (f_equal (fun v => match v with Some p => p | None => (0, 0) end)) in E; apply pair_equal_spec in E as (E1 & E2); auto; specialize (Hb eq_refl); lia. }
  destruct X as (px & EX & -> & EY). clear E.
  assert (FX : (if ex - (x - a) <? 0 then (if cx then Some (ni - 1) else None) else if ni <=? ex - (x - a) then (if cx then Some 0 else None) else Some (ex - (x - a)))
     = (if ex <? 0 then (if cx then Some (ni - 1) else None) else if ni <=? ex then (if cx then Some 0 else None) else Some ex)).
  { clear EY Hb Ry Rey Dy. destruct cx.
    - destruct (Z.ltb_spec x 0), (Z.leb_spec ni x); apply (f_equal (fun v => match v with Some p => p | None => 0 end)) in EX; cbn in EX; try lia;
      destruct (Z.ltb_spec (ex - (x - a)) 0), (Z.leb_spec ni (ex - (x - a))), (Z.ltb_spec ex 0), (Z.leb_spec ni ex); try lia; f_equal; lia.
    - destruct (Z.ltb_spec x 0), (Z.leb_spec ni x); try discriminate EX. apply (f_equal (fun v => match v with Some p => p | None => 0 end)) in EX; cbn in EX. now replace (ex - (x - a)) with ex by lia. }
  unfold place. rewrite FX. destruct (if ex <? 0 then _ else _) as [q|]; auto. clear FX EX Rx Rex Dx.
  assert (EB : b = (if y <? 0 then nj - 1 else if nj <=? y then 0 else y) /\ (y < 0 \/ nj <= y -> tri = false /\ cy = true)).
  { destruct (Z.ltb_spec y 0), (Z.leb_spec nj y), tri, cy; cbn [negb andb] in EY; try discriminate EY; apply (f_equal (fun v => match v with Some p => p | None => (0, 0) end)) in EY; apply pair_equal_spec in EY as (_ & E2);
     try (specialize (Hb eq_refl)); split; auto; intros; try split; auto; try lia. }
  destruct EB as (EB & ET). destruct (Z.ltb_spec y 0); [|destruct (Z.leb_spec nj y)].
  - destruct ET as (-> & ->); [lia|]. cbn [negb andb]. destruct (Z.ltb_spec (ey - (y - b)) 0), (Z.leb_spec nj (ey - (y - b))), (Z.ltb_spec ey 0), (Z.leb_spec nj ey); try lia; f_equal; f_equal; lia.
  - destruct ET as (-> & ->); [lia|]. cbn [negb andb]. destruct (Z.ltb_spec (ey - (y - b)) 0), (Z.leb_spec nj (ey - (y - b))), (Z.ltb_spec ey 0), (Z.leb_spec nj ey); try lia; f_equal; f_equal; lia.
  - now replace (ey - (y - b)) with ey by lia.
Qed.

Section support.
Variables (ni nj nk : Z) (zw : list R) (o : options) (D : Z -> Z -> R).
Hypothesis (Hi : 1 <= ni) (Hj : 1 <= nj) (Lz : zlen zw = nk) (Hnk : 2 <= nk) (Hz : increasing zw) (H0 : (0 < at_ zw 0)%R).
Hypothesis (Had : o_adjust o = true) (Hfi : o_fill_isolated o = true).
Let c0 := cell0 nk zw o D.
Let c1 := cell1 ni nj nk zw o D.
Let W := world ni nj o.
Let K0 := ks (W c0).
Notation pl := (place ni nj (o_tripolar o) (o_cyclic_x o) (o_cyclic_y o)).

Lemma K0_range x y : -1 <= K0 x y < nk.
Proof. pose proof (lv_world ni nj nk zw o Lz c0 (lv_cell0 nk zw o D Lz Hnk Hz H0) x y) as L. destruct (lv_range zw nk Lz Hnk _ _ L) as (R & _). exact R. Qed.
Lemma c1_range x y : -1 <= snd (c1 x y) < nk.
Proof. pose proof (lv_cell1 ni nj nk zw o D Lz Hnk Hz H0 x y) as L. destruct (lv_range zw nk Lz Hnk _ _ L) as (R & _). exact R. Qed.

Lemma c1_cases x y : c1 x y = if y <? (if o_tripolar o then nj - 1 else nj) then iso (o_keep_mask o) (W c0) x y else c0 x y.
Proof. unfold c1, cell1. rewrite Had, Hfi. reflexivity. Qed.

(** Every cell of a block keeps at least the level of the block. *)
Lemma block_keeps bx by_ px py : -1 <= bx -> bx + 1 <= ni -> -1 <= by_ -> by_ + 1 <= nj -> bx <= px <= bx + 1 -> by_ <= py <= by_ + 1 ->
  0 <= kmn K0 bx by_ -> kmn K0 bx by_ <= snd (W c1 px py).
Proof.
  intros A1 A2 A3 A4 Px Py P.
  assert (KP : kmn K0 bx by_ <= K0 px py).
  { destruct (kmn_cells K0 bx by_) as (Q1 & Q2 & Q3 & Q4). assert (px = bx \/ px = bx + 1) as [-> | ->] by lia; assert (py = by_ \/ py = by_ + 1) as [-> | ->] by lia; auto. }
  unfold W, world. destruct (pl px py) as [(a, b)|] eqn:EP.
  2:{ exfalso. assert (E : K0 px py = -1) by (unfold K0, ks, W, world; now rewrite EP). rewrite E in KP. lia. }
  rewrite c1_cases. assert (E0 : K0 px py = snd (c0 a b)) by (unfold K0, ks, W, world; now rewrite EP).
  destruct (Z.ltb_spec b (if o_tripolar o then nj - 1 else nj)) as [Lb|Lb]; [|rewrite <- E0; exact KP].
  destruct (iso_between (o_keep_mask o) (W c0) a b) as ((B & _) & _). fold K0 in B.
  enough (kmn K0 bx by_ <= kmx K0 a b) by lia.
  assert (Hb : o_tripolar o = true -> b < nj - 1) by (intros Et; rewrite Et in Lb; lia).
  assert (Sh : forall ex ey, bx <= ex <= bx + 1 -> by_ <= ey <= by_ + 1 -> K0 (ex - (px - a)) (ey - (py - b)) = K0 ex ey).
  { intros ex ey Rx Ry. unfold K0, ks, W, world. now rewrite (place_shift ni nj _ _ _ px py a b ex ey Hi Hj) by (lia || auto). }
  assert (EM : kmn K0 (bx - (px - a)) (by_ - (py - b)) = kmn K0 bx by_).
  { unfold kmn. replace (bx - (px - a) + 1) with (bx + 1 - (px - a)) by lia. replace (by_ - (py - b) + 1) with (by_ + 1 - (py - b)) by lia. rewrite !Sh by lia. reflexivity. }
  rewrite <- EM. destruct (kmx_blocks K0 a b) as (Q1 & Q2 & Q3 & Q4).
  assert (bx - (px - a) = a \/ bx - (px - a) = a - 1) as [-> | ->] by lia; assert (by_ - (py - b) = b \/ by_ - (py - b) = b - 1) as [-> | ->] by lia; auto.
Qed.

Lemma kmx_attained K x y : exists dx dy, (dx = 0 \/ dx = -1) /\ (dy = 0 \/ dy = -1) /\ kmx K x y = kmn K (x + dx) (y + dy).
Proof.
  assert (E : kmx K x y = kmn K x y \/ kmx K x y = kmn K (x - 1) y \/ kmx K x y = kmn K x (y - 1) \/ kmx K x y = kmn K (x - 1) (y - 1)) by (unfold kmx; lia).
  destruct E as [-> | [-> | [-> | ->]]]; [exists 0, 0|exists (-1), 0|exists 0, (-1)|exists (-1), (-1)]; rewrite ?Z.add_0_r; auto.
Qed.

(** What a processed cell becomes. *)
Lemma c1_value x y : 0 <= x < ni -> 0 <= y < nj -> y < (if o_tripolar o then nj - 1 else nj) ->
  (o_keep_mask o = true /\ kmx K0 x y = -1 /\ snd (c1 x y) = snd (c0 x y)) \/ (snd (c1 x y) = kmx K0 x y).
Proof.
  intros Rx Ry L. rewrite c1_cases. destruct (Z.ltb_spec y (if o_tripolar o then nj - 1 else nj)); [|lia]. unfold iso. fold K0.
  assert (EW : W c0 x y = c0 x y) by (now apply world_in).
  assert (EK : K0 x y = snd (c0 x y)) by (unfold K0, ks; now rewrite EW).
  assert (R : -1 <= kmx K0 x y).
  { destruct (kmx_attained K0 x y) as (dx & dy & _ & _ & ->). unfold kmn. pose proof (K0_range (x + dx) (y + dy)). pose proof (K0_range (x + dx + 1) (y + dy)). pose proof (K0_range (x + dx) (y + dy + 1)). pose proof (K0_range (x + dx + 1) (y + dy + 1)). lia. }
  destruct (Z.leb_spec 0 (kmx K0 x y)) as [P|P]; cbn [orb].
  - right. destruct (Z.eqb_spec (K0 x y) (kmx K0 x y)) as [E|N]; cbn [negb andb snd]; [rewrite EW; congruence|reflexivity].
  - destruct (o_keep_mask o) eqn:EKm; cbn [negb orb andb].
    + left. split; auto. split; [lia|]. now rewrite EW.
    + right. destruct (Z.eqb_spec (K0 x y) (kmx K0 x y)) as [E|N]; cbn [negb andb snd]; [rewrite EW; congruence|reflexivity].
Qed.

Theorem c1_supported x y : 0 <= x < ni -> 0 <= y < nj -> y < (if o_tripolar o then nj - 1 else nj) -> 0 <= snd (c1 x y) ->
  (o_keep_mask o = true /\ forall sx sy, (sx = 1 \/ sx = -1) -> (sy = 1 \/ sy = -1) -> ~ (0 <= snd (W c1 (x + sx) y) /\ 0 <= snd (W c1 x (y + sy)) /\ 0 <= snd (W c1 (x + sx) (y + sy))))
  \/ exists sx sy, (sx = 1 \/ sx = -1) /\ (sy = 1 \/ sy = -1) /\ snd (c1 x y) <= snd (W c1 (x + sx) y) /\ snd (c1 x y) <= snd (W c1 x (y + sy)) /\ snd (c1 x y) <= snd (W c1 (x + sx) (y + sy)).
Proof.
  intros Rx Ry L P. destruct (c1_value x y Rx Ry L) as [(EK & EM & E1)|E1].
  - left. split; auto. intros sx sy Hsx Hsy (B1 & B2 & B3).
    assert (Low : forall p q, 0 <= snd (W c1 p q) -> 0 <= K0 p q).
    { intros p q. unfold K0, ks, W, world. destruct (pl p q) as [(a, b)|] eqn:EP; [|auto]. destruct (place_range _ _ _ _ _ _ _ _ _ Hi Hj EP) as (Ra & Rb). intros B.
      pose proof (K0_range a b) as R. unfold K0, ks in R. assert (EW : W c0 a b = c0 a b) by (now apply world_in). rewrite EW in R.
      destruct (Z.eq_dec (snd (c0 a b)) (-1)) as [E|N]; [|lia]. exfalso. assert (EC : c1 a b = c0 a b) by (apply (cell1_land ni nj nk zw o D Lz Hnk Hz H0 a b Ra Rb E)). rewrite EC in B. lia. }
    apply Low in B1, B2, B3. assert (B0 : 0 <= K0 x y) by (unfold K0, ks; assert (EW : W c0 x y = c0 x y) by (now apply world_in); rewrite EW; lia).
    destruct (kmx_blocks K0 x y) as (Q1 & Q2 & Q3 & Q4). unfold kmn in Q1, Q2, Q3, Q4. rewrite !Z.sub_add in *.
    destruct Hsx as [-> | ->], Hsy as [-> | ->]; change (x + -1) with (x - 1) in *; change (y + -1) with (y - 1) in *; lia.
  - right. destruct (kmx_attained K0 x y) as (dx & dy & Hdx & Hdy & EA). rewrite EA in E1. rewrite E1 in P.
    assert (B : forall px py, x + dx <= px <= x + dx + 1 -> y + dy <= py <= y + dy + 1 -> snd (c1 x y) <= snd (W c1 px py)).
    { intros px py Rpx Rpy. rewrite E1. apply block_keeps; auto; lia. }
    exists (2 * dx + 1), (2 * dy + 1). split; [lia|]. split; [lia|]. split; [|split]; apply B; lia.
Qed.

(** The new level is the deepest level at which the original topography has an open corner. *)
Definition open_at (K : Z -> Z -> Z) x y k : Prop :=
  exists sx sy, (sx = 1 \/ sx = -1) /\ (sy = 1 \/ sy = -1) /\ k <= K (x + sx) y /\ k <= K x (y + sy) /\ k <= K (x + sx) (y + sy).

Lemma kmx_open x y : open_at K0 x y (kmx K0 x y).
Proof.
  destruct (kmx_attained K0 x y) as (dx & dy & Hdx & Hdy & ->). exists (2 * dx + 1), (2 * dy + 1). split; [lia|]. split; [lia|].
  destruct (kmn_cells K0 (x + dx) (y + dy)) as (Q1 & Q2 & Q3 & Q4).
  destruct Hdx as [-> | ->], Hdy as [-> | ->]; change (2 * 0 + 1) with 1; change (2 * -1 + 1) with (-1); change (x + -1) with (x - 1) in *; change (y + -1) with (y - 1) in *;
    rewrite ?Z.add_0_r, ?Z.sub_add in *; auto.
Qed.
Lemma open_kmx x y k : k <= K0 x y -> open_at K0 x y k -> k <= kmx K0 x y.
Proof.
  intros L (sx & sy & Hsx & Hsy & B1 & B2 & B3). destruct (kmx_blocks K0 x y) as (Q1 & Q2 & Q3 & Q4). unfold kmn in Q1, Q2, Q3, Q4. rewrite !Z.sub_add in *.
  destruct Hsx as [-> | ->], Hsy as [-> | ->]; change (x + -1) with (x - 1) in *; change (y + -1) with (y - 1) in *; lia.
Qed.
End support.
