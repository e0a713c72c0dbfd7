(** C85: bilinear interpolation of fregrid is a weighted mean of the four neighbouring cells. *)
From Coq Require Import Reals ZArith List Bool Lia Lra Psatz.
From Verif Require Import Base Loops M_Interp P_Longitude P_Gnomonic2 Spec_Gnomonic Spec_Schmidt P_Schmidt Spec_Bilinear M_Bilinear P_Bilinear P_Bilinear2.
Import ListNotations.
Open Scope R_scope.

(** The cell that is found has the nearest centre as a corner, and it is never the lower left
    corner of the tile, where there are only three cells. *)
Theorem C85_cell nx ny g p i j ic jc : (1 <= i <= nx)%Z -> (1 <= j <= ny)%Z -> closest_index nx ny g p i j = Ok (Some (ic, jc)) ->
  (0 <= ic <= nx)%Z /\ (0 <= jc <= ny)%Z /\ (ic, jc) <> (0, 0)%Z
  /\ exists m, (0 <= m < 4)%Z /\ (i, j) = (ic + fst (corner m), jc + snd (corner m))%Z.
Proof.
  intros Hi Hj H. destruct (closest_range nx ny g p i j ic jc Hi Hj H) as (A & B & C & D & E). repeat (split; [assumption|]).
  destruct D as [->| ->], E as [->| ->]; [exists 0%Z|exists 1%Z|exists 3%Z|exists 2%Z]; (split; [lia|]); cbn [corner fst snd]; f_equal; lia.
Qed.

(** The distance from a side. *)
Theorem C85_distance u v p : dot u u = 1 -> dot p p = 1 -> cross u v <> (0, 0, 0) -> distance u v p (dist2side u v p).
Proof. apply distance_ok. Qed.

(** The weights: products of distances; defined for every point inside the cell. *)
Theorem C85_formula nx ny ic jc g v p ws : (0 <= ic <= nx)%Z -> (0 <= jc <= ny)%Z -> (1 <= nx)%Z -> (1 <= ny)%Z -> (ic, jc) <> (0, 0)%Z ->
  (forall m, (0 <= m < 4)%Z -> is_cell nx ny ic jc m -> g (pos nx (ic + fst (corner m)) (jc + snd (corner m))) = Ok (v m) /\ dot (v m) (v m) = 1) ->
  dot p p = 1 -> (forall a b, side nx ny ic jc a b -> cross (v a) (v b) <> (0, 0, 0)) ->
  cell_weights nx ny ic jc g p = Ok ws -> exists w, ws = [w 0%Z; w 1%Z; w 2%Z; w 3%Z] /\ mean_weights w /\ bilinear nx ny ic jc v p w.
Proof.
  intros Hx Hy Nx Ny NZ Hg Hp Hc H. destruct (formula nx ny ic jc g v p Hx Hy Nx Ny NZ Hg Hp ws Hc H) as (w & E & B).
  exists w. split; auto. split; auto. destruct (weights_spec nx ny ic jc g p Hx Hy Nx Ny ws H) as (w' & E' & M & _).
  rewrite E in E'. injection E' as E0 E1 E2 E3. destruct M as [M1 M2]. split; [|lra].
  intros m Hm. specialize (M1 m Hm). destruct (four m Hm) as [->|[->|[->| ->]]]; lra.
Qed.

Theorem C85_defined nx ny ic jc g v p : (0 <= ic <= nx)%Z -> (0 <= jc <= ny)%Z -> (1 <= nx)%Z -> (1 <= ny)%Z -> (ic, jc) <> (0, 0)%Z ->
  (forall m, (0 <= m < 4)%Z -> is_cell nx ny ic jc m -> g (pos nx (ic + fst (corner m)) (jc + snd (corner m))) = Ok (v m) /\ dot (v m) (v m) = 1) ->
  dot p p = 1 -> (forall a b, side nx ny ic jc a b -> 1 / 100000000000000 < from_circle (v a) (v b) p) ->
  exists ws, cell_weights nx ny ic jc g p = Ok ws.
Proof. intros. eapply defined; eauto. Qed.

(** A cell of 2 x 2 centres around the pole. *)
Definition ex_v (m : Z) : vec := match m with 0%Z => (-2/3, -1/3, 2/3) | 1%Z => (-2/3, 1/3, 2/3) | 2%Z => (2/3, 1/3, 2/3) | _ => (2/3, -1/3, 2/3) end.
Definition ex_g (k : Z) : outcome vec3 := match k with 5 => Ok (ex_v 0) | 9 => Ok (ex_v 1) | 10 => Ok (ex_v 2) | 6 => Ok (ex_v 3) | _ => UB end%Z.
Example C85_defined_example : (forall m, (0 <= m < 4)%Z -> is_cell 2 2 1 1 m -> ex_g (pos 2 (1 + fst (corner m)) (1 + snd (corner m))) = Ok (ex_v m) /\ dot (ex_v m) (ex_v m) = 1)
  /\ dot (0, 0, 1) (0, 0, 1) = 1 /\ (forall a b, side 2 2 1 1 a b -> 1 / 100000000000000 < from_circle (ex_v a) (ex_v b) (0, 0, 1)).
Proof.
  split; [|split].
  - intros m Hm _. destruct (four m Hm) as [->|[->|[->| ->]]]; (split; [reflexivity|unfold dot, ex_v; lra]).
  - unfold dot. lra.
  - intros a b ((Ha & Hb & Ne) & _ & _ & [H|(k & Hk & N)]).
    2: { exfalso. apply N. unfold is_cell, no_cell. destruct (four k Hk) as [->|[->|[->| ->]]]; cbn [corner fst snd]; lia. }
    assert (C : forall c n, 0 < n -> n < 4 -> Rabs (dot c (0, 0, 1)) = 4 / 9 -> dot c c = n -> 1 / 100000000000000 < Rabs (dot c (0, 0, 1)) / norm c).
    { intros c n Hn H4 -> En. unfold norm. rewrite En. assert (sqrt n < 2) by (rewrite <- (sqrt_square 2) by lra; apply sqrt_lt_1; lra). pose proof (sqrt_lt_R0 n Hn).
      apply (Rmult_lt_reg_r (sqrt n)); auto. unfold Rdiv at 2. rewrite Rmult_assoc, Rinv_l by lra. lra. }
    assert (A1 : Rabs (- (4 / 9)) = 4 / 9) by (rewrite Rabs_Ropp; apply Rabs_pos_eq; lra). assert (A2 : Rabs (4 / 9) = 4 / 9) by (apply Rabs_pos_eq; lra).
    destruct (four a Ha) as [->|[->|[->| ->]]], (four b Hb) as [->|[->|[->| ->]]]; try (exfalso; vm_compute in H; destruct H; discriminate);
      unfold from_circle, ex_v; match goal with |- context [cross ?u ?w] => apply (C (cross u w) (dot (cross u w) (cross u w))) end; try reflexivity; unfold dot, cross; try lra.
    all: first [rewrite <- A1; f_equal; lra|rewrite <- A2; f_equal; lra].
Qed.

(** The array of weights made by the loop over the destination points. *)
Theorem C85_weights nx ny grids xo yo zo index n_out weight weight' : (0 <= n_out)%Z -> (1 <= nx)%Z -> (1 <= ny)%Z ->
  (forall n ic jc l, (0 <= n < n_out)%Z -> found index n ic jc l -> (0 <= ic <= nx)%Z /\ (0 <= jc <= ny)%Z) ->
  all_weights nx ny grids xo yo zo index n_out weight = Ok weight' ->
  zlen weight' = zlen weight /\ forall n, (0 <= n < n_out)%Z -> exists ic jc l xt yt zt p ws w,
    found index n ic jc l /\ zget grids l = Some (xt, yt, zt) /\ vec_at xo yo zo n = Ok p
    /\ (forall m, (0 <= m < 4)%Z -> zget weight' (4 * n + m) = Some (w m))
    /\ cell_weights nx ny ic jc (vec_at xt yt zt) p = Ok ws /\ ws = [w 0%Z; w 1%Z; w 2%Z; w 3%Z] /\ mean_weights w
    /\ ((ic, jc) <> (0, 0)%Z -> forall m, (0 <= m < 4)%Z -> ~ is_cell nx ny ic jc m -> w m = 0)
    /\ (dot p p <> 0 -> forall m, (0 <= m < 4)%Z -> is_cell nx ny ic jc m ->
        vec_at xt yt zt (pos nx (ic + fst (corner m)) (jc + snd (corner m))) = Ok p -> w m = 1).
Proof.
  intros Hn Nx Ny HI E. destruct (all_weights_inv _ _ _ _ _ _ _ _ _ _ Hn E HI Nx Ny) as [L G]. split; auto.
  intros n H. destruct (G n H) as (ic & jc & l & xt & yt & zt & p & ws & w & A1 & A2 & A3 & A4 & A5 & A6).
  exists ic, jc, l, xt, yt, zt, p, ws, w. do 6 (split; [assumption|]).
  destruct (HI n ic jc l H A1) as [Rx Ry].
  destruct (weights_spec nx ny ic jc _ p Rx Ry Nx Ny ws A4) as (w' & E' & M & Z0 & Z1). rewrite A5 in E'. injection E' as E0 E1 E2 E3.
  assert (EW : forall m, (0 <= m < 4)%Z -> w m = w' m) by (intros m Hm; destruct (four m Hm) as [->|[->|[->| ->]]]; auto).
  split; [|split].
  - destruct M as [M1 M2]. split; [|lra]. intros m Hm. rewrite EW; auto.
  - intros NZ m Hm NC. rewrite EW by auto. apply Z0; auto. unfold is_cell in NC.
    unfold no_cell in *. destruct (four m Hm) as [->|[->|[->| ->]]]; cbn [corner fst snd] in *; lia.
  - intros NZ m Hm IC V. rewrite EW by auto. apply Z1; auto.
Qed.

(** A mean of four. *)
Theorem C85_mean has_missing missing fill w d x : mean_weights w -> interpolated has_missing missing fill w d x ->
  (forall lo hi, (forall m, (0 <= m < 4)%Z -> lo <= d m <= hi) -> lo <= x <= hi)
  /\ (forall m, (0 <= m < 4)%Z -> w m = 1 -> has_missing = false \/ fill = true \/ (forall k, (0 <= k < 4)%Z -> d k <> missing) -> x = d m).
Proof.
  intros [W S] [I1 I2].
  pose proof (W 0%Z ltac:(lia)) as W0. pose proof (W 1%Z ltac:(lia)) as W1. pose proof (W 2%Z ltac:(lia)) as W2. pose proof (W 3%Z ltac:(lia)) as W3.
  assert (C : (has_missing = false \/ forall k, (0 <= k < 4)%Z -> d k <> missing) \/ (has_missing = true /\ exists m, (0 <= m < 4)%Z /\ d m = missing)).
  { destruct has_missing; auto. destruct (Req_dec (d 0%Z) missing); [right; split; auto; exists 0%Z; split; auto; lia|].
    destruct (Req_dec (d 1%Z) missing); [right; split; auto; exists 1%Z; split; auto; lia|]. destruct (Req_dec (d 2%Z) missing); [right; split; auto; exists 2%Z; split; auto; lia|].
    destruct (Req_dec (d 3%Z) missing); [right; split; auto; exists 3%Z; split; auto; lia|]. left. right. intros k Hk. destruct (four k Hk) as [->|[->|[->| ->]]]; auto. }
  split.
  - intros lo hi B. destruct C as [C|[C1 C2]].
    + rewrite (I1 C). unfold weighted. pose proof (B 0%Z ltac:(lia)) as B0. pose proof (B 1%Z ltac:(lia)) as B1. pose proof (B 2%Z ltac:(lia)) as B2. pose proof (B 3%Z ltac:(lia)) as B3.
      assert (K : forall a b, 0 <= a -> lo <= b <= hi -> a * lo <= a * b <= a * hi) by (clear; intros a b A [B1 B2]; split; apply Rmult_le_compat_l; auto).
      pose proof (K _ _ W0 B0). pose proof (K _ _ W1 B1). pose proof (K _ _ W2 B2). pose proof (K _ _ W3 B3).
      assert (E : lo = w 0%Z * lo + w 1%Z * lo + w 2%Z * lo + w 3%Z * lo) by (rewrite <- !Rmult_plus_distr_r, S; ring).
      assert (E' : hi = w 0%Z * hi + w 1%Z * hi + w 2%Z * hi + w 3%Z * hi) by (rewrite <- !Rmult_plus_distr_r, S; ring). lra.
    + specialize (I2 C1 C2). destruct fill; [destruct I2 as (m & Hm & -> & _); auto|]. rewrite I2. destruct C2 as (m & Hm & <-). auto.
  - intros m Hm Em D.
    assert (O : forall k, (0 <= k < 4)%Z -> k <> m -> w k = 0) by (intros k Hk Ne; destruct (four m Hm) as [->|[->|[->| ->]]], (four k Hk) as [->|[->|[->| ->]]]; try (exfalso; now apply Ne); lra).
    destruct C as [C|[C1 C2]].
    + rewrite (I1 C). unfold weighted. destruct (four m Hm) as [->|[->|[->| ->]]]; rewrite Em;
        [rewrite (O 1%Z), (O 2%Z), (O 3%Z) by lia|rewrite (O 0%Z), (O 2%Z), (O 3%Z) by lia|rewrite (O 0%Z), (O 1%Z), (O 3%Z) by lia|rewrite (O 0%Z), (O 1%Z), (O 2%Z) by lia]; ring.
    + specialize (I2 C1 C2). destruct D as [D|[D|D]]; [congruence| |destruct C2 as (k & Hk & E); exfalso; apply (D k Hk E)]. rewrite D in I2.
      destruct I2 as (k & Hk & -> & M). specialize (M m Hm). destruct (Z.eq_dec k m) as [->|Ne]; auto. rewrite (O k Hk Ne), Em in M. lra.
Qed.

(** From the grids to the interpolated field. *)
Theorem C85_scalar nx ny grids xo yo zo index n_out weight weight' fields has_missing missing fill junk out (ic jc l : Z -> Z) (d : Z -> Z -> R) :
  (0 <= n_out)%Z -> (1 <= nx)%Z -> (1 <= ny)%Z -> zlen junk = n_out -> zlen out = n_out ->
  all_weights nx ny grids xo yo zo index n_out weight = Ok weight' ->
  (forall n, (0 <= n < n_out)%Z -> found index n (ic n) (jc n) (l n) /\ (0 <= ic n <= nx)%Z /\ (0 <= jc n <= ny)%Z) ->
  (forall n, (0 <= n < n_out)%Z -> exists f, zget fields (l n) = Some f /\
     forall m, (0 <= m < 4)%Z -> zget f (pos nx (ic n + fst (corner m)) (jc n + snd (corner m))) = Some (d n m)) ->
  exists out', scalar_bilinear nx ny fields index weight' has_missing missing fill n_out junk out = Ok out' /\ zlen out' = n_out
  /\ forall n, (0 <= n < n_out)%Z -> exists x w, zget out' n = Some x /\ (forall m, (0 <= m < 4)%Z -> zget weight' (4 * n + m) = Some (w m))
    /\ mean_weights w /\ interpolated has_missing missing fill w (d n) x.
Proof.
  intros Hn Nx Ny Lj Lo E HI HD.
  assert (HI' : forall n i j k, (0 <= n < n_out)%Z -> found index n i j k -> (0 <= i <= nx)%Z /\ (0 <= j <= ny)%Z).
  { intros n i j k H (F0 & F1 & F2). destruct (HI n H) as ((G0 & G1 & G2) & Ri & Rj). split; congruence || (rewrite F0 in G0; rewrite F1 in G1; injection G0 as ->; injection G1 as ->; auto). }
  destruct (C85_weights _ _ _ _ _ _ _ _ _ _ Hn Nx Ny HI' E) as [_ G].
  set (w := fun n m => match zget weight' (4 * n + m) with Some x => x | None => 0 end).
  assert (HW : forall n m, (0 <= n < n_out)%Z -> (0 <= m < 4)%Z -> zget weight' (4 * n + m) = Some (w n m)).
  { intros n m H Hm. destruct (G n H) as (i & j & k & xt & yt & zt & p & ws & w' & _ & _ & _ & A & _). unfold w. now rewrite (A m Hm). }
  destruct (c2l_spec nx ny fields index weight' has_missing missing fill n_out ic jc l d w Hn (fun n H => proj1 (HI n H)) HD HW junk Lj) as (f & Ef & Lf & Gf).
  unfold scalar_bilinear. rewrite Ef. cbn [bind].
  match goal with |- context [ofor 0 n_out ?F out] => destruct (ofor_fill n_out F (point_value has_missing missing fill d w) out) as (o & Eo & L' & Go) end; [lia| |].
  { intros s k Hk. rewrite (oget_some _ _ _ (Gf k Hk)). reflexivity. }
  exists o. split; auto. split; [lia|]. intros n H. exists (point_value has_missing missing fill d w n), (w n). split; auto. split; [intros; now apply HW|]. split.
  - destruct (G n H) as (i & j & k & xt & yt & zt & p & ws & w' & _ & _ & _ & A & _ & _ & [M1 M2] & _).
    assert (EW : forall m, (0 <= m < 4)%Z -> w n m = w' m) by (intros m Hm; pose proof (HW n m H Hm) as X; rewrite (A m Hm) in X; injection X; auto).
    split; [intros m Hm; rewrite EW; auto|]. rewrite !EW by lia. auto.
  - apply point_ok.
Qed.

(** Vectors: the mean is taken of the vectors in space, then turned into eastward and northward parts. *)
Theorem C85_vector nx ny tiles vlon_out vlat_out index weight missing fill n_out jin jout
    (ic jc l : Z -> Z) (w : Z -> Z -> R) (U V : Z -> Z -> R) (LO LA : Z -> Z -> vec) (EO EA : Z -> vec) :
  (0 <= n_out)%Z -> (1 <= nx)%Z -> (1 <= ny)%Z -> zlen jin = ((nx + 2) * (ny + 2))%Z -> zlen jout = n_out ->
  (forall n, (0 <= n < n_out)%Z -> found index n (ic n) (jc n) (l n) /\ (0 <= ic n <= nx)%Z /\ (0 <= jc n <= ny)%Z /\ (0 <= l n < zlen tiles)%Z) ->
  (forall t, (0 <= t < zlen tiles)%Z -> exists u v vlon vlat, zget tiles t = Some ((u, v), (vlon, vlat)) /\
     forall k, (0 <= k < (nx + 2) * (ny + 2))%Z -> zget u k = Some (U t k) /\ zget v k = Some (V t k) /\ unit_at vlon k (LO t k) /\ unit_at vlat k (LA t k)) ->
  (forall n m, (0 <= n < n_out)%Z -> (0 <= m < 4)%Z -> zget weight (4 * n + m) = Some (w n m)) ->
  (forall n, (0 <= n < n_out)%Z -> unit_at vlon_out n (EO n) /\ unit_at vlat_out n (EA n)) ->
  exists u v, vector_bilinear nx ny tiles vlon_out vlat_out index weight false missing fill n_out jin jout = Ok (u, v)
  /\ zlen u = n_out /\ zlen v = n_out /\ forall n, (0 <= n < n_out)%Z ->
     let W := weighted_vec (w n) (fun m => let p := pos nx (ic n + fst (corner m)) (jc n + snd (corner m)) in vec_of (U (l n) p) (V (l n) p) (LO (l n) p) (LA (l n) p)) in
     zget u n = Some (dot W (EO n)) /\ zget v n = Some (dot W (EA n)).
Proof. apply vector_spec. Qed.

(** Vectors with missing values: a missing value is not recognised once it is part of a component. *)
Definition mv_u : list R := [0; 0; 0; 0; 100; 0; 0; 0; 0].
Definition mv_lon : list R := concat (repeat [-3/5; 4/5; 0] 9).
Definition mv_lat : list R := concat (repeat [0; 0; 1] 9).
Theorem C85_vector_missing_refuted :
  ~ (forall nx ny tiles vlon_out vlat_out index weight missing n_out jin jout u v,
      vector_bilinear nx ny tiles vlon_out vlat_out index weight true missing false n_out jin jout = Ok (u, v) ->
      forall n ic jc l m tu tv e, (0 <= n < n_out)%Z -> (0 <= m < 4)%Z -> found index n ic jc l -> zget tiles l = Some ((tu, tv), e) ->
      zget tu (pos nx (ic + fst (corner m)) (jc + snd (corner m))) = Some missing ->
      zget tv (pos nx (ic + fst (corner m)) (jc + snd (corner m))) = Some missing -> zget u n = Some missing).
Proof.
  intros H.
  assert (E : exists u v, vector_bilinear 1 1 [((mv_u, mv_u), (mv_lon, mv_lat))] [-3/5; 4/5; 0] [0; 0; 1] [1; 1; 0]%Z [1/4; 1/4; 1/4; 1/4] true 100 false 1 (repeat 0 9) [0] = Ok (u, v)
    /\ exists x, zget u 0 = Some x /\ x <> 100).
  { unfold vector_bilinear.
    assert (C0 : components 0 ((1 + 2) * (1 + 2)) (repeat 0 9) [((mv_u, mv_u), (mv_lon, mv_lat))] = Ok [[0 * (-3/5) + 0 * 0; 0 * (-3/5) + 0 * 0; 0 * (-3/5) + 0 * 0; 0 * (-3/5) + 0 * 0; 100 * (-3/5) + 100 * 0; 0 * (-3/5) + 0 * 0; 0 * (-3/5) + 0 * 0; 0 * (-3/5) + 0 * 0; 0 * (-3/5) + 0 * 0]]) by reflexivity.
    assert (C1 : components 1 ((1 + 2) * (1 + 2)) (repeat 0 9) [((mv_u, mv_u), (mv_lon, mv_lat))] = Ok [[0 * (4/5) + 0 * 0; 0 * (4/5) + 0 * 0; 0 * (4/5) + 0 * 0; 0 * (4/5) + 0 * 0; 100 * (4/5) + 100 * 0; 0 * (4/5) + 0 * 0; 0 * (4/5) + 0 * 0; 0 * (4/5) + 0 * 0; 0 * (4/5) + 0 * 0]]) by reflexivity.
    assert (C2 : components 2 ((1 + 2) * (1 + 2)) (repeat 0 9) [((mv_u, mv_u), (mv_lon, mv_lat))] = Ok [[0 * 0 + 0 * 1; 0 * 0 + 0 * 1; 0 * 0 + 0 * 1; 0 * 0 + 0 * 1; 100 * 0 + 100 * 1; 0 * 0 + 0 * 1; 0 * 0 + 0 * 1; 0 * 0 + 0 * 1; 0 * 0 + 0 * 1]]) by reflexivity.
    rewrite C0, C1, C2. cbn [bind].
    assert (I : found [1; 1; 0]%Z 0 1 1 0) by (repeat split).
    assert (K : forall a b, exists o, c2l_interp 1 1 [[b; b; b; b; a; b; b; b; b]] [1; 1; 0]%Z [1/4; 1/4; 1/4; 1/4] true 100 false 1 [0] = Ok o
      /\ zget o 0 = Some (point_value true 100 false (fun _ => of4 a b b b) (fun _ => of4 (1/4) (1/4) (1/4) (1/4)) 0) /\ zlen o = 1%Z).
    { intros a b. destruct (c2l_spec 1 1 [[b; b; b; b; a; b; b; b; b]] [1; 1; 0]%Z [1/4; 1/4; 1/4; 1/4] true 100 false 1 (fun _ => 1%Z) (fun _ => 1%Z) (fun _ => 0%Z)
        (fun _ => of4 a b b b) (fun _ => of4 (1/4) (1/4) (1/4) (1/4))) with (out := [0]) as (o & E & L & G); auto; try lia.
      - intros n Hn. replace n with 0%Z by lia. auto.
      - intros n Hn. eexists. split; [reflexivity|]. intros m Hm. destruct (four m Hm) as [->|[->|[->| ->]]]; reflexivity.
      - intros n m Hn Hm. replace n with 0%Z by lia. destruct (four m Hm) as [->|[->|[->| ->]]]; reflexivity.
      - exists o. split; auto. split; auto. apply G. lia. }
    assert (PV : forall a b, a <> 100 -> b <> 100 -> point_value true 100 false (fun _ => of4 a b b b) (fun _ => of4 (1/4) (1/4) (1/4) (1/4)) 0 = 1/4 * a + 1/4 * b + 1/4 * b + 1/4 * b).
    { intros a b A B. unfold point_value. cbn [existsb of4]. destruct (Req_EM_T a 100); [contradiction|]. destruct (Req_EM_T b 100); [contradiction|]. cbn [orb andb]. unfold weighted. cbn [of4]. reflexivity. }
    destruct (K (100 * (-3/5) + 100 * 0) (0 * (-3/5) + 0 * 0)) as (x & -> & Gx & Lx). destruct (K (100 * (4/5) + 100 * 0) (0 * (4/5) + 0 * 0)) as (y & -> & Gy & Ly).
    destruct (K (100 * 0 + 100 * 1) (0 * 0 + 0 * 1)) as (z & -> & Gz & Lz). cbn [bind].
    rewrite PV in Gx by lra. rewrite PV in Gy by lra.
    match type of Gx with _ = Some ?v => set (X := v) in * end. match type of Gy with _ = Some ?v => set (Y := v) in * end. match type of Gz with _ = Some ?v => set (Z' := v) in * end.
    destruct (project_spec 1 x y z [-3/5; 4/5; 0] [0] (fun _ => X) (fun _ => Y) (fun _ => Z') (fun _ => (-3/5, 4/5, 0))) as (u & -> & Lu & Gu); [lia|reflexivity| |].
    { intros k Hk. replace k with 0%Z by lia. repeat (split; [assumption|]). intros m Hm. assert (m = 0 \/ m = 1 \/ m = 2)%Z as [->|[->| ->]] by lia; reflexivity. }
    destruct (project_spec 1 x y z [0; 0; 1] [0] (fun _ => X) (fun _ => Y) (fun _ => Z') (fun _ => (0, 0, 1))) as (v & -> & Lv & Gv); [lia|reflexivity| |].
    { intros k Hk. replace k with 0%Z by lia. repeat (split; [assumption|]). intros m Hm. assert (m = 0 \/ m = 1 \/ m = 2)%Z as [->|[->| ->]] by lia; reflexivity. }
    cbn [bind]. exists u, v. split; auto. exists (dot (X, Y, Z') (-3/5, 4/5, 0)). split; [apply (Gu 0%Z); lia|]. unfold dot. unfold X, Y. clearbody Z'. lra. }
  destruct E as (u & v & E & x & Gx & Nx).
  specialize (H _ _ _ _ _ _ _ _ _ _ _ _ _ E 0%Z 1%Z 1%Z 0%Z 0%Z mv_u mv_u (mv_lon, mv_lat) ltac:(lia) ltac:(lia)).
  rewrite Gx in H. assert (E0 : Some x = Some 100) by (apply H; try reflexivity; repeat split). injection E0 as E0. contradiction.
Qed.

(** The fallback of the search writes beyond the end of its array of sorted indices, for every number of tiles. *)
Theorem C85_sort_refuted ntiles junk : (1 <= ntiles)%Z -> (ntiles <= zlen junk)%Z -> sort_index_start ntiles junk = UB.
Proof.
  intros Hn L. unfold sort_index_start. set (a := firstn (Z.to_nat ntiles) junk).
  assert (La : zlen a = ntiles). { unfold a, zlen in *. rewrite firstn_length. lia. } clearbody a.
  replace (3 * ntiles)%Z with (ntiles + 2 * ntiles)%Z by ring. rewrite ofor_app by lia.
  destruct (ofor_fill ntiles (fun a l => oset a l 0%Z) (fun _ => 0%Z) a) as (o & -> & Lo & _); [lia|auto|]. cbn [bind].
  rewrite ofor_S by lia. assert (E : oset o (0 + ntiles) 0%Z = UB).
  { unfold oset, zset. replace ((0 <=? 0 + ntiles)%Z && (0 + ntiles <? zlen o)%Z) with false; [reflexivity|]. rewrite Lo, La. symmetry. lia. }
  rewrite E. reflexivity.
Qed.

(** The hypotheses are met: the centre of the upper right cell of a tile is found there, and a field
    is interpolated to the pole from the 2 x 2 centres around it. *)
Example C85_cell_example (v1 v2 v3 : vec3) :
  closest_index 1 1 (fun k => match k with 4 => Ok v1 | 5 => Ok v2 | 7 => Ok v3 | _ => UB end%Z) v1 1 1 = Ok (Some (1, 1)%Z).
Proof.
  assert (A : forall u p, spherical_angle p u p = 0).
  { intros u p. rewrite angle_eq. cbv zeta. replace (dot (cross p p) (cross p p)) with 0 by (rewrite lagrange; ring). rewrite Rmult_0_r, (rlt_f 0 0) by lra. reflexivity. }
  assert (B : forall u p, spherical_angle u p p = 0).
  { intros v p. rewrite angle_eq. cbv zeta. set (P := cross v p). destruct (rlt_cases 0 (dot P P * dot P P)) as [[-> H]|[-> H]]; cbn [negb]; auto.
    pose proof (dot_nonneg P). rewrite (sqrt_square (dot P P)) by auto. assert (dot P P <> 0) by nra.
    replace (dot P P / dot P P) with 1 by (field; auto). pose proof e30.
    rewrite (rlt_t (Rabs (1 - 1)) EPSLN30) by (rewrite Rminus_diag_eq, Rabs_R0 by reflexivity; lra).
    rewrite (rlt_f (Rabs (1 + 1)) EPSLN30) by (rewrite Rabs_pos_eq; lra). rewrite (rlt_f 1 1), (rlt_f 1 (-1)) by lra. cbn [orb]. apply acos_1. }
  unfold closest_index. cbn [Z.add Z.mul Z.eqb bind Pos.add Pos.mul Pos.succ Pos.eqb andb]. rewrite !A, B.
  assert (N : forall c, 0 <= c -> not_above 0 c c = true /\ not_above 0 0 c = true).
  { intros c Hc. unfold not_above. rewrite (rlt_f 0 0) by lra. split; [|now rewrite (rlt_f c 0) by lra].
    destruct (rlt_cases 0 c) as [[-> H]|[-> H]]; rewrite (rlt_f c) by lra; reflexivity. }
  destruct (N (spherical_angle v1 v2 v3)) as [_ ->]; [apply angle_range|]. destruct (N (spherical_angle v2 v3 v1)) as [-> _]; [apply angle_range|]. reflexivity.
Qed.

Definition ex_x : list R := [0; 0; 0; 0; 0; -2/3; 2/3; 0; 0; -2/3; 2/3; 0; 0; 0; 0; 0].
Definition ex_y : list R := [0; 0; 0; 0; 0; -1/3; -1/3; 0; 0; 1/3; 1/3; 0; 0; 0; 0; 0].
Definition ex_z : list R := [0; 0; 0; 0; 0; 2/3; 2/3; 0; 0; 2/3; 2/3; 0; 0; 0; 0; 0].
Example C85_scalar_example : exists weight', all_weights 2 2 [(ex_x, ex_y, ex_z)] [0] [0] [1] [1; 1; 0]%Z 1 [0; 0; 0; 0] = Ok weight' /\ found [1; 1; 0]%Z 0 1 1 0.
Proof.
  destruct C85_defined_example as (G & P & C).
  destruct (C85_defined 2 2 1 1 (vec_at ex_x ex_y ex_z) ex_v (0, 0, 1)) as [ws E]; try lia; try discriminate; auto.
  { intros m Hm I. split; [|apply G; auto]. destruct (four m Hm) as [->|[->|[->| ->]]]; reflexivity. }
  destruct (weights_spec 2 2 1 1 (vec_at ex_x ex_y ex_z) (0, 0, 1) ltac:(lia) ltac:(lia) ltac:(lia) ltac:(lia) ws E) as (w & Ew & _).
  exists ws. split; [|repeat split]. unfold all_weights. rewrite ofor_S by lia. cbn [bind].
  change (oget [1; 1; 0]%Z (3 * 0)) with (Ok 1%Z). change (oget [1; 1; 0]%Z (3 * 0 + 1)) with (Ok 1%Z). change (oget [1; 1; 0]%Z (3 * 0 + 2)) with (Ok 0%Z). cbn [bind].
  change (vec_at [0] [0] [1] 0) with (Ok (0, 0, 1) : outcome vec3). cbn [bind]. change (oget [(ex_x, ex_y, ex_z)] 0) with (Ok (ex_x, ex_y, ex_z)). cbn [bind].
  rewrite E. cbn [bind]. rewrite Ew. reflexivity.
Qed.
