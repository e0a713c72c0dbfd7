(** * A small geometry for the examples of make_coupler_mosaic: rectangles *)
From Coq Require Import Reals Lra.
From Verif Require Import Base Loops Vec P_Interp P_Interp2 P_Coupler M_Interp Spec_Interp M_Coupler Spec_Coupler.
Open Scope Z_scope.

(** Clipping of boxes, areas of boxes, no periodic longitudes *)
Definition box_clip (p q : poly) : poly :=
  let x1 := Rmax (minval (xs p)) (minval (xs q)) in let x2 := Rmin (maxval (xs p)) (maxval (xs q)) in
  let y1 := Rmax (minval (ys p)) (minval (ys q)) in let y2 := Rmin (maxval (ys p)) (maxval (ys q)) in
  match p, q with _ :: _, _ :: _ => if rlt x1 x2 && rlt y1 y2 then [(x1, y1); (x2, y1); (x2, y2); (x1, y2)] else [] | _, _ => [] end.
Definition box_area (p : poly) : R := ((maxval (xs p) - minval (xs p)) * (maxval (ys p) - minval (ys p)))%R.
Definition boxes : geometry := Geometry box_clip box_area (fun p _ => p).

Lemma minval_in l : l <> [] -> In (minval l) l.
Proof.
  destruct l as [|x l]; [easy|]. intros _. unfold minval. revert x. induction l as [|y l IH]; intros x; cbn [fold_left]; [now left|].
  destruct (IH (if rlt y x then y else x)) as [E|E]; [|right; right; exact E]. rewrite <- E. destruct (rlt y x); [right; now left|now left].
Qed.
Lemma maxval_in l : l <> [] -> In (maxval l) l.
Proof.
  destruct l as [|x l]; [easy|]. intros _. unfold maxval. revert x. induction l as [|y l IH]; intros x; cbn [fold_left]; [now left|].
  destruct (IH (if rlt x y then y else x)) as [E|E]; [|right; right; exact E]. rewrite <- E. destruct (rlt x y); [right; now left|now left].
Qed.
Lemma some_map {A B} (f : A -> B) l : l <> [] -> map f l <> [].
Proof. now destruct l. Qed.
Lemma min_max l : l <> [] -> (minval l <= maxval l)%R.
Proof. intros H. apply minval_le. now apply maxval_in. Qed.
Lemma apart_mm p q : p <> [] -> q <> [] -> apart p q ->
  ((maxval (xs p) <= minval (xs q)) \/ (maxval (xs q) <= minval (xs p)) \/ (maxval (ys p) <= minval (ys q)) \/ (maxval (ys q) <= minval (ys p)))%R.
Proof.
  intros Np Nq.
  assert (forall (f : R * R -> R) a b c, a <> [] -> b <> [] -> (forall v, In v a -> (f v <= c)%R) -> (forall v, In v b -> (c <= f v)%R) -> (maxval (map f a) <= minval (map f b))%R) as G.
  { intros f a b c Na Nb Ha Hb. pose proof (maxval_in _ (some_map f a Na)) as I. pose proof (minval_in _ (some_map f b Nb)) as J.
    apply in_map_iff in I, J. destruct I as (u & <- & Hu), J as (v & <- & Hv). pose proof (Ha u Hu). pose proof (Hb v Hv). lra. }
  intros [(c & H1 & H2)|[(c & H1 & H2)|[(c & H1 & H2)|(c & H1 & H2)]]]; unfold xs, ys.
  - left. eauto.
  - right. left. eauto.
  - right. right. left. eauto.
  - right. right. right. eauto.
Qed.
Lemma box_area_nonneg p : (0 <= box_area p)%R.
Proof.
  unfold box_area. destruct p as [|v p]; [cbn; lra|]. pose proof (min_max (xs (v :: p)) ltac:(easy)). pose proof (min_max (ys (v :: p)) ltac:(easy)). nra.
Qed.
Lemma boxes_sound : sound boxes.
Proof.
  split; cbn [boxes g_clip g_area g_fix].
  - unfold box_area. cbn. lra.
  - intros q _ H E. subst q. discriminate.
  - auto.
  - intros p q c. unfold box_clip. destruct p as [|u p]; [repeat split; intros _ v []|]. destruct q as [|w q]; [repeat split; intros _ v []|].
    remember (u :: p) as P. remember (w :: q) as Q.
    destruct (rlt_spec (Rmax (minval (xs P)) (minval (xs Q))) (Rmin (maxval (xs P)) (maxval (xs Q)))) as [L1|]; [|repeat split; intros _ v []].
    destruct (rlt_spec (Rmax (minval (ys P)) (minval (ys Q))) (Rmin (maxval (ys P)) (maxval (ys Q)))) as [L2|]; [|repeat split; intros _ v []]. cbn [andb].
    assert (P <> []) as NP by (subst; easy).
    pose proof (maxval_in _ (some_map fst P NP)) as A1. pose proof (minval_in _ (some_map fst P NP)) as A2. pose proof (maxval_in _ (some_map snd P NP)) as A3. pose proof (minval_in _ (some_map snd P NP)) as A4.
    apply in_map_iff in A1, A2, A3, A4. fold (xs P) in A1, A2. fold (ys P) in A3, A4. destruct A1 as (a1 & E1 & I1), A2 as (a2 & E2 & I2), A3 as (a3 & E3 & I3), A4 as (a4 & E4 & I4).
    pose proof (Rmax_l (minval (xs P)) (minval (xs Q))). pose proof (Rmin_l (maxval (xs P)) (maxval (xs Q))).
    pose proof (Rmax_l (minval (ys P)) (minval (ys Q))). pose proof (Rmin_l (maxval (ys P)) (maxval (ys Q))).
    repeat split; intros H' v Hv.
    + specialize (H' a1 I1). cbn in Hv. destruct Hv as [<-|[<-|[<-|[<-|[]]]]]; cbn [fst]; lra.
    + specialize (H' a2 I2). cbn in Hv. destruct Hv as [<-|[<-|[<-|[<-|[]]]]]; cbn [fst]; lra.
    + specialize (H' a3 I3). cbn in Hv. destruct Hv as [<-|[<-|[<-|[<-|[]]]]]; cbn [snd]; lra.
    + specialize (H' a4 I4). cbn in Hv. destruct Hv as [<-|[<-|[<-|[<-|[]]]]]; cbn [snd]; lra.
  - intros p q Np Nq Ha. apply (apart_mm p q Np Nq) in Ha. unfold box_clip. destruct p as [|u p]; [easy|]. destruct q as [|w q]; [easy|]. remember (u :: p) as P. remember (w :: q) as Q.
    pose proof (Rmax_l (minval (xs P)) (minval (xs Q))). pose proof (Rmin_l (maxval (xs P)) (maxval (xs Q))).
    pose proof (Rmax_l (minval (ys P)) (minval (ys Q))). pose proof (Rmin_l (maxval (ys P)) (maxval (ys Q))).
    pose proof (Rmax_r (minval (xs P)) (minval (xs Q))). pose proof (Rmin_r (maxval (xs P)) (maxval (xs Q))).
    pose proof (Rmax_r (minval (ys P)) (minval (ys Q))). pose proof (Rmin_r (maxval (ys P)) (maxval (ys Q))).
    destruct (rlt_spec (Rmax (minval (xs P)) (minval (xs Q))) (Rmin (maxval (xs P)) (maxval (xs Q)))) as [L1|L1]; cbn [andb]; [|unfold box_area; cbn; lra].
    destruct (rlt_spec (Rmax (minval (ys P)) (minval (ys Q))) (Rmin (maxval (ys P)) (maxval (ys Q)))) as [L2|L2]; cbn [andb]; [|unfold box_area; cbn; lra].
    exfalso. lra.
  - intros p Np Ha. apply (apart_mm p p Np Np) in Ha. pose proof (min_max _ (some_map fst p Np)) as H1. pose proof (min_max _ (some_map snd p Np)) as H2. fold (xs p) in H1. fold (ys p) in H2. unfold box_area.
    destruct Ha as [H|[H|[H|H]]]; [| | |]; (assert (maxval (xs p) - minval (xs p) = 0)%R as -> by lra; lra) || (assert (maxval (ys p) - minval (ys p) = 0)%R as -> by lra; lra).
Qed.
(** The area of a rectangle *)
Definition rectangle (a b c d : R) : poly := [(a, c); (b, c); (b, d); (a, d)].
Lemma rectangle_mm a b c d : (a <= b)%R -> (c <= d)%R -> minval (xs (rectangle a b c d)) = a /\ maxval (xs (rectangle a b c d)) = b /\ minval (ys (rectangle a b c d)) = c /\ maxval (ys (rectangle a b c d)) = d.
Proof.
  intros H1 H2. cbn. repeat split; repeat match goal with |- context [rlt ?x ?y] => lazymatch x with context [rlt] => fail | _ => lazymatch y with context [rlt] => fail | _ => destruct (rlt_spec x y) end end end; lra.
Qed.
Lemma rectangle_area a b c d : (a <= b)%R -> (c <= d)%R -> box_area (rectangle a b c d) = ((b - a) * (d - c))%R.
Proof. intros H1 H2. unfold box_area. destruct (rectangle_mm a b c d H1 H2) as (-> & -> & -> & ->). reflexivity. Qed.
(** The common area of two rectangles *)
Definition overlap (a b a' b' : R) : R := Rmax 0 (Rmin b b' - Rmax a a').
Lemma rectangle_clip a b c d a' b' c' d' : (a <= b)%R -> (c <= d)%R -> (a' <= b')%R -> (c' <= d')%R ->
  box_area (box_clip (rectangle a b c d) (rectangle a' b' c' d')) = (overlap a b a' b' * overlap c d c' d')%R.
Proof.
  intros H1 H2 H3 H4. unfold box_clip. destruct (rectangle_mm a b c d H1 H2) as (-> & -> & -> & ->). destruct (rectangle_mm a' b' c' d' H3 H4) as (-> & -> & -> & ->). unfold rectangle at 1 2. cbv iota. unfold overlap.
  destruct (rlt_spec (Rmax a a') (Rmin b b')) as [L1|L1]; cbn [andb].
  - destruct (rlt_spec (Rmax c c') (Rmin d d')) as [L2|L2]; cbn [andb].
    + change (box_area (rectangle (Rmax a a') (Rmin b b') (Rmax c c') (Rmin d d')) = (Rmax 0 (Rmin b b' - Rmax a a') * Rmax 0 (Rmin d d' - Rmax c c'))%R). rewrite rectangle_area by lra.
      rewrite (Rmax_right 0 (Rmin b b' - Rmax a a')), (Rmax_right 0 (Rmin d d' - Rmax c c')) by lra. reflexivity.
    + rewrite (Rmax_left 0 (Rmin d d' - Rmax c c')) by lra. unfold box_area. cbn. lra.
  - rewrite (Rmax_left 0 (Rmin b b' - Rmax a a')) by lra. unfold box_area. cbn. lra.
Qed.
Lemma rectangle_some a b c d a' b' c' d' : (a <= b)%R -> (c <= d)%R -> (a' <= b')%R -> (c' <= d')%R -> (Rmax a a' < Rmin b b')%R -> (Rmax c c' < Rmin d d')%R ->
  box_clip (rectangle a b c d) (rectangle a' b' c' d') = rectangle (Rmax a a') (Rmin b b') (Rmax c c') (Rmin d d').
Proof.
  intros H1 H2 H3 H4 L1 L2. unfold box_clip. destruct (rectangle_mm a b c d H1 H2) as (-> & -> & -> & ->). destruct (rectangle_mm a' b' c' d' H3 H4) as (-> & -> & -> & ->). unfold rectangle at 1 2. cbv iota.
  destruct (rlt_spec (Rmax a a') (Rmin b b')); [|contradiction]. destruct (rlt_spec (Rmax c c') (Rmin d d')); [|contradiction]. reflexivity.
Qed.

(** ** Bounds on the number of exchange cells *)
Lemma flat_map_bound {A B} (f : A -> list B) k l : 0 <= k -> (forall x, In x l -> zlen (f x) <= k) -> zlen (flat_map f l) <= zlen l * k.
Proof.
  intros Hk. induction l as [|x l IH]; intros H; [cbn; lia|]. cbn [flat_map]. rewrite zlen_app, zlen_cons. pose proof (H x (or_introl eq_refl)). pose proof (IH ltac:(intros; apply H; now right)). lia.
Qed.
Lemma cells_len t : 0 < t_nx t -> 0 <= t_ny t -> zlen (cells t) = t_nx t * t_ny t.
Proof. intros H1 H2. rewrite <- (cells_la t) by lia. rewrite zlen_map, zlen_zseq; nia. Qed.
Lemma ocean_cell_len o g atm ocn omask na ca no co : zlen (ocean_cell o g atm ocn omask na ca no co) <= 1.
Proof. unfold ocean_cell. destruct (Rlt_dec _ _); [destruct (counts_dec _ _ _ _)|]; cbn; lia. Qed.
Lemma land_cell_len o g atm lnd ocn omask na ca nl cl : zlen (land_cell o g atm lnd ocn omask na ca nl cl) <= 1.
Proof. unfold land_cell. destruct (land_counts_dec _ _ _ _ _ _ _ _); [destruct (land_counts_dec _ _ _ _ _ _ _ _)|]; cbn; lia. Qed.
Lemma ocean_exchange_len o g atm ocn omask na no : zlen (ocean_exchange o g atm ocn omask na no) <= zlen (cells (tile_at atm na)) * zlen (cells (tile_at ocn no)).
Proof.
  unfold ocean_exchange. destruct (facing o na no); [|change (zlen []) with 0; pose proof (zlen_nonneg (cells (tile_at atm na))); pose proof (zlen_nonneg (cells (tile_at ocn no))); nia].
  apply flat_map_bound; [apply zlen_nonneg|]. intros ca _. rewrite <- (Z.mul_1_r (zlen (cells (tile_at ocn no)))). apply flat_map_bound; [lia|]. intros. apply ocean_cell_len.
Qed.
Lemma land_exchange_len o g atm lnd ocn omask na nl : zlen (land_exchange o g atm lnd ocn omask na nl) <= zlen (cells (tile_at atm na)) * zlen (cells (tile_at lnd nl)).
Proof.
  unfold land_exchange.
  apply flat_map_bound; [apply zlen_nonneg|]. intros ca _. rewrite <- (Z.mul_1_r (zlen (cells (tile_at lnd nl)))). apply flat_map_bound; [lia|]. intros. apply land_cell_len.
Qed.
Lemma grounds_len o g atm lnd na ca k : (forall nl, 0 <= nl < zlen lnd -> zlen (cells (tile_at lnd nl)) <= k) -> 0 <= k -> zlen (grounds o g atm lnd na ca) <= zlen lnd * k.
Proof.
  intros H Hk. unfold grounds. etransitivity; [apply (flat_map_bound _ k); auto|].
  - intros nl Hn. apply In_zseq in Hn. etransitivity; [|apply (H nl); lia]. rewrite <- (Z.mul_1_r (zlen (cells (tile_at lnd nl)))). apply flat_map_bound; [lia|]. intros cl _.
    destruct (land_counts_dec _ _ _ _ _ _ _ _); cbn; lia.
  - rewrite zlen_zseq by apply zlen_nonneg. lia.
Qed.
