(** * Properties C25, C26, C27: clipping a polygon against a box *)
From Coq Require Import Reals Lra List Sorted.
From Verif Require Import Base M_Clip P_Clip Spec_Clip P_ClipR.
Local Open Scope R_scope.

Lemma between1 u v w : u <= w <= v \/ v <= w <= u -> exists t, 0 <= t <= 1 /\ w = u + t * (v - u).
Proof.
  intros H. destruct (Req_dec u v) as [->|N]. { exists 0. split; lra. }
  exists ((w - u) / (v - u)). split; [|field; lra].
  destruct H as [H|H].
  - assert (0 < v - u) by lra. split; [apply Rmult_le_pos; [lra|left; now apply Rinv_0_lt_compat]|]. apply (Rmult_le_reg_r (v - u)); auto. unfold Rdiv. rewrite Rmult_assoc, Rinv_l by lra. lra.
  - assert (0 < u - v) by lra. replace ((w - u) / (v - u)) with ((u - w) / (u - v)) by (field; lra). split; [apply Rmult_le_pos; [lra|left; now apply Rinv_0_lt_compat]|]. apply (Rmult_le_reg_r (u - v)); auto. unfold Rdiv. rewrite Rmult_assoc, Rinv_l by lra. lra.
Qed.
Lemma three a b c : (a <= c <= b \/ b <= c <= a) \/ (b <= a <= c \/ c <= a <= b) \/ (c <= b <= a \/ a <= b <= c).
Proof. destruct (Rle_dec a b), (Rle_dec b c), (Rle_dec a c); try lra; tauto. Qed.

(** The two axes. *)
Lemma Xl_x a b t : fst (lerp a b t) = fst a + t * (fst b - fst a). Proof. reflexivity. Qed.
Lemma Xl_y a b t : snd (lerp a b t) = snd a + t * (snd b - snd a). Proof. reflexivity. Qed.
Lemma line_x (p q : point) : fst p = fst q -> forall r : point, fst r = fst p -> between p q r \/ between q r p \/ between r p q.
Proof.
  destruct p as [x1 y1], q as [x2 y2]. cbn [fst]. intros <- [x3 y3]. cbn [fst]. intros ->.
  destruct (three y1 y2 y3) as [H|[H|H]]; apply between1 in H; destruct H as (t & Ht & E); [left|right; left|right; right]; exists t; (split; [auto|]); cbn [fst snd]; f_equal; lra.
Qed.
Lemma line_y (p q : point) : snd p = snd q -> forall r : point, snd r = snd p -> between p q r \/ between q r p \/ between r p q.
Proof.
  destruct p as [x1 y1], q as [x2 y2]. cbn [snd]. intros <- [x3 y3]. cbn [snd]. intros ->.
  destruct (three x1 x2 x3) as [H|[H|H]]; apply between1 in H; destruct H as (t & Ht & E); [left|right; left|right; right]; exists t; (split; [auto|]); cbn [fst snd]; f_equal; lra.
Qed.
Lemma cr_x (c : R) (a b : point) : fst a <> fst b -> cross_x RA c a b = lerp a b ((c - fst a) / (fst b - fst a)).
Proof. intros H. destruct a as [x1 y1], b as [x2 y2]. cbn [fst] in *. unfold cross_x, lerp. apply (f_equal2 (@pair R R)); cbn; match goal with |- @eq _ ?a ?b => change (@eq R a b) end; field; lra. Qed.
Lemma cr_y (c : R) (a b : point) : snd a <> snd b -> cross_y RA c a b = lerp a b ((c - snd a) / (snd b - snd a)).
Proof. intros H. destruct a as [x1 y1], b as [x2 y2]. cbn [snd] in *. unfold cross_y, lerp. apply (f_equal2 (@pair R R)); cbn; match goal with |- @eq _ ?a ?b => change (@eq R a b) end; field; lra. Qed.
Lemma sp_left (c : R) (p : point) : in_left RA c p = true <-> c <= fst p.
Proof. unfold in_left. cbn. destruct (Rle_dec _ _); split; auto; discriminate || contradiction. Qed.
Lemma sp_right (c : R) (p : point) : in_right RA c p = true <-> fst p <= c.
Proof. unfold in_right. cbn. destruct (Rle_dec _ _); split; auto; discriminate || contradiction. Qed.
Lemma sp_bottom (c : R) (p : point) : in_bottom RA c p = true <-> c <= snd p.
Proof. unfold in_bottom. cbn. destruct (Rle_dec _ _); split; auto; discriminate || contradiction. Qed.
Lemma sp_top (c : R) (p : point) : in_top RA c p = true <-> snd p <= c.
Proof. unfold in_top. cbn. destruct (Rle_dec _ _); split; auto; discriminate || contradiction. Qed.

Notation LEFT c := (cut RA (in_left RA c) (cross_x RA c)).
Notation RIGHT c := (cut RA (in_right RA c) (cross_x RA c)).
Notation BOTTOM c := (cut RA (in_bottom RA c) (cross_y RA c)).
Notation TOP c := (cut RA (in_top RA c) (cross_y RA c)).

(** A convex set that contains the polygon contains every pass's output. *)
Definition convex (K : point -> Prop) : Prop := forall a b v, K a -> K b -> between a b v -> K v.
Lemma left_K c P K : convex K -> (forall p, In p P -> K p) -> forall v, In v (LEFT c P) -> K v.
Proof. intros HK HP. exact (cut_convex fst (cross_x RA) cr_x _ c P K (lo_straddle fst _ sp_left c) HK HP). Qed.
Lemma right_K c P K : convex K -> (forall p, In p P -> K p) -> forall v, In v (RIGHT c P) -> K v.
Proof. intros HK HP. exact (cut_convex fst (cross_x RA) cr_x _ c P K (hi_straddle fst _ sp_right c) HK HP). Qed.
Lemma bottom_K c P K : convex K -> (forall p, In p P -> K p) -> forall v, In v (BOTTOM c P) -> K v.
Proof. intros HK HP. exact (cut_convex snd (cross_y RA) cr_y _ c P K (lo_straddle snd _ sp_bottom c) HK HP). Qed.
Lemma top_K c P K : convex K -> (forall p, In p P -> K p) -> forall v, In v (TOP c P) -> K v.
Proof. intros HK HP. exact (cut_convex snd (cross_y RA) cr_y _ c P K (hi_straddle snd _ sp_top c) HK HP). Qed.
Lemma box_K P x0 y0 x1 y1 K : convex K -> (forall p, In p P -> K p) -> forall v, In v (box_cut RA P x0 y0 x1 y1) -> K v.
Proof. intros HK HP. unfold box_cut. repeat first [apply top_K; [auto|] | apply bottom_K; [auto|] | apply right_K; [auto|] | apply left_K; [auto|]]. exact HP. Qed.
Lemma half_convex a b c : convex (fun p => a * fst p + b * snd p <= c).
Proof.
  intros u w v Hu Hw (t & Ht & ->). cbn [fst snd] in *.
  replace (a * (fst u + t * (fst w - fst u)) + b * (snd u + t * (snd w - snd u))) with ((1 - t) * (a * fst u + b * snd u) + t * (a * fst w + b * snd w)) by ring.
  assert ((1 - t) * (a * fst u + b * snd u) <= (1 - t) * c) by (apply Rmult_le_compat_l; lra). assert (t * (a * fst w + b * snd w) <= t * c) by (apply Rmult_le_compat_l; lra). lra.
Qed.
Lemma ge_x c : convex (fun p => c <= fst p). Proof. intros u w v Hu Hw B. pose proof (half_convex (-1) 0 (- c) u w v) as H. cbv beta in H. cut (-1 * fst v + 0 * snd v <= - c); [lra|]. apply H; auto; lra. Qed.
Lemma le_x c : convex (fun p => fst p <= c). Proof. intros u w v Hu Hw B. pose proof (half_convex 1 0 c u w v) as H. cbv beta in H. cut (1 * fst v + 0 * snd v <= c); [lra|]. apply H; auto; lra. Qed.
Lemma ge_y c : convex (fun p => c <= snd p). Proof. intros u w v Hu Hw B. pose proof (half_convex 0 (-1) (- c) u w v) as H. cbv beta in H. cut (0 * fst v + -1 * snd v <= - c); [lra|]. apply H; auto; lra. Qed.
Lemma le_y c : convex (fun p => snd p <= c). Proof. intros u w v Hu Hw B. pose proof (half_convex 0 1 c u w v) as H. cbv beta in H. cut (0 * fst v + 1 * snd v <= c); [lra|]. apply H; auto; lra. Qed.

Lemma lerp_lt (a b c t : R) : a < c -> b < c -> 0 <= t <= 1 -> a + t * (b - a) < c.
Proof. intros Ha Hb Ht. destruct (Rle_dec a b); [assert (t * (b - a) <= 1 * (b - a)) by (apply Rmult_le_compat_r; lra); lra|assert (0 <= t * (a - b)) by (apply Rmult_le_pos; lra); lra]. Qed.
Lemma lerp_gt (a b c t : R) : c < a -> c < b -> 0 <= t <= 1 -> c < a + t * (b - a).
Proof. intros Ha Hb Ht. pose proof (lerp_lt (- a) (- b) (- c) t ltac:(lra) ltac:(lra) Ht). lra. Qed.

(** C25, exact arithmetic: the result is inside the box and inside the convex hull of the
    polygon; a polygon inside the box comes back unchanged; a polygon strictly beyond one
    side of the box gives nothing. *)
Theorem C25_clip_inside : forall capt capo P x0 y0 x1 y1 out,
  clip RA capt capo P x0 y0 x1 y1 = Ok out ->
  (forall v, In v out -> in_box x0 y0 x1 y1 v) /\ (forall v, In v out -> in_hull P v)
  /\ ((forall p, In p P -> in_box x0 y0 x1 y1 p) -> out = P)
  /\ ((forall p, In p P -> fst p < x0) \/ (forall p, In p P -> x1 < fst p) \/ (forall p, In p P -> snd p < y0) \/ (forall p, In p P -> y1 < snd p) -> out = []).
Proof.
  intros capt capo P x0 y0 x1 y1 out H. apply clip_inv in H. subst out.
  assert (HB : forall v, In v (box_cut RA P x0 y0 x1 y1) -> in_box x0 y0 x1 y1 v).
  { intros v Hv. unfold box_cut in Hv. repeat split.
    - revert v Hv. apply (top_K _ _ _ (ge_x x0)), (bottom_K _ _ _ (ge_x x0)), (right_K _ _ _ (ge_x x0)). intros v Hv. eapply (LO_side fst Xl_x _ cr_x _ sp_left); eauto.
    - revert v Hv. apply (top_K _ _ _ (le_x x1)), (bottom_K _ _ _ (le_x x1)). intros v Hv. eapply (HI_side fst Xl_x _ cr_x _ sp_right); eauto.
    - revert v Hv. apply (top_K _ _ _ (ge_y y0)). intros v Hv. eapply (LO_side snd Xl_y _ cr_y _ sp_bottom); eauto.
    - eapply (HI_side snd Xl_y _ cr_y _ sp_top); eauto. }
  split; [exact HB|]. split.
  - intros v Hv a b c HP. revert v Hv. apply (box_K P x0 y0 x1 y1 _ (half_convex a b c) HP).
  - split.
    + intros HP. unfold box_cut. rewrite (cut_all RA (in_left RA x0)); [rewrite (cut_all RA (in_right RA x1)); [rewrite (cut_all RA (in_bottom RA y0)); [apply (cut_all RA (in_top RA y1))|]|]|]; intros p Hp; specialize (HP p Hp); unfold in_box in HP.
      * apply sp_top; lra. * apply sp_bottom; lra. * apply sp_right; lra. * apply sp_left; lra.
    + intros HP. assert (D : forall v, ~ In v (box_cut RA P x0 y0 x1 y1)).
      { intros v Hv. pose proof (HB v Hv) as (B1 & B2). assert (N : exists K, convex K /\ (forall p, In p P -> K p) /\ ~ K v).
        - destruct HP as [HP|[HP|[HP|HP]]].
          + exists (fun p => fst p < x0). split; [|split; [auto|lra]]. intros a b w Ha Hb (t & Ht & ->). now apply lerp_lt.
          + exists (fun p => x1 < fst p). split; [|split; [auto|lra]]. intros a b w Ha Hb (t & Ht & ->). now apply lerp_gt.
          + exists (fun p => snd p < y0). split; [|split; [auto|lra]]. intros a b w Ha Hb (t & Ht & ->). now apply lerp_lt.
          + exists (fun p => y1 < snd p). split; [|split; [auto|lra]]. intros a b w Ha Hb (t & Ht & ->). now apply lerp_gt.
        - destruct N as (K & HK & HPK & NK). apply NK. now apply (box_K P x0 y0 x1 y1 K HK HPK). }
      destruct (box_cut RA P x0 y0 x1 y1) as [|v l]; auto. exfalso. apply (D v). now left.
Qed.
Print Assumptions C25_clip_inside.

(** C25, every arithmetic (doubles with rounding, too): latitudes are inside the box. *)
Theorem C25_latitudes_any_arithmetic : forall (A : arith) capt capo P x0 y0 x1 y1 out,
  nle A y0 y0 = true -> nle A y0 y1 = true -> nle A y1 y1 = true ->
  clip A capt capo P x0 y0 x1 y1 = Ok out -> forall v, In v out -> nle A y0 (snd v) = true /\ nle A (snd v) y1 = true.
Proof.
  intros A capt capo P x0 y0 x1 y1 out R0 R1 R2 H v Hv. apply clip_inv in H. subst out. unfold box_cut in Hv. set (Q := cut A (in_right A x1) _ _) in Hv.
  assert (HQ : forall u, In u (cut A (in_bottom A y0) (cross_y A y0) Q) -> nle A y0 (snd u) = true).
  { intros u Hu. apply cut_in in Hu. destruct Hu as [[_ Hu]|(p & q & _ & _ & _ & ->)]; auto. }
  apply cut_in in Hv. destruct Hv as [[H1 H2]|(p & q & _ & _ & _ & ->)]; split; auto.
Qed.
Print Assumptions C25_latitudes_any_arithmetic.

(** A triangle that sticks out of the box on the left and at the top. *)
Ltac dec := repeat match goal with |- context [Rle_dec ?a ?b] => destruct (Rle_dec a b); try (exfalso; lra) end; cbn [negb Bool.eqb app].
Example C25_example : clip RA MV MV [(0, 0); (4, 0); (4, 4)] 1 (-1) 5 2 = Ok [(2, 2); (1, 1); (1, 0); (4, 0); (4, 2)].
Proof.
  rewrite clip_ok; [|discriminate|vm_compute; discriminate..].
  unfold box_cut, cut at 4, walk, turn, in_left, cross_x. cbn [last nle RA fst snd nadd nsub nmul ndiv]. dec.
  unfold cut at 3, walk, turn, in_right, cross_x. cbn [last nle RA fst snd nadd nsub nmul ndiv]. dec.
  unfold cut at 2, walk, turn, in_bottom, cross_y. cbn [last nle RA fst snd nadd nsub nmul ndiv].
  replace (0 + (1 - 0) * (0 - 0) / (4 - 0)) with 0 by field. replace (4 + (1 - 4) * (0 - 4) / (0 - 4)) with 1 by field. dec.
  unfold cut, walk, turn, in_top, cross_y. cbn [last nle RA fst snd nadd nsub nmul ndiv]. dec.
  repeat f_equal; field.
Qed.

(** C26: clipping never overflows its arrays, in any arithmetic: neither the 20-element
    arrays of the river regridding (4 vertices), nor the MV-element arrays of the exchange
    grid search, where the cell first goes through the longitude fix, which itself fits. *)
Theorem C26_river_arrays : forall (A : arith) P x0 y0 x1 y1, zlen P = 4%Z ->
  exists out, clip A MV 20 P x0 y0 x1 y1 = Ok out.
Proof.
  intros A P x0 y0 x1 y1 H. eexists. apply clip_ok; rewrite ?H; try (vm_compute; discriminate). intros ->. discriminate.
Qed.
Print Assumptions C26_river_arrays.
Theorem C26_exchange_arrays : forall (A : arith) P tlon, zlen P = 4%Z ->
  exists Q, fix_lon A MV P tlon = Ok Q /\ forall x0 y0 x1 y1, Q <> [] -> exists out, clip A MV MV Q x0 y0 x1 y1 = Ok out.
Proof.
  intros A P tlon H. destruct (fix_lon_ok A MV 4 P tlon ltac:(lia) ltac:(vm_compute; discriminate)) as (Q & E & L). exists Q. split; auto. intros x0 y0 x1 y1 N. eexists. apply clip_ok; auto.
  all: change (2 * 4 + 2)%Z with 10%Z in L; unfold MV; pose proof (zlen_nonneg Q); assert (D1 : (3 * zlen Q / 2 <= 15)%Z) by (apply Z.div_le_upper_bound; lia); assert (D2 : (3 * (3 * zlen Q / 2) / 2 <= 22)%Z) by (apply Z.lt_succ_r, Z.div_lt_upper_bound; lia); assert (D3 : (3 * (3 * (3 * zlen Q / 2) / 2) / 2 <= 33)%Z) by (apply Z.div_le_upper_bound; lia); try lia.
Qed.
Print Assumptions C26_exchange_arrays.
(** The bound is real: with scratch arrays of five elements four vertices overflow. *)
Definition ZA : arith := MkArith Z Z.add Z.sub Z.mul Z.div Z.leb Z.eqb Z.abs 1%Z 2%Z 4%Z 0%Z 0%Z 0%Z (fun z => z).
Example C26_sharp : clip ZA 5 20 [(-1, 0); (1, 0); (-1, 1); (1, 1)]%Z 0%Z 0%Z 1%Z 1%Z = UB /\ exists out, clip ZA 6 20 [(-1, 0); (1, 0); (-1, 1); (1, 1)]%Z 0%Z 0%Z 1%Z 1%Z = Ok out.
Proof. split; [vm_compute; reflexivity|]. eexists. vm_compute. reflexivity. Qed.

(** C27: for every polygon (up to ten vertices, what the arrays hold) and every grid of
    boxes covering it, the pieces' areas add up to the polygon's area, for every
    antisymmetric edge functional that is additive along straight segments. *)
Theorem C27_clip_conserves : forall phi P xs ys,
  edge_integral phi -> P <> [] -> (zlen P <= 10)%Z -> edges_cover xs (map fst P) -> edges_cover ys (map snd P) ->
  exists piece, (forall x0 y0 x1 y1, clip RA MV MV P x0 y0 x1 y1 = Ok (piece x0 y0 x1 y1))
  /\ over_cells (fun x0 x1 => over_cells (fun y0 y1 => around phi (piece x0 y0 x1 y1)) ys) xs = around phi P.
Proof.
  intros phi P xs ys Hphi HP HL Hx Hy. exists (box_cut RA P). split.
  - intros x0 y0 x1 y1. apply clip_ok; auto.
    all: change (M_Clip.pt RA) with point; unfold MV; pose proof (zlen_nonneg P); assert (D1 : (3 * zlen P / 2 <= 15)%Z) by (apply Z.div_le_upper_bound; lia); assert (D2 : (3 * (3 * zlen P / 2) / 2 <= 22)%Z) by (apply Z.lt_succ_r, Z.div_lt_upper_bound; lia); assert (D3 : (3 * (3 * (3 * zlen P / 2) / 2) / 2 <= 33)%Z) by (apply Z.div_le_upper_bound; lia); try lia.
  - rewrite <- (strips fst Xl_x line_x (cross_x RA) cr_x (in_left RA) (in_right RA) sp_left sp_right phi Hphi ltac:(intros c; exists (c, 0); reflexivity) P xs Hx).
    assert (E : forall f g l, (forall a b, f a b = g a b) -> over_cells f l = over_cells g l).
    { intros f g l H. induction l as [|a [|b l] IH]; auto. rewrite !over_step, H. f_equal. exact IH. }
    apply E. intros a b. unfold box_cut.
    apply (strips snd Xl_y line_y (cross_y RA) cr_y (in_bottom RA) (in_top RA) sp_bottom sp_top phi Hphi ltac:(intros c; exists (0, c); reflexivity) (RIGHT b (LEFT a P)) ys).
    destruct Hy as (H1 & H2 & H3). split; auto. split; auto. intros v Hv. apply in_map_iff in Hv. destruct Hv as (p & <- & Hp).
    split.
    + revert p Hp. apply (right_K _ _ _ (ge_y _)), (left_K _ _ _ (ge_y _)). intros p Hp. apply (H3 (snd p)). now apply in_map.
    + revert p Hp. apply (right_K _ _ _ (le_y _)), (left_K _ _ _ (le_y _)). intros p Hp. apply (H3 (snd p)). now apply in_map.
Qed.
Print Assumptions C27_clip_conserves.

(** The plane area and the area on the sphere (the exact form of the terms that
    poly_area adds up, mosaic_util.c:434-451) are such functionals. *)
Definition shoelace (a b : point) : R := (fst a * snd b - fst b * snd a) / 2.
Example C27_shoelace : edge_integral shoelace.
Proof. split. - intros a b. unfold shoelace. lra. - intros a b v (t & _ & ->). unfold shoelace. cbn [fst snd]. field. Qed.
Definition sphere (a b : point) : R := - (fst b - fst a) * (if Req_EM_T (snd a) (snd b) then sin (snd a) else (cos (snd a) - cos (snd b)) / (snd b - snd a)).
Example C27_sphere : edge_integral sphere.
Proof.
  split.
  - intros a b. unfold sphere. destruct (Req_EM_T (snd a) (snd b)) as [E|E]; destruct (Req_EM_T (snd b) (snd a)); try lra. + rewrite E. lra. + field. lra.
  - intros a b v (t & Ht & ->). unfold sphere. cbn [fst snd]. set (x0 := fst a). set (x1 := fst b). set (y0 := snd a). set (y1 := snd b).
    destruct (Req_EM_T y0 y1) as [E|E].
    + rewrite E. replace (y1 + t * (y1 - y1)) with y1 by ring. destruct (Req_EM_T y1 y1); [|contradiction]. ring.
    + destruct (Req_dec t 0) as [->|T0]. { replace (y0 + 0 * (y1 - y0)) with y0 by ring. destruct (Req_EM_T y0 y0); [|contradiction]. destruct (Req_EM_T y0 y1); [lra|]. field. lra. }
      destruct (Req_dec t 1) as [->|T1]. { replace (y0 + 1 * (y1 - y0)) with y1 by ring. destruct (Req_EM_T y0 y1); [lra|]. destruct (Req_EM_T y1 y1); [|contradiction]. field. lra. }
      assert (N1 : y0 <> y0 + t * (y1 - y0)). { intros K. assert (K2 : t * (y1 - y0) = 0) by lra. apply Rmult_integral in K2. lra. }
      assert (N2 : y0 + t * (y1 - y0) <> y1). { intros K. assert (K2 : (t - 1) * (y1 - y0) = 0) by lra. apply Rmult_integral in K2. lra. }
      destruct (Req_EM_T y0 (y0 + t * (y1 - y0))); [contradiction|]. destruct (Req_EM_T (y0 + t * (y1 - y0)) y1); [contradiction|].
      set (cm := cos (y0 + t * (y1 - y0))). assert (1 - t <> 0) by lra. assert (y1 - y0 <> 0) by lra. field_simplify_eq; [ring|]. repeat split; lra || (intros K; apply N1; lra) || (intros K; apply N2; lra) || auto.
Qed.
Example C27_example : edges_cover [0; 1; 3] (map fst [(0, 0); (3, 1); (2, 4)]) /\ edges_cover [0; 2; 5] (map snd [(0, 0); (3, 1); (2, 4)]).
Proof.
  split; (split; [cbn; lia|]; split; [repeat constructor; lra|]); cbn [map fst snd hd last In]; intros v Hv; repeat (destruct Hv as [<-|Hv]; [lra|]); contradiction.
Qed.
