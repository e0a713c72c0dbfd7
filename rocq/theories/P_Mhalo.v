(** * Proofs about the halo exchange: the loops of one boundary *)
From Coq Require Import Reals Lia.
From Verif Require Import Base Loops Vec Lst Spec_Interp P_Interp M_Mhalo Spec_Mhalo.
Local Open Scope Z_scope.

Lemma direction_ok nx ny d e : on_side nx ny d e -> direction e = Ok d.
Proof.
  unfold on_side, direction. destruct d; intros H;
    repeat (match goal with |- context [?a =? ?b] => destruct (Z.eqb_spec a b); cbn [andb negb] end); auto; try lia.
Qed.

(** Points in the order in which the halo is filled. *)
Definition ord (asc : bool) (m : Z) : list Z := if asc then zseq 0 m else rev (zseq 0 m).
Lemma rev_ord asc m : rev (ord asc m) = ord (negb asc) m.
Proof. destruct asc; cbn; auto. apply rev_involutive. Qed.
Lemma In_ord asc m s : In s (ord asc m) <-> 0 <= s < m.
Proof. destruct asc; cbn [ord]; [|rewrite <- in_rev]; rewrite In_zseq; lia. Qed.
Lemma zseq_shift a m : zseq a m = map (fun s => a + s) (zseq 0 m).
Proof.
  destruct (Z.le_gt_cases 0 m) as [H|H]. 2:{ rewrite !zseq_nonpos by lia. reflexivity. }
  assert (G : forall k, 0 <= k -> zseq a k = map (fun s => a + s) (zseq 0 k)); [|apply G; auto]. apply natlike_ind; [reflexivity|].
  intros k Hk IH. unfold Z.succ. rewrite !zseq_snoc by lia. rewrite map_app, IH. reflexivity.
Qed.
Lemma zseq_rev a m : 0 <= m -> zseq a m = map (fun s => a + m - 1 - s) (rev (zseq 0 m)).
Proof.
  intros H. revert a. apply (natlike_ind (fun m => forall a, zseq a m = map (fun s => a + m - 1 - s) (rev (zseq 0 m)))); auto; clear m H.
  intros k Hk IH a. unfold Z.succ. rewrite (zseq_snoc 0), rev_app_distr by lia. cbn [rev app map]. rewrite (zseq_S a) by lia. f_equal; [lia|].
  replace (k + 1 - 1) with k by lia. rewrite IH. apply map_ext. intros s. lia.
Qed.
Lemma up_along sh a b : 0 <= sh -> a <> b -> upto (Z.min a b + 1) (Z.max a b + 1 + sh) = map (fun s => along sh a b s + 1) (ord (a <? b) (Z.abs (b - a) + 1 + sh)).
Proof.
  intros Hs N. unfold upto, along. replace (Z.max a b + 1 + sh - (Z.min a b + 1) + 1) with (Z.abs (b - a) + 1 + sh) by lia. destruct (Z.ltb_spec a b); cbn [ord].
  - rewrite zseq_shift. apply map_ext. intros s. lia.
  - rewrite zseq_rev by lia. apply map_ext. intros s. lia.
Qed.
Lemma up_one c : upto c c = [c].
Proof. unfold upto. replace (c - c + 1) with 1 by lia. reflexivity. Qed.
Lemma flat_map_one {A B} (f : A -> B) l : flat_map (fun j => [f j]) l = map f l.
Proof. induction l; cbn; congruence. Qed.

Definition asc_of (d : dirn) (e : cend) : bool := match d with WEST | EAST => e_js e <? e_je e | _ => e_is e <? e_ie e end.
Definition pairs (nz m : Z) (asc : bool) : list (Z * Z) := flat_map (fun k => map (fun s => (k, s)) (ord asc m)) (zseq 0 nz).
Lemma In_pairs nz m asc k s : In (k, s) (pairs nz m asc) <-> 0 <= k < nz /\ 0 <= s < m.
Proof.
  unfold pairs. rewrite in_flat_map. split.
  - intros (k' & Hk & H). apply in_map_iff in H. destruct H as (s' & E & H). injection E as <- <-. apply In_ord in H. apply In_zseq in Hk. lia.
  - intros (Hk & Hs). exists k. split; [apply In_zseq; lia|]. apply in_map_iff. exists s. split; auto. now apply In_ord.
Qed.
Lemma flat_map_pairs {B} (f : Z -> Z -> B) nz m asc : flat_map (fun k => map (f k) (ord asc m)) (zseq 0 nz) = map (fun x => f (fst x) (snd x)) (pairs nz m asc).
Proof. unfold pairs. induction (zseq 0 nz) as [|k l IH]; cbn; auto. rewrite map_app, <- IH. f_equal. rewrite map_map. reflexivity. Qed.

Definition spot (p : Z * Z) (k : Z) : Z * Z * Z := (k, snd p + 1, fst p + 1).

Section One.
  Variables (sh nz nx1 ny1 nx2 ny2 : Z) (d d2 : dirn) (e e2 : cend).
  Hypotheses (Hsh : sh = 0 \/ sh = 1) (S1 : on_side nx1 ny1 d e) (S2 : on_side nx2 ny2 d2 e2).
  Let m := points sh e.
  Hypothesis LEN : points 0 e = points 0 e2.
  Hypothesis OR : counterclockwise d e <-> ~ counterclockwise d2 e2.
  Hypothesis HD : handled d d2.
  Hypothesis DEP : match d2 with EAST => nx1 = nx2 | NORTH => ny1 = ny2 | _ => True end.

  Lemma filled_pairs b : (is1 b, ie1 b, js1 b, je1 b) = own_part nx1 ny1 1 sh d e ->
    filled nz b = map (fun x => spot (outward 1 d (point sh nx1 ny1 d e (snd x))) (fst x)) (pairs nz m (asc_of d e)).
  Proof.
    intros E. rewrite <- (flat_map_pairs (fun k s => spot (outward 1 d (point sh nx1 ny1 d e s)) k)). unfold filled. apply flat_map_ext. intros k.
    assert (Hs : 0 <= sh) by lia. unfold m, points.
    destruct d; cbn [own_part] in E; apply pair_equal_spec in E as (E & ->); apply pair_equal_spec in E as (E & ->); apply pair_equal_spec in E as (-> & ->); cbn [on_side] in S1; unfold asc_of.
    - change (1 - 1) with 0. rewrite up_one. cbn [map]. rewrite flat_map_one, up_along by (auto; tauto). rewrite map_map. replace (Z.abs (e_ie e - e_is e)) with 0 by lia. apply map_ext. intros s. unfold spot, point, outward. cbn [fst snd]. f_equal; lia.
    - replace (nx1 + sh + 1 + 1 - 1) with (nx1 + sh + 1) by lia. rewrite up_one. cbn [map]. rewrite flat_map_one, up_along by (auto; tauto). rewrite map_map. replace (Z.abs (e_ie e - e_is e)) with 0 by lia. apply map_ext. intros s. unfold spot, point, outward. cbn [fst snd]. f_equal; lia.
    - change (1 - 1) with 0. rewrite up_one. cbn [flat_map]. rewrite app_nil_r, up_along by (auto; tauto). rewrite map_map. replace (Z.abs (e_je e - e_js e)) with 0 by lia. rewrite Z.add_0_r. apply map_ext. intros s. unfold spot, point, outward. cbn [fst snd]. f_equal; f_equal; lia.
    - replace (ny1 + sh + 1 + 1 - 1) with (ny1 + sh + 1) by lia. rewrite up_one. cbn [flat_map]. rewrite app_nil_r, up_along by (auto; tauto). rewrite map_map. replace (Z.abs (e_je e - e_js e)) with 0 by lia. rewrite Z.add_0_r. apply map_ext. intros s. unfold spot, point, outward. cbn [fst snd]. f_equal; f_equal; lia.
  Qed.

  Lemma visited_pairs b : (is2 b, ie2 b, js2 b, je2 b) = other_part nx1 ny1 1 sh d2 e2 -> b_rot b = rotation_of d d2 ->
    visited nz b = map (fun x => spot (inward sh d2 (point sh nx2 ny2 d2 e2 (snd x))) (fst x)) (pairs nz m (asc_of d e)).
  Proof.
    intros E ER. rewrite <- (flat_map_pairs (fun k s => spot (inward sh d2 (point sh nx2 ny2 d2 e2 s)) k)). unfold visited. apply flat_map_ext. intros k.
    assert (Hs : 0 <= sh) by lia. assert (M : m = points sh e2) by (unfold m, points in *; lia). rewrite M. unfold points. rewrite ER.
    assert (AS : asc_of d e = if match rotation_of d d2 with ZERO => true | _ => false end then asc_of d2 e2 else negb (asc_of d2 e2)).
    { clear - S1 S2 OR HD. unfold asc_of, counterclockwise, handled, on_side in *. destruct d, d2; cbn [rotation_of]; try contradiction;
        repeat (match goal with |- context [?a <? ?b] => destruct (Z.ltb_spec a b) end); cbn; auto; exfalso; lia. }
    rewrite AS. clear AS. clear M. 
    destruct d2; cbn [other_part] in E; apply pair_equal_spec in E as (E & ->); apply pair_equal_spec in E as (E & ->); apply pair_equal_spec in E as (-> & ->); cbn [on_side] in S2; unfold asc_of.
    - replace (1 + sh + 1 - 1) with (1 + sh) by lia. rewrite up_along by (auto; tauto). rewrite up_one. replace (Z.abs (e_ie e2 - e_is e2)) with 0 by lia.
      destruct d; cbn [rotation_of handled] in *; try contradiction; cbn [rev app flat_map map].
      + rewrite flat_map_one, map_map. apply map_ext. intros s. unfold spot, point, inward, outward. cbn [fst snd]. f_equal; lia.
      + rewrite flat_map_one, map_map. apply map_ext. intros s. unfold spot, point, inward, outward. cbn [fst snd]. f_equal; lia.
      + rewrite app_nil_r, <- map_rev, rev_ord, map_map. apply map_ext. intros s. unfold spot, point, inward, outward. cbn [fst snd]. f_equal; lia.
    - replace (nx1 - 1 + 1) with nx1 by lia. rewrite up_along by (auto; tauto). rewrite up_one. replace (Z.abs (e_ie e2 - e_is e2)) with 0 by lia.
      destruct d; cbn [rotation_of handled] in *; try contradiction; cbn [rev app flat_map map].
      + rewrite flat_map_one, map_map. apply map_ext. intros s. unfold spot, point, inward, outward. cbn [fst snd]. f_equal; lia.
      + rewrite app_nil_r, <- map_rev, rev_ord, map_map. apply map_ext. intros s. unfold spot, point, inward, outward. cbn [fst snd]. f_equal; lia.
      + rewrite flat_map_one, map_map. apply map_ext. intros s. unfold spot, point, inward, outward. cbn [fst snd]. f_equal; lia.
    - replace (1 + sh + 1 - 1) with (1 + sh) by lia. rewrite up_along by (auto; tauto). rewrite up_one. replace (Z.abs (e_je e2 - e_js e2)) with 0 by lia. rewrite Z.add_0_r.
      destruct d; cbn [rotation_of handled] in *; try contradiction; cbn [rev app flat_map map].
      + rewrite app_nil_r, map_map. apply map_ext. intros s. unfold spot, point, inward, outward. cbn [fst snd]. f_equal; f_equal; lia.
      + rewrite flat_map_one, <- map_rev, rev_ord, map_map. apply map_ext. intros s. unfold spot, point, inward, outward. cbn [fst snd]. f_equal; f_equal; lia.
      + rewrite app_nil_r, map_map. apply map_ext. intros s. unfold spot, point, inward, outward. cbn [fst snd]. f_equal; f_equal; lia.
    - replace (ny1 - 1 + 1) with ny1 by lia. rewrite up_along by (auto; tauto). rewrite up_one. replace (Z.abs (e_je e2 - e_js e2)) with 0 by lia. rewrite Z.add_0_r.
      destruct d; cbn [rotation_of handled] in *; try contradiction; cbn [rev app flat_map map].
      + rewrite flat_map_one, <- map_rev, rev_ord, map_map. apply map_ext. intros s. unfold spot, point, inward, outward. cbn [fst snd]. f_equal; f_equal; lia.
      + rewrite app_nil_r, map_map. apply map_ext. intros s. unfold spot, point, inward, outward. cbn [fst snd]. f_equal; f_equal; lia.
      + rewrite app_nil_r, map_map. apply map_ext. intros s. unfold spot, point, inward, outward. cbn [fst snd]. f_equal; f_equal; lia.
      + rewrite app_nil_r, <- map_rev, rev_ord, map_map. apply map_ext. intros s. unfold spot, point, inward, outward. cbn [fst snd]. f_equal; f_equal; lia.
  Qed.
End One.

(** Where the points are. *)
Lemma along_range sh a b s lo hi : 0 <= sh -> lo <= a < hi -> lo <= b < hi -> 0 <= s < Z.abs (b - a) + 1 + sh -> lo <= along sh a b s < hi + sh.
Proof. intros. unfold along. destruct (Z.ltb_spec a b); lia. Qed.
Lemma halo_range sh nx ny d e s : 0 <= sh -> 1 <= nx -> 1 <= ny -> on_side nx ny d e -> 0 <= s < points sh e ->
  let p := outward 1 d (point sh nx ny d e s) in -1 <= fst p <= nx + sh /\ -1 <= snd p <= ny + sh /\ (fst p = -1 \/ fst p = nx + sh \/ snd p = -1 \/ snd p = ny + sh).
Proof.
  intros Hs Hx Hy S P. unfold points in P. destruct d; cbn [on_side point outward fst snd] in *.
  - pose proof (along_range sh (e_js e) (e_je e) s 0 ny). lia.
  - pose proof (along_range sh (e_js e) (e_je e) s 0 ny). lia.
  - pose proof (along_range sh (e_is e) (e_ie e) s 0 nx). lia.
  - pose proof (along_range sh (e_is e) (e_ie e) s 0 nx). lia.
Qed.
Lemma inner_range sh nx ny d e s : sh = 0 \/ sh = 1 -> 1 <= nx -> 1 <= ny -> on_side nx ny d e -> 0 <= s < points sh e ->
  let p := inward sh d (point sh nx ny d e s) in 0 <= fst p < nx + sh /\ 0 <= snd p < ny + sh.
Proof.
  intros Hs Hx Hy S P. unfold points in P. unfold inward. destruct d; cbn [on_side point outward fst snd] in *.
  - pose proof (along_range sh (e_js e) (e_je e) s 0 ny). lia.
  - pose proof (along_range sh (e_js e) (e_je e) s 0 ny). lia.
  - pose proof (along_range sh (e_is e) (e_ie e) s 0 nx). lia.
  - pose proof (along_range sh (e_is e) (e_ie e) s 0 nx). lia.
Qed.
Lemma halo_inj sh nx ny d e s t : outward 1 d (point sh nx ny d e s) = outward 1 d (point sh nx ny d e t) -> s = t.
Proof. unfold outward, point, along. destruct d; cbn [fst snd]; intros E; injection E; intros; match goal with H : context [if ?a <? ?b then _ else _] |- _ => destruct (a <? b) end; lia. Qed.

(** Index of a point in the array with halo. *)
Lemma spot_place w h p k : place w h (spot p k) = k * (w * h) + (snd p + 1) * w + (fst p + 1).
Proof. reflexivity. Qed.
Lemma spot_range w h nz k i j : 0 <= i < w -> 0 <= j < h -> 0 <= k < nz -> 0 <= k * (w * h) + j * w + i < nz * (w * h).
Proof. intros. assert (0 <= j * w + i < w * h) by nia. nia. Qed.
Lemma spot_inj w h k i j k' i' j' : 0 <= i < w -> 0 <= j < h -> 0 <= i' < w -> 0 <= j' < h ->
  k * (w * h) + j * w + i = k' * (w * h) + j' * w + i' -> k = k' /\ j = j' /\ i = i'.
Proof.
  intros. assert (0 <= j * w + i < w * h) by nia. assert (0 <= j' * w + i' < w * h) by nia.
  destruct (rowmajor_inj (w * h) k (j * w + i) k' (j' * w + i')) as (A & B); auto; [lia|]. split; auto. apply (rowmajor_inj w); auto.
Qed.

(** Buffers. *)
Lemma fill_run {A} (pos : A -> Z) src L : forall buf, (forall x, In x L -> 0 <= pos x < zlen src) ->
  ofold (fun buf x => do v <- oget src (pos x) ; Ok (buf ++ [v])) L buf = Ok (buf ++ map (fun x => at_ src (pos x)) L).
Proof.
  induction L as [|x L IH]; intros buf H; cbn [ofold map]; [now rewrite app_nil_r|]. rewrite get_at by (apply H; now left). cbn [bind]. rewrite IH by (intros; apply H; now right). now rewrite <- app_assoc.
Qed.
Lemma oset_at (l : list R) i v : 0 <= i < zlen l -> exists l', oset l i v = Ok l' /\ zlen l' = zlen l /\ at_ l' i = v /\ forall j, j <> i -> 0 <= j < zlen l -> at_ l' j = at_ l j.
Proof.
  intros Hi. destruct (vec_set l (zlen l) (at_ l) (fun j => if j =? i then v else at_ l j) i v (vec_at l) Hi) as (l' & E & V). { intros; reflexivity. }
  exists l'. split; auto. split; [exact (proj1 V)|]. split; [rewrite (vec_at_ _ _ _ _ V Hi), Z.eqb_refl; auto|]. intros j N Hj. rewrite (vec_at_ _ _ _ _ V Hj). destruct (Z.eqb_spec j i); congruence.
Qed.
Lemma empty_run {A} (pos : A -> Z) (v : A -> R) L : forall pre data, (forall x, In x L -> 0 <= pos x < zlen data) -> (forall x y, In x L -> In y L -> pos x = pos y -> v x = v y) ->
  exists data' c, ofold (fun '(data, l) x => do w <- oget (pre ++ map v L) l ; do data <- oset data (pos x) w ; Ok (data, l + 1)) L (data, zlen pre) = Ok (data', c)
    /\ zlen data' = zlen data /\ (forall x, In x L -> at_ data' (pos x) = v x) /\ (forall q, 0 <= q < zlen data -> (forall x, In x L -> pos x <> q) -> at_ data' q = at_ data q).
Proof.
  induction L as [|x L IH]; intros pre data HP HI; cbn [ofold map].
  - exists data, (zlen pre). repeat split; auto. intros x [].
  - assert (EG : oget (pre ++ v x :: map v L) (zlen pre) = Ok (v x)). { apply oget_Ok. rewrite zget_app_r by lia. rewrite Z.sub_diag. reflexivity. }
    rewrite EG. cbn [bind]. destruct (oset_at data (pos x) (v x) (HP x (or_introl eq_refl))) as (d1 & -> & L1 & A1 & A2). cbn [bind].
    destruct (IH (pre ++ [v x]) d1) as (d2 & c & E & L2 & B1 & B2).
    + intros y Hy. rewrite L1. apply HP. now right.
    + intros y z Hy Hz. apply HI; now right.
    + rewrite zlen_app in E. change (zlen [v x]) with 1 in E. rewrite <- app_assoc in E. cbn [app] in E. exists d2, c. split; [exact E|]. split; [lia|]. split.
      * intros y [<-|Hy]; [|now apply B1].
        assert (DEC : (exists y, In y L /\ pos y = pos x) \/ forall y, In y L -> pos y <> pos x).
        { clear. induction L as [|z L IHL]; [right; intros y []|]. destruct (Z.eq_dec (pos z) (pos x)); [left; exists z; split; [now left|auto]|]. destruct IHL as [(y & Hy & Ey)|N]; [left; exists y; split; [now right|auto]|]. right. intros y [<-|Hy]; auto. }
        destruct DEC as [(y & Hy & Ey)|N].
        -- rewrite <- Ey, B1 by auto. apply HI; [now right|now left|auto].
        -- rewrite B2; auto. rewrite L1. apply HP. now left.
      * intros q Hq N. rewrite B2; [|rewrite L1; auto|intros y Hy; apply N; now right]. apply A2; auto. intros ->. now apply (N x (or_introl eq_refl)).
Qed.
