(** * Proofs about make_coupler_mosaic: loops, polygons and search ranges *)
From Coq Require Import Reals Lra.
From Verif Require Import Base Loops Vec P_Interp P_Interp2 P_RemapLand4 M_Interp Spec_Interp M_Coupler Spec_Coupler.
Open Scope Z_scope.

(** ** Lists and loops *)
Lemma oget_at l i : 0 <= i < zlen l -> oget l i = Ok (at_ l i).
Proof.
  intros H. destruct (zget_in_range l i H) as (v & E). rewrite (proj2 (oget_Ok _ _ _) E). f_equal. unfold at_.
  unfold zget in E. destruct (i <? 0); [discriminate|]. now rewrite (nth_error_nth _ _ _ E).
Qed.
Lemma oget_tile l n : 0 <= n < zlen l -> oget l n = Ok (tile_at l n).
Proof.
  intros H. destruct (zget_in_range l n H) as (v & E). rewrite (proj2 (oget_Ok _ _ _) E). f_equal. unfold tile_at.
  unfold zget in E. destruct (n <? 0); [discriminate|]. now rewrite (nth_error_nth _ _ _ E).
Qed.
Lemma oget_nth {A} (l : list A) d n : 0 <= n < zlen l -> oget l n = Ok (nth (Z.to_nat n) l d).
Proof.
  intros H. destruct (zget_in_range l n H) as (v & E). rewrite (proj2 (oget_Ok _ _ _) E). f_equal.
  unfold zget in E. destruct (n <? 0); [discriminate|]. now rewrite (nth_error_nth _ _ _ E).
Qed.
Lemma ofold_flat_map {A B S} (f : S -> B -> outcome S) (h : A -> list B) l s : ofold f (flat_map h l) s = ofold (fun s x => ofold f (h x) s) l s.
Proof. revert s. induction l as [|a l IH]; intros s; cbn; auto. rewrite ofold_app. destruct (ofold f (h a) s); cbn; auto. Qed.
Lemma ofold_map_in {A B S} (f : S -> B -> outcome S) (h : A -> B) l s : ofold f (map h l) s = ofold (fun s x => f s (h x)) l s.
Proof. revert s. induction l as [|a l IH]; intros s; cbn; auto. destruct (f s (h a)); cbn; auto. Qed.
Lemma ofold_cap {A B} (step : list B -> A -> outcome (list B)) (out : A -> list B) cap l acc :
  (forall acc x, In x l -> zlen (acc ++ out x) <= cap -> step acc x = Ok (acc ++ out x)) ->
  zlen (acc ++ flat_map out l) <= cap -> ofold step l acc = Ok (acc ++ flat_map out l).
Proof.
  revert acc. induction l as [|a l IH]; intros acc H C; cbn [ofold flat_map] in *; [now rewrite app_nil_r|].
  rewrite app_assoc in C. rewrite H by (cbn; auto || (rewrite zlen_app in C; pose proof (zlen_nonneg (flat_map out l)); lia)). cbn [bind].
  rewrite IH; auto; [now rewrite app_assoc|]. intros; apply H; cbn; auto.
Qed.

Definition rect (js je is ie : Z) : list (Z * Z) := flat_map (fun j => map (fun i => (i, j)) (zseq is (ie - is + 1))) (zseq js (je - js + 1)).
Lemma over_rect {S} js je is ie (f : S -> Z -> Z -> outcome S) s : over js je is ie f s = ofold (fun s c => f s (fst c) (snd c)) (rect js je is ie) s.
Proof.
  unfold over, rect. rewrite ofold_flat_map. unfold ofor. apply ofold_ext. intros s' j Hj. rewrite ofold_map_in. reflexivity.
Qed.
Lemma In_rect i j js je is ie : In (i, j) (rect js je is ie) <-> is <= i <= ie /\ js <= j <= je.
Proof.
  unfold rect. rewrite in_flat_map. split.
  - intros (j' & Hj & Hi). apply in_map_iff in Hi. destruct Hi as (i' & E & Hi). injection E as <- <-. apply In_zseq in Hi, Hj. lia.
  - intros (Hi & Hj). exists j. split; [apply In_zseq; lia|]. apply in_map_iff. exists i. split; auto. apply In_zseq. lia.
Qed.
Lemma In_cells t i j : In (i, j) (cells t) <-> 0 <= i < t_nx t /\ 0 <= j < t_ny t.
Proof.
  unfold cells. rewrite in_flat_map. split.
  - intros (j' & Hj & Hi). apply in_map_iff in Hi. destruct Hi as (i' & E & Hi). injection E as <- <-. apply In_zseq in Hi, Hj. lia.
  - intros (Hi & Hj). exists j. split; [apply In_zseq; lia|]. apply in_map_iff. exists i. split; auto. apply In_zseq. lia.
Qed.
Lemma cells_rect t : cells t = rect 0 (t_ny t - 1) 0 (t_nx t - 1).
Proof. unfold cells, rect. do 2 f_equal; [|f_equal; lia]. replace (t_nx t - 1 - 0 + 1) with (t_nx t) by lia. reflexivity. Qed.
Lemma zseq_rows nj ni : 0 <= nj -> 0 < ni -> zseq 0 (nj * ni) = flat_map (fun j => map (fun i => j * ni + i) (zseq 0 ni)) (zseq 0 nj).
Proof.
  intros Hj Hi. pattern nj. apply natlike_ind; auto. intros m Hm IH. unfold Z.succ. rewrite zseq_snoc by lia. rewrite flat_map_app, <- IH. cbn [flat_map]. rewrite app_nil_r, Z.add_0_l.
  replace ((m + 1) * ni) with (m * ni + ni) by lia. rewrite zseq_app by nia. f_equal. rewrite Z.add_0_l. apply zseq_map.
Qed.
Lemma cells_la t : 0 < t_nx t -> 0 <= t_ny t -> map (fun la => (la mod t_nx t, la / t_nx t)) (zseq 0 (t_nx t * t_ny t)) = cells t.
Proof.
  intros Hx Hy. rewrite Z.mul_comm, zseq_rows by lia. rewrite map_flat_map. unfold cells. apply flat_map_ext_in. intros j Hj. rewrite map_map. apply map_ext_in.
  intros i Hi. apply In_zseq in Hi, Hj. rewrite rowmajor_mod, rowmajor_div by lia. reflexivity.
Qed.
Lemma In_la t la : 0 < t_nx t -> 0 <= la < t_nx t * t_ny t -> In (la mod t_nx t, la / t_nx t) (cells t).
Proof. intros Hx H. apply In_cells. pose proof (divmod_range (t_ny t) (t_nx t) la ltac:(lia) ltac:(lia)). lia. Qed.

(** Rows without a contribution can be left out. *)
Lemma flat_map_rows {B} (f : Z * Z -> list B) t js je : 0 <= js -> je <= t_ny t - 1 ->
  (forall i j, In (i, j) (cells t) -> j < js \/ je < j -> f (i, j) = []) ->
  flat_map f (rect js je 0 (t_nx t - 1)) = flat_map f (cells t).
Proof.
  intros H0 H1 H. rewrite cells_rect. unfold rect. rewrite !flat_map_nested.
  set (F := fun j => flat_map f (map (fun i => (i, j)) (zseq 0 (t_nx t - 1 - 0 + 1)))).
  assert (forall j, 0 <= j < t_ny t -> j < js \/ je < j -> F j = []) as HF.
  { intros j Hj Hr. apply flat_map_empty. intros (i', j') Hi. apply in_map_iff in Hi. destruct Hi as (i & E & Hi). injection E as <- <-.
    apply In_zseq in Hi. apply H; auto. apply In_cells. lia. }
  change (flat_map F (zseq js (je - js + 1)) = flat_map F (zseq 0 (t_ny t - 1 - 0 + 1))).
  destruct (Z_le_gt_dec js (je + 1)) as [L|L].
  - replace (t_ny t - 1 - 0 + 1) with (js + ((je - js + 1) + (t_ny t - 1 - je))) by lia. rewrite (zseq_app 0 js) by lia. rewrite (zseq_app (0 + js) (je - js + 1)) by lia. rewrite !flat_map_app.
    rewrite (flat_map_empty F (zseq 0 js)) by (intros j Hj; apply In_zseq in Hj; apply HF; lia).
    rewrite (flat_map_empty F (zseq (0 + js + (je - js + 1)) _)) by (intros j Hj; apply In_zseq in Hj; apply HF; lia).
    now rewrite app_nil_r.
  - rewrite zseq_nonpos by lia. cbn [flat_map]. symmetry. apply flat_map_empty. intros j Hj. apply In_zseq in Hj. apply HF; lia.
Qed.
Lemma rsum_flat {A B} (f : B -> R) (h : A -> list B) l : rsum f (flat_map h l) = rsum (fun x => rsum f (h x)) l.
Proof. induction l as [|a l IH]; auto. cbn [flat_map]. rewrite rsum_app, rsum_cons, IH. reflexivity. Qed.
Lemma rsum_all_zero {A} (f : A -> R) l : (forall x, In x l -> f x = 0%R) -> rsum f l = 0%R.
Proof. intros H. rewrite (rsum_ext f (fun _ => 0%R)); auto. apply rsum_zero. Qed.
Lemma rsum_rows (f : Z * Z -> R) t js je : 0 <= js -> je <= t_ny t - 1 ->
  (forall i j, In (i, j) (cells t) -> j < js \/ je < j -> f (i, j) = 0%R) ->
  rsum f (rect js je 0 (t_nx t - 1)) = rsum f (cells t).
Proof.
  intros H0 H1 H. rewrite cells_rect. unfold rect. rewrite !rsum_flat.
  set (F := fun j => rsum f (map (fun i => (i, j)) (zseq 0 (t_nx t - 1 - 0 + 1)))).
  assert (forall j, 0 <= j < t_ny t -> j < js \/ je < j -> F j = 0%R) as HF.
  { intros j Hj Hr. apply rsum_all_zero. intros (i', j') Hi. apply in_map_iff in Hi. destruct Hi as (i & E & Hi). injection E as <- <-.
    apply In_zseq in Hi. apply H; auto. apply In_cells. lia. }
  change (rsum F (zseq js (je - js + 1)) = rsum F (zseq 0 (t_ny t - 1 - 0 + 1))).
  destruct (Z_le_gt_dec js (je + 1)) as [L|L].
  - replace (t_ny t - 1 - 0 + 1) with (js + ((je - js + 1) + (t_ny t - 1 - je))) by lia. rewrite (zseq_app 0 js) by lia. rewrite (zseq_app (0 + js) (je - js + 1)) by lia. rewrite !rsum_app.
    rewrite (rsum_all_zero F (zseq 0 js)) by (intros j Hj; apply In_zseq in Hj; apply HF; lia).
    rewrite (rsum_all_zero F (zseq (0 + js + (je - js + 1)) _)) by (intros j Hj; apply In_zseq in Hj; apply HF; lia).
    rewrite Z.add_0_l. lra.
  - rewrite zseq_nonpos by lia. change (rsum F []) with 0%R. symmetry. apply rsum_all_zero. intros j Hj. apply In_zseq in Hj. apply HF; lia.
Qed.

(** ** Minimum, maximum, mean *)
Lemma fold_min_le l x : (fold_left (fun m d => if rlt d m then d else m) l x <= x)%R.
Proof. revert x. induction l as [|a l IH]; intros x; cbn; [lra|]. destruct (rlt_spec a x); [specialize (IH a)|specialize (IH x)]; lra. Qed.
Lemma fold_max_ge l x : (x <= fold_left (fun m d => if rlt m d then d else m) l x)%R.
Proof. revert x. induction l as [|a l IH]; intros x; cbn; [lra|]. destruct (rlt_spec x a); [specialize (IH a)|specialize (IH x)]; lra. Qed.
Lemma minval_le l v : In v l -> (minval l <= v)%R.
Proof.
  destruct l as [|x l]; [easy|]. cbn [minval]. intros [->|H]; [apply fold_min_le|]. revert x. induction l as [|a l IH]; [easy|]. intros x. cbn. destruct H as [->|H].
  - destruct (rlt_spec v x); [apply fold_min_le|]. pose proof (fold_min_le l x). lra.
  - apply IH; auto.
Qed.
Lemma maxval_ge l v : In v l -> (v <= maxval l)%R.
Proof.
  destruct l as [|x l]; [easy|]. cbn [maxval]. intros [->|H]; [apply fold_max_ge|]. revert x. induction l as [|a l IH]; [easy|]. intros x. cbn. destruct H as [->|H].
  - destruct (rlt_spec x v); [apply fold_max_ge|]. pose proof (fold_max_ge l x). lra.
  - apply IH; auto.
Qed.
Lemma avgval_mean l : avgval l = mean l.
Proof.
  unfold avgval, mean. f_equal. assert (forall x, fold_left Rplus l x = (x + rsum (fun x => x) l)%R) as H.
  { induction l as [|a l IH]; intros x; [change (x = x + 0)%R; lra|]. cbn [fold_left]. rewrite IH, rsum_cons. lra. }
  rewrite H. lra.
Qed.
Lemma box_lon p q : (maxval (xs p) <= minval (xs q))%R -> apart_lon p q.
Proof.
  intros H. exists (maxval (xs p)). split; intros v Hv.
  - apply maxval_ge. now apply in_map.
  - pose proof (minval_le (xs q) (fst v) (in_map fst _ _ Hv)). lra.
Qed.
Lemma box_lat p q : (maxval (ys p) <= minval (ys q))%R -> apart_lat p q.
Proof.
  intros H. exists (maxval (ys p)). split; intros v Hv.
  - apply maxval_ge. now apply in_map.
  - pose proof (minval_le (ys q) (snd v) (in_map snd _ _ Hv)). lra.
Qed.
Lemma apart_boxed g p a q : sound g -> boxed p a -> apart a q -> apart p q.
Proof.
  intros _ B [(c & H1 & H2)|[(c & H1 & H2)|[(c & H1 & H2)|(c & H1 & H2)]]]; destruct (B c) as (B1 & B2 & B3 & B4).
  - left. exists c. auto.
  - right. left. exists c. auto.
  - right. right. left. exists c. auto.
  - right. right. right. exists c. auto.
Qed.

(** ** Cells *)
Lemma corners_run t i j : proper t -> In (i, j) (cells t) -> corners t i j = Ok (quad t (i, j)).
Proof.
  intros (Hx & Hy & Lx & Ly & _) H. apply In_cells in H. unfold corners, vertex.
  assert (forall a b, 0 <= a <= 1 -> 0 <= b <= 1 -> 0 <= (j + b) * (t_nx t + 1) + (i + a) < (t_nx t + 1) * (t_ny t + 1)) as R by (intros; nia).
  pose proof (R 0 0 ltac:(lia) ltac:(lia)). pose proof (R 1 0 ltac:(lia) ltac:(lia)). pose proof (R 1 1 ltac:(lia) ltac:(lia)). pose proof (R 0 1 ltac:(lia) ltac:(lia)).
  rewrite !oget_at by lia. cbn [bind]. unfold quad, point. rewrite <- !Z.add_assoc. reflexivity.
Qed.
Lemma quad_4 t c : length (quad t c) = 4%nat.
Proof. destruct c. reflexivity. Qed.
Lemma size_get t i j : proper t -> In (i, j) (cells t) -> oget (t_area t) (j * t_nx t + i) = Ok (size t (i, j)).
Proof. intros (Hx & Hy & _ & _ & L & _) H. apply In_cells in H. rewrite oget_at by nia. reflexivity. Qed.
Lemma size_la t la : proper t -> 0 <= la < t_nx t * t_ny t -> oget (t_area t) la = Ok (size t (la mod t_nx t, la / t_nx t)).
Proof.
  intros (Hx & Hy & _ & _ & L & _) H. rewrite oget_at by nia. unfold size, val. cbn [fst snd]. pose proof (Z.div_mod la (t_nx t)). f_equal. f_equal. lia.
Qed.
Lemma In_quad t c v : In v (quad t c) -> exists a b, 0 <= a <= 1 /\ 0 <= b <= 1 /\ v = point t (fst c + a) (snd c + b).
Proof.
  destruct c as (i, j). cbn. intros [<-|[<-|[<-|[<-|[]]]]]; [exists 0, 0|exists 1, 0|exists 1, 1|exists 0, 1]; rewrite ?Z.add_0_r; repeat split; lia.
Qed.

(** ** The search ranges *)
Lemma band_run t is ie : proper t -> 0 <= is -> ie < t_nx t * t_ny t -> exists lo hi, band t is ie = Ok (lo, hi) /\
  forall la, is <= la <= ie -> forall v, In v (quad t (la mod t_nx t, la / t_nx t)) -> (lo <= snd v <= hi)%R.
Proof.
  intros Hp Hs He. pose proof Hp as (Hx & _). unfold band. destruct (Z_le_gt_dec is ie) as [L|L].
  2: { exists 9999%R, (-9999)%R. rewrite ofor_0 by lia. split; auto. intros. lia. }
  match goal with |- context [ofor is ?n ?f ?s] => destruct (ofor_inv (fun la b => forall la', is <= la' < la -> forall v, In v (quad t (la' mod t_nx t, la' / t_nx t)) -> (fst b <= snd v <= snd b)%R) f is n s ltac:(lia)) as ((lo & hi) & E & H) end.
  - intros. lia.
  - intros la b Hla Hb. rewrite corners_run by (auto; apply In_la; auto; lia). cbn [bind]. eexists. split; [reflexivity|].
    assert (forall l b, let r := fold_left (fun '(lo, hi) y => (if rlt y lo then y else lo, if rlt hi y then y else hi)) l b in
      (fst r <= fst b /\ snd b <= snd r /\ forall y, In y l -> fst r <= y <= snd r)%R) as G.
    { clear. intros l. induction l as [|y l IH]; intros (lo, hi); cbn zeta; cbn [fold_left]; [cbn; repeat split; try lra; easy|].
      destruct (IH (if rlt y lo then y else lo, if rlt hi y then y else hi)) as (I1 & I2 & I3). cbn [fst snd] in *.
      destruct (rlt_spec y lo), (rlt_spec hi y); (split; [lra|split; [lra|]]); (intros y' [<-|Hy]; [lra|auto]). }
    intros la' Hl v Hv. destruct (G (ys (quad t (la mod t_nx t, la / t_nx t))) b) as (G1 & G2 & G3). destruct (Z.eq_dec la' la) as [->|N].
    + apply G3. now apply in_map.
    + specialize (Hb la' ltac:(lia) v Hv). lra.
  - exists lo, hi. split; auto. intros la Hla v Hv. apply (H la); auto. lia.
Qed.

Lemma rows_atm_run t lo hi : proper t -> exists js je, rows_atm t lo hi = Ok (js, je) /\ 0 <= js /\ je <= t_ny t - 1 /\
  forall i j, In (i, j) (cells t) ->
    (j < js -> forall v, In v (quad t (i, j)) -> (snd v <= lo)%R) /\ (je < j -> forall v, In v (quad t (i, j)) -> (hi <= snd v)%R).
Proof.
  intros (Hx & Hy & _ & Ly & _). unfold rows_atm.
  match goal with |- context [ofor 0 _ ?f ?s] => 
    destruct (ofor_inv (fun j st => forall i' j', 0 <= i' <= t_nx t -> 0 <= j' < j -> ((lo < snd (point t i' j'))%R -> fst st <= j') /\ ((snd (point t i' j') < hi)%R -> j' <= snd st)) f 0 (t_ny t + 1) s ltac:(lia)) as ((js & je) & E & H) end.
  - intros. lia.
  - intros j st Hj Hst.
    match goal with |- context [ofor 0 _ ?f st] => 
      destruct (ofor_inv (fun i st => forall i' j', 0 <= i' <= t_nx t -> 0 <= j' <= j -> (j' = j -> i' < i) -> ((lo < snd (point t i' j'))%R -> fst st <= j') /\ ((snd (point t i' j') < hi)%R -> j' <= snd st)) f 0 (t_nx t + 1) st ltac:(lia)) as (st' & E & H) end.
    + intros i' j' Hi' Hj' N. apply Hst; lia.
    + intros i (js, je) Hi Hq. rewrite oget_at by nia. cbn [bind]. eexists. split; [reflexivity|]. intros i' j' Hi' Hj' N. cbn [fst snd] in *.
      change (at_ (t_y t) (j * (t_nx t + 1) + i)) with (snd (point t i j)).
      destruct (Z.eq_dec j' j) as [->|Nj]; [destruct (Z.eq_dec i' i) as [->|Ni]|].
      * destruct (rlt_spec lo (snd (point t i j))), (rlt_spec (snd (point t i j)) hi); destruct (Z.ltb_spec j js), (Z.ltb_spec je j); split; intros; try lia; try lra.
      * specialize (Hq i' j Hi' Hj' ltac:(lia)). cbn in Hq.
        destruct (rlt_spec lo (snd (point t i j))), (rlt_spec (snd (point t i j)) hi); destruct (Z.ltb_spec j js), (Z.ltb_spec je j); split; intros HH; try (apply Hq in HH); try lia.
      * specialize (Hq i' j' Hi' Hj' ltac:(lia)). cbn in Hq.
        destruct (rlt_spec lo (snd (point t i j))), (rlt_spec (snd (point t i j)) hi); destruct (Z.ltb_spec j js), (Z.ltb_spec je j); split; intros HH; try (apply Hq in HH); try lia.
    + exists st'. split; auto. intros i' j' Hi' Hj'. apply H; lia.
  - rewrite E. cbn [bind]. exists (Z.max 0 (js - 1)), (Z.min (t_ny t - 1) (je + 1)). split; [reflexivity|]. split; [lia|]. split; [lia|].
    intros i j Hc. apply In_cells in Hc. split; intros Hr v Hv; destruct (In_quad _ _ _ Hv) as (a & b & Ha & Hb & ->); cbn [fst snd];
      destruct (H (i + a) (j + b) ltac:(lia) ltac:(lia)) as (H1 & H2); cbn [fst snd] in H1, H2.
    + apply Rnot_lt_le. intros C. apply H1 in C. lia.
    + apply Rnot_lt_le. intros C. apply H2 in C. lia.
Qed.
