(** * Proofs about conservative regridding: sums over input and output *)
From Coq Require Import Lra Psatz.
From Verif Require Import Base Loops Vec M_Interp M_Runoff P_Runoff M_Fregrid Spec_Fregrid P_Interp P_Interp2 P_Fregrid.
Local Open Scope R_scope.

Lemma rsum_flat_map {A B} (f : B -> R) (g : A -> list B) l : rsum f (flat_map g l) = rsum (fun a => rsum f (g a)) l.
Proof. induction l as [|a l IH]; cbn [flat_map]; auto. now rewrite rsum_app, rsum_cons, IH. Qed.
Lemma filter_filter {A} (f g : A -> bool) l : filter f (filter g l) = filter (fun x => g x && f x) l.
Proof. induction l as [|a l IH]; cbn; auto. destruct (g a); cbn; rewrite ?IH; auto. Qed.
Lemma filter_flat_map {A B} (f : B -> bool) (g : A -> list B) l : filter f (flat_map g l) = flat_map (fun a => filter f (g a)) l.
Proof. induction l as [|a l IH]; cbn; auto. now rewrite filter_app, IH. Qed.
Lemma rsum_filter {A} (f : A -> R) (g : A -> bool) l : rsum f (filter g l) = rsum (fun x => if g x then f x else 0) l.
Proof. induction l as [|a l IH]; auto. cbn [filter]. rewrite rsum_cons. destruct (g a); rewrite ?rsum_cons, IH; lra. Qed.
Lemma rsum_index {A} (d : A) (f : A -> R) l : rsum (fun q => f (nth (Z.to_nat q) l d)) (zseq 0 (zlen l)) = rsum f l.
Proof.
  induction l as [|a l IH] using rev_ind; auto. rewrite zlen_app. change (zlen [a]) with 1%Z. pose proof (zlen_nonneg l).
  rewrite zseq_snoc by lia. rewrite !rsum_app. f_equal.
  - rewrite <- IH. apply rsum_ext. intros q Hq. apply In_zseq in Hq. rewrite app_nth1; auto. unfold zlen in Hq. lia.
  - cbn [rsum fold_right]. rewrite app_nth2 by (unfold zlen; lia). replace (Z.to_nat (0 + zlen l) - List.length l)%nat with 0%nat by (unfold zlen; lia). reflexivity.
Qed.
Lemma rsum_eq0 {A} (f : A -> R) l : (forall x, In x l -> 0 <= f x) -> rsum f l = 0 -> forall x, In x l -> f x = 0.
Proof.
  induction l as [|a l IH]; intros Hp H0 x []; rewrite rsum_cons in H0.
  - subst. pose proof (Hp x (or_introl eq_refl)). assert (0 <= rsum f l) by (apply rsum_nonneg; intros; apply Hp; now right). lra.
  - apply IH; auto. + intros; apply Hp; now right. + pose proof (Hp a (or_introl eq_refl)). assert (0 <= rsum f l) by (apply rsum_nonneg; intros; apply Hp; now right). lra.
Qed.

(** Grouping exchange cells by the input cell they are cut from. *)
Lemma group_from T O (f : xc -> R) : (forall c, In c (all_cells O) -> input_cell T (x_t c) (x_j c) (x_i c)) ->
  rsum f (all_cells O) = rsum (fun q => rsum (fun j => rsum (fun i => rsum f (from O q j i))
    (zseq 0 (t_nx (tile_at T q)))) (zseq 0 (t_ny (tile_at T q)))) (zseq 0 (zlen T)).
Proof.
  intros H. rewrite <- (rsum_group x_t f (all_cells O) (zlen T)). 2:apply zlen_nonneg. 2:{ intros c Hc. apply (H c Hc). }
  apply rsum_ext. intros q Hq. apply In_zseq in Hq.
  assert (Hin : forall c, In c (filter (fun c => (x_t c =? q)%Z) (all_cells O)) -> input_cell T q (x_j c) (x_i c)).
  { intros c Hc. apply filter_In in Hc. destruct Hc as (Hc & E). apply Z.eqb_eq in E. subst q. auto. }
  destruct (filter (fun c => (x_t c =? q)%Z) (all_cells O)) as [|c0 l0] eqn:E0.
  { symmetry. cbn [rsum fold_right]. rewrite (rsum_ext _ (fun _ => 0)); [apply rsum_zero|]. intros j _. rewrite (rsum_ext _ (fun _ => 0)); [apply rsum_zero|]. intros i _.
    unfold from. assert (EN : filter (fun c => (x_t c =? q)%Z && (x_j c =? j)%Z && (x_i c =? i)%Z) (all_cells O) = []).
    { rewrite <- filter_filter. rewrite <- (filter_filter (fun c => (x_j c =? j)%Z)). rewrite E0. reflexivity. } now rewrite EN. }
  destruct (Hin c0 (or_introl eq_refl)) as (_ & Hy0 & Hx0). assert (Hy : (0 < t_ny (tile_at T q))%Z) by lia. assert (Hx : (0 < t_nx (tile_at T q))%Z) by lia. clear Hy0 Hx0. rewrite <- E0 in *. clear E0 c0 l0.
  rewrite <- (rsum_group x_j f _ (t_ny (tile_at T q))). 2:lia. 2:{ intros c Hc. apply (Hin c Hc). }
  apply rsum_ext. intros j Hj. rewrite <- (rsum_group x_i f _ (t_nx (tile_at T q))). 2:lia. 2:{ intros c Hc. apply filter_In in Hc. destruct Hc as (Hc & _). apply (Hin c Hc). }
  apply rsum_ext. intros i Hi. unfold from. rewrite !filter_filter. f_equal. apply filter_ext. intros c. now rewrite andb_assoc.
Qed.
Lemma in_from O q j i c : In c (from O q j i) <-> In c (all_cells O) /\ x_t c = q /\ x_j c = j /\ x_i c = i.
Proof. unfold from. rewrite filter_In, !andb_true_iff, !Z.eqb_eq. tauto. Qed.
Lemma src_tile T c : src T c = tile_at T (x_t c).
Proof. reflexivity. Qed.

Section Total.
  Variables (m : method) (p : opts) (T : list tile) (O : list otile).
  Hypothesis HW : wf m p T O.
  Lemma all_in c : In c (all_cells O) -> exists o, In o O /\ In c (o_xgrid o) /\ wf_cell T o c.
  Proof. intros H. apply in_flat_map in H. destruct H as (o & Ho & Hc). destruct HW as (_ & _ & _ & HO). exists o. split; auto. split; auto. now apply HO. Qed.
  Lemma all_input c : In c (all_cells O) -> input_cell T (x_t c) (x_j c) (x_i c).
  Proof. intros H. destruct (all_in c H) as (o & _ & _ & (Ht & Hi & Hj & _)). repeat split; try lia; apply Hj || apply Hi. Qed.
  Lemma valid_level c k : (0 <= k < p_nz p)%Z -> valid p (in_value m T c k) = valid p (in_value m T c 0).
  Proof. intros Hk. destruct HW as (Hz & Hz1 & _). unfold valid. destruct (p_missing p) eqn:E; auto. destruct (Z.ltb_spec 1 (p_nz p)) as [C|]. { destruct (Hz1 C). congruence. } replace k with 0%Z by lia. reflexivity. Qed.

  (** If the pieces of every cell average to its mean, the sum over the pieces is the input total. *)
  Lemma pieces_total k (val : xc -> R) : (0 <= k < p_nz p)%Z -> complete T O ->
    (forall q j i, input_cell T q j i -> cell_area T q j i <> 0) ->
    (forall q j i, input_cell T q j i -> valid p (cell_mean m (tile_at T q) k j i) = true ->
       rsum (fun c => x_a c * val c) (from O q j i) = rsum (fun c => x_a c * in_value m T c k) (from O q j i)) ->
    rsum (fun c => if valid p (in_value m T c 0) then x_weight p T c * val c else 0) (all_cells O) = in_total m p T k.
  Proof.
    intros Hk HC HN HV. rewrite (group_from T). 2:apply all_input. unfold in_total.
    apply rsum_ext. intros q Hq. apply rsum_ext. intros j Hj. apply rsum_ext. intros i Hi. apply In_zseq in Hq, Hj, Hi.
    assert (Hin : input_cell T q j i) by (split; [lia|]; split; lia).
    assert (Hv : forall c, In c (from O q j i) -> valid p (in_value m T c 0) = valid p (cell_mean m (tile_at T q) k j i)).
    { intros c Hc. apply in_from in Hc. destruct Hc as (_ & <- & <- & <-). rewrite <- (valid_level c k Hk). reflexivity. }
    unfold holds. set (t := tile_at T q). fold t in Hv. cbv zeta. destruct (valid p (cell_mean m t k j i)) eqn:Ev.
    2:{ rewrite (rsum_ext _ (fun _ => 0)); [apply rsum_zero|]. intros c Hc. now rewrite Hv. }
    set (n := (j * t_nx t + i)%Z).
    rewrite (rsum_ext _ (fun c => per_area p t n * (x_a c * val c))).
    2:{ intros c Hc. rewrite Hv by auto. apply in_from in Hc. destruct Hc as (_ & Eq & Ej & Ei). unfold x_weight, src_cell. rewrite src_tile, Eq, Ej, Ei. fold t. fold n. ring. }
    rewrite rsum_scal, HV by auto.
    rewrite (rsum_ext _ (fun c => cell_mean m t k j i * x_a c)).
    2:{ intros c Hc. apply in_from in Hc. destruct Hc as (_ & Eq & Ej & Ei). unfold in_value. rewrite src_tile, Eq, Ej, Ei. fold t. ring. }
    rewrite rsum_scal, HC by auto. pose proof (HN q j i Hin) as NZ. unfold cell_area in *. fold t in NZ |- *. fold n in NZ |- *. unfold per_area.
    destruct (p_sum p); [field; auto|]. destruct (p_measures p); [field; auto|]. ring.
  Qed.
  Lemma mean_total k : (0 <= k < p_nz p)%Z -> complete T O -> (forall q j i, input_cell T q j i -> cell_area T q j i <> 0) -> m = Order1 \/ centred T O ->
    rsum (fun c => if valid p (in_value m T c 0) then x_weight p T c * x_value m p T c k else 0) (all_cells O) = in_total m p T k.
  Proof.
    intros Hk HC HN HM. apply pieces_total; auto. intros q j i Hin Hv.
    assert (Hcase : m = Order1 \/ m <> Order1) by (destruct m; auto; right; discriminate).
    destruct Hcase as [E|NE]. { apply rsum_ext. intros c _. unfold x_value. now rewrite E. }
    destruct HM as [?|HM]; [contradiction|]. destruct (HM q j i Hin) as (Z1 & Z2). set (t := tile_at T q). set (n := (k * (t_nx t * t_ny t) + (j * t_nx t + i))%Z).
    assert (EX : forall c, In c (from O q j i) -> x_value m p T c k = if masked p t n then in_value m T c k else in_value m T c k + (at_ (t_gx t) n * x_di c + at_ (t_gy t) n * x_dj c)).
    { intros c Hc. apply in_from in Hc. destruct Hc as (_ & Eq & Ej & Ei). unfold x_value, src_cell. rewrite src_tile, Eq, Ej, Ei. fold t. fold n. destruct m; auto; contradiction. }
    destruct (masked p t n). { apply rsum_ext. intros c Hc. now rewrite EX. }
    rewrite (rsum_ext _ (fun c => x_a c * in_value m T c k + (at_ (t_gx t) n * (x_a c * x_di c) + at_ (t_gy t) n * (x_a c * x_dj c)))).
    2:{ intros c Hc. rewrite EX by auto. ring. }
    rewrite !rsum_plus, !rsum_scal, Z1, Z2. ring.
  Qed.

  Lemma out_sum_cells (f : Z -> Z -> R) (val : xc -> R) :
    (forall q n, (0 <= q < zlen O)%Z -> (0 <= n < o_nx (otile_at O q) * o_ny (otile_at O q))%Z -> f q n = rsum val (used m p T (otile_at O q) n)) ->
    out_sum O f = rsum (fun c => if valid p (in_value m T c 0) then val c else 0) (all_cells O).
  Proof.
    intros H. unfold out_sum.
    transitivity (rsum (fun q => (fun o => rsum (fun c => if valid p (in_value m T c 0) then val c else 0) (o_xgrid o)) (otile_at O q)) (zseq 0 (zlen O))).
    - apply rsum_ext. intros q Hq. apply In_zseq in Hq. set (o := otile_at O q) in *.
      assert (Ho : In o O). { unfold o, otile_at. apply nth_In. unfold zlen in Hq. lia. }
      destruct HW as (_ & _ & _ & HO). destruct (HO o Ho) as (Hx & Hy & _ & HX).
      rewrite <- (rsum_group (dst_cell o) _ (o_xgrid o) (o_nx o * o_ny o)). 2:nia. 2:{ intros c Hc. apply (dst_range T). auto. }
      apply rsum_ext. intros n Hn. apply In_zseq in Hn. rewrite (H q n) by (try fold o; lia); fold o. unfold used. rewrite rsum_filter. reflexivity.
    - unfold otile_at. rewrite (rsum_index (MkOtile 0 0 [] []) (fun o => rsum (fun c => if valid p (in_value m T c 0) then val c else 0) (o_xgrid o)) O). unfold all_cells. now rewrite rsum_flat_map.
  Qed.
End Total.

Lemma Forall2_at {A B} (P : A -> B -> Prop) da db l l' : Forall2 P l l' -> zlen l' = zlen l /\ forall q, (0 <= q < zlen l)%Z -> P (nth (Z.to_nat q) l da) (nth (Z.to_nat q) l' db).
Proof.
  intros F. split. { induction F; auto. rewrite !zlen_cons. lia. }
  induction F as [|a b l l' H F IH]; intros q Hq. { unfold zlen in Hq. cbn in Hq. lia. }
  rewrite zlen_cons in Hq. destruct (Z.eq_dec q 0) as [->|N]; [exact H|]. replace (Z.to_nat q) with (S (Z.to_nat (q - 1))) by lia. cbn [nth]. apply IH. lia.
Qed.
Lemma otile_in O q : (0 <= q < zlen O)%Z -> In (otile_at O q) O.
Proof. intros H. unfold otile_at. apply nth_In. unfold zlen in H. lia. Qed.
Lemma values_at (F : otile -> Z -> Z -> R) p O outs : Forall2 (fun o r => vec r (o_nx o * o_ny o * p_nz p) (fun i => F o (i / (o_nx o * o_ny o)) (i mod (o_nx o * o_ny o)))%Z) O outs ->
  zlen outs = zlen O /\ forall q, (0 <= q < zlen O)%Z -> zlen (nth (Z.to_nat q) outs []) = (o_nx (otile_at O q) * o_ny (otile_at O q) * p_nz p)%Z
   /\ forall k n, (0 <= k < p_nz p)%Z -> (0 <= n < o_nx (otile_at O q) * o_ny (otile_at O q))%Z -> out_at O outs q k n = F (otile_at O q) k n.
Proof.
  intros HF. destruct (Forall2_at _ (MkOtile 0 0 [] []) [] _ _ HF) as (L & H). split; auto. intros q Hq. specialize (H q Hq). fold (otile_at O q) in H. set (o := otile_at O q) in *. cbv beta in H. split; [apply H|].
  intros k n Hk Hn. unfold out_at. fold o. rewrite (vec_at_ _ _ _ _ H) by nia. cbv beta. rewrite Z.div_add_l, (Z.div_small n) by lia. rewrite (Z.add_comm _ n), Z.mod_add, Z.mod_small by lia. f_equal. lia.
Qed.

Lemma weighted_bounds {A} (w v : A -> R) l lo hi : (forall x, In x l -> 0 <= w x) -> (forall x, In x l -> lo <= v x <= hi) -> 0 < rsum w l ->
  lo <= rsum (fun x => w x * v x) l / rsum w l <= hi.
Proof.
  intros Hw Hv HS. assert (A1 : rsum (fun x => lo * w x) l <= rsum (fun x => w x * v x) l). { apply rsum_le. intros x Hx. pose proof (Hw x Hx). pose proof (Hv x Hx). nra. }
  assert (A2 : rsum (fun x => w x * v x) l <= rsum (fun x => hi * w x) l). { apply rsum_le. intros x Hx. pose proof (Hw x Hx). pose proof (Hv x Hx). nra. }
  rewrite rsum_scal in A1, A2. split.
  - apply Rmult_le_reg_r with (rsum w l); auto. unfold Rdiv. rewrite Rmult_assoc, Rinv_l by lra. lra.
  - apply Rmult_le_reg_r with (rsum w l); auto. unfold Rdiv. rewrite Rmult_assoc, Rinv_l by lra. lra.
Qed.
Lemma used_in m p T O q n c : (0 <= q < zlen O)%Z -> In c (used m p T (otile_at O q) n) -> In c (all_cells O).
Proof. intros Hq H. unfold used in H. apply filter_In in H. destruct H as (H & _). apply filter_In in H. destruct H as (H & _). unfold all_cells. apply in_flat_map. exists (otile_at O q). split; auto. now apply otile_in. Qed.
