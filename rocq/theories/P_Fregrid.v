(** * Proofs about first- and second-order conservative regridding *)
From Coq Require Import Lra.
From Verif Require Import Base Loops Vec M_Interp M_Runoff P_Runoff M_Fregrid Spec_Fregrid P_Interp P_Interp2.
Local Open Scope R_scope.

Lemma missing_fill p : missing p = fill p.
Proof. unfold missing, fill, MAXVAL. destruct (p_missing p); reflexivity. Qed.
Lemma valid_eqb p v : p_missing p <> None -> negb (reqb v (missing p)) = valid p v.
Proof.
  rewrite missing_fill. unfold valid, fill. destruct (p_missing p) as [mv|]; [|congruence]. intros _. destruct (reqb_spec v mv), (Req_EM_T v mv); auto; congruence.
Qed.
Lemma ofold_flat_map {A B S} (f : S -> B -> outcome S) (g : A -> list B) l s :
  ofold f (flat_map g l) s = ofold (fun s a => ofold f (g a) s) l s.
Proof. revert s. induction l as [|a l IH]; intros s; cbn; auto. rewrite ofold_app. apply bind_ext. auto. Qed.

Definition b01 {A} (l : list A) : Z := match l with [] => 0%Z | _ => 1%Z end.

(** Adding a list of contributions. *)
Lemma add_all {A} (key : A -> Z) (v w : A -> R) mark n l D W U d a u : vec d n D -> vec a n W -> vec u n U ->
  (forall x, In x l -> 0 <= key x < n)%Z ->
  exists d' a' u', ofold (fun st x => add mark (key x) (v x) (w x) st) l (d, a, u) = Ok (d', a', u')
    /\ vec d' n (fun i => D i + rsum (fun x => w x * v x) (filter (fun x => (key x =? i)%Z) l))
    /\ vec a' n (fun i => W i + rsum w (filter (fun x => (key x =? i)%Z) l))
    /\ vec u' n (fun i => if mark then match filter (fun x => (key x =? i)%Z) l with [] => U i | _ => 1%Z end else U i).
Proof.
  revert D W U d a u. induction l as [|x l IH]; intros D W U d a u Hd Ha Hu Hk.
  - exists d, a, u. split; auto. cbn. split; [|split]; (eapply vec_ext; [|eassumption]); intros; cbn; try lra. destruct mark; auto.
  - cbn [ofold]. unfold add at 1. pose proof (Hk x (or_introl eq_refl)) as Hx.
    rewrite (vec_get _ _ _ _ Hd), (vec_get _ _ _ _ Ha) by auto. cbn [bind].
    destruct (vec_set d n D (fun i => if (key x =? i)%Z then D i + v x * w x else D i) (key x) (D (key x) + v x * w x) Hd Hx) as (d1 & E1 & V1).
    { intros i Hi. destruct (Z.eqb_spec (key x) i), (Z.eqb_spec i (key x)); subst; auto; lia. }
    destruct (vec_set a n W (fun i => if (key x =? i)%Z then W i + w x else W i) (key x) (W (key x) + w x) Ha Hx) as (a1 & E2 & V2).
    { intros i Hi. destruct (Z.eqb_spec (key x) i), (Z.eqb_spec i (key x)); subst; auto; lia. }
    rewrite E1, E2. cbn [bind].
    destruct (vec_set u n U (fun i => if (key x =? i)%Z then 1%Z else U i) (key x) 1%Z Hu Hx) as (u1 & E3 & V3).
    { intros i Hi. destruct (Z.eqb_spec (key x) i), (Z.eqb_spec i (key x)); subst; auto; lia. }
    destruct mark.
    + rewrite E3. cbn [bind]. destruct (IH _ _ _ _ _ _ V1 V2 V3) as (d' & a' & u' & E & G1 & G2 & G3). { intros; apply Hk; now right. }
      exists d', a', u'. split; auto. split; [|split]; (eapply vec_ext; [|eassumption]); intros i Hi; cbn [filter]; destruct (key x =? i)%Z; rewrite ?rsum_cons; try lra; auto.
      destruct (filter _ l); auto.
    + cbn [bind]. destruct (IH _ _ _ _ _ _ V1 V2 Hu) as (d' & a' & u' & E & G1 & G2 & G3). { intros; apply Hk; now right. }
      exists d', a', u'. split; auto. split; [|split]; auto; (eapply vec_ext; [|eassumption]); intros i Hi; cbn [filter]; destruct (key x =? i)%Z; rewrite ?rsum_cons; lra.
Qed.

(** Levels: contribution (c, k) goes to element k*N + dst(c). *)
Lemma filter_levels (o : otile) (ok : xc -> bool) X nz N k n : (0 <= n < N)%Z -> (0 <= k < nz)%Z ->
  (forall c, In c X -> 0 <= dst_cell o c < N)%Z ->
  filter (fun x : xc * Z => (snd x * N + dst_cell o (fst x) =? k * N + n)%Z)
    (flat_map (fun c => if ok c then map (fun k => (c, k)) (zseq 0 nz) else []) X)
  = map (fun c => (c, k)) (filter ok (filter (fun c => (dst_cell o c =? n)%Z) X)).
Proof.
  intros Hn Hk. induction X as [|c X IH]; intros HX; cbn [flat_map]; auto.
  rewrite filter_app, IH by (intros; apply HX; now right). cbn [filter].
  pose proof (HX c (or_introl eq_refl)) as Hc.
  assert (E : filter (fun x : xc * Z => (snd x * N + dst_cell o (fst x) =? k * N + n)%Z) (map (fun k => (c, k)) (zseq 0 nz)) = if (dst_cell o c =? n)%Z then [(c, k)] else []).
  { rewrite filter_map_. cbn [fst snd].
    assert (G : forall l, (forall x, In x l -> 0 <= x)%Z -> NoDup l -> In k l -> map (fun k0 : Z => (c, k0)) (filter (fun x => (x * N + dst_cell o c =? k * N + n)%Z) l) = if (dst_cell o c =? n)%Z then [(c, k)] else []).
    { clear - Hc Hn Hk. intros l Hl ND HI. destruct (Z.eqb_spec (dst_cell o c) n) as [->|NE].
      - induction l as [|y l IH]; [destruct HI|]. cbn [filter]. inversion ND; subst. destruct HI as [->|HI].
        + rewrite Z.eqb_refl. cbn. f_equal. clear - H1 Hn. assert (E : filter (fun x => (x * N + n =? k * N + n)%Z) l = []).
          { induction l as [|z l IH]; auto. cbn. destruct (Z.eqb_spec (z * N + n) (k * N + n)). { exfalso. apply H1. left. nia. } apply IH. intros C; apply H1; now right. }
          now rewrite E.
        + destruct (Z.eqb_spec (y * N + n) (k * N + n)). { exfalso. assert (y = k) by nia. subst; auto. } apply IH; auto. intros; apply Hl; now right.
      - assert (E : filter (fun x => (x * N + dst_cell o c =? k * N + n)%Z) l = []); [|now rewrite E].
        clear HI ND. induction l as [|y l IH]; auto. cbn. destruct (Z.eqb_spec (y * N + dst_cell o c) (k * N + n)).
        { exfalso. pose proof (Hl y (or_introl eq_refl)). apply NE. rewrite Z.add_comm in e. rewrite (Z.add_comm (k * N)) in e.
          assert (Em : (dst_cell o c + y * N) mod N = (n + k * N) mod N) by (now rewrite e). rewrite !Z.mod_add, !Z.mod_small in Em by lia. auto. }
        apply IH. intros; apply Hl; now right. }
    apply G. - intros x Hx. apply In_zseq in Hx. lia. - apply NoDup_zseq. - apply In_zseq. lia. }
  destruct (ok c) eqn:Eo.
  - rewrite E. destruct (dst_cell o c =? n)%Z; cbn; rewrite ?Eo; auto.
  - cbn. destruct (dst_cell o c =? n)%Z; cbn; rewrite ?Eo; auto.
Qed.

(** ** One exchange cell *)
  Lemma src_get T o c : wf_cell T o c -> oget T (x_t c) = Ok (src T c) /\ In (src T c) T.
  Proof.
    intros (Ht & _). unfold src. assert (L : (Z.to_nat (x_t c) < List.length T)%nat) by (unfold zlen in Ht; lia).
    split; [|now apply nth_In]. apply oget_Ok. unfold zget. destruct (Z.ltb_spec (x_t c) 0); [lia|]. now apply nth_error_nth'.
  Qed.
  Lemma src_range T o c : wf_cell T o c -> (0 <= src_cell T c < t_nx (src T c) * t_ny (src T c))%Z.
  Proof. intros (_ & Hi & Hj & _). unfold src_cell. nia. Qed.

Section Cell.
  Variables (m : method) (p : opts) (T : list tile) (o : otile).
  Hypothesis Hm : m = Order1 \/ m = Order2.
  Hypothesis Hz : (1 <= p_nz p)%Z.
  Hypothesis Hz1 : (1 < p_nz p)%Z -> p_missing p = None /\ p_measures p = false /\ p_sum p = false.
  Hypothesis HT : forall t, In t T -> wf_tile m p t.

  Lemma weigh_ok c n1 : wf_cell T o c -> n1 = src_cell T c -> weigh p (src T c) n1 (x_a c) = Ok (x_a c * (if p_weight p then at_ (t_weight (src T c)) (src_cell T c) else 1)).
  Proof.
    intros Hc ->. unfold weigh. destruct (src_get T o c Hc) as (_ & HI). destruct (HT _ HI) as (_ & _ & _ & HW & _). pose proof (src_range T o c Hc).
    destruct (p_weight p); [|f_equal; lra]. rewrite get_at by (rewrite HW; auto). reflexivity.
  Qed.
  Definition factor (t : tile) (n : Z) : R :=
    if p_sum p then / at_ (t_cell t) n else if p_measures p then at_ (t_frac t) n / at_ (t_cell t) n else 1.
  Lemma scale_ok c n1 area chk : wf_cell T o c -> n1 = src_cell T c ->
    (chk = true -> p_measures p = true -> p_sum p = false -> at_ (t_frac (src T c)) (src_cell T c) <> p_area_missing p) ->
    scale chk p (src T c) n1 area = Ok (area * factor (src T c) (src_cell T c)).
  Proof.
    intros Hc -> Hk. unfold scale, factor. destruct (src_get T o c Hc) as (_ & HI). destruct (HT _ HI) as (_ & _ & HC & _ & HF & _). pose proof (src_range T o c Hc).
    destruct (p_sum p) eqn:Es. { rewrite get_at by (rewrite HC; auto). reflexivity. }
    destruct (p_measures p) eqn:Eme; [|f_equal; lra]. rewrite get_at by (rewrite HF; auto). cbn [bind].
    destruct chk; cbn [andb]. - destruct (reqb_spec (at_ (t_frac (src T c)) (src_cell T c)) (p_area_missing p)); [exfalso; now apply Hk|]. rewrite get_at by (rewrite HC; auto). reflexivity.
    - rewrite get_at by (rewrite HC; auto). reflexivity.
  Qed.

  Definition ok (c : xc) : bool := valid p (in_value m T c 0).
  Definition items (c : xc) : list (xc * Z) := if ok c then map (fun k => (c, k)) (zseq 0 (p_nz p)) else [].
  Definition key (x : xc * Z) : Z := (snd x * (o_nx o * o_ny o) + dst_cell o (fst x))%Z.
  Definition push (st : acc) (x : xc * Z) : outcome acc := add true (key x) (x_value m p T (fst x) (snd x)) (x_weight p T (fst x)) st.

  Lemma nz1 : p_missing p <> None -> p_nz p = 1%Z.
  Proof. intros H. destruct (Z.ltb_spec 1 (p_nz p)) as [C|]; [|lia]. destruct (Hz1 C). congruence. Qed.

  Lemma weight_eq c : x_weight p T c = x_a c * (if p_weight p then at_ (t_weight (src T c)) (src_cell T c) else 1) * factor (src T c) (src_cell T c).
  Proof. unfold x_weight, per_area, factor. ring. Qed.

  (** The loop over levels of the branches without missing values. *)
  Lemma level_loop c (f : acc * R -> Z -> outcome (acc * R)) st : p_missing p = None -> wf_cell T o c ->
    (forall st area k, (0 <= k < p_nz p)%Z -> f (st, area) k = (do area <- (if (p_nz p =? 1)%Z then Ok (area * factor (src T c) (src_cell T c)) else Ok area) ; do st <- add true (key (c, k)) (x_value m p T c k) area st ; Ok (st, area))) ->
    (do r <- ofor 0 (p_nz p) f (st, x_a c * (if p_weight p then at_ (t_weight (src T c)) (src_cell T c) else 1)) ; Ok (fst r)) = ofold push (items c) st.
  Proof.
    intros Em Hc Hf. unfold items, ok, valid. rewrite Em. set (a0 := x_a c * _).
    destruct (Z.eqb_spec (p_nz p) 1) as [E1|N1].
    - rewrite E1. unfold ofor. change (zseq 0 1) with [0%Z]. cbn [ofold map]. rewrite Hf by lia. cbn [bind]. unfold push. cbn [fst snd]. rewrite weight_eq. fold a0. destruct (add _ _ _ _ _); reflexivity.
    - assert (F1 : factor (src T c) (src_cell T c) = 1). { unfold factor. destruct Hz1 as (_ & -> & ->); [lia|reflexivity]. }
      unfold ofor. assert (G : forall l st, (forall k, In k l -> 0 <= k < p_nz p)%Z -> (do r <- ofold f l (st, a0) ; Ok (fst r)) = ofold push (map (fun k => (c, k)) l) st).
      { clear - Hf F1. induction l as [|k l IH]; intros st Hl; auto. cbn [ofold map]. rewrite Hf by (apply Hl; now left). cbn [bind]. unfold push at 1. cbn [fst snd]. rewrite weight_eq, F1, Rmult_1_r. fold a0.
        destruct (add true (key (c, k)) (x_value m p T c k) a0 st) as [st'| |]; cbn [bind]; auto. apply IH. intros; apply Hl; now right. }
      apply G. intros k Hk. apply In_zseq in Hk. lia.
  Qed.
  Lemma scale_level c k area : wf_cell T o c -> (0 <= k < p_nz p)%Z ->
    scale false p (src T c) (k * (t_nx (src T c) * t_ny (src T c)) + src_cell T c) area = if (p_nz p =? 1)%Z then Ok (area * factor (src T c) (src_cell T c)) else Ok area.
  Proof.
    intros Hc Hk. destruct (Z.eqb_spec (p_nz p) 1) as [E1|N1].
    - apply scale_ok; auto; [replace k with 0%Z by lia; lia|discriminate].
    - unfold scale. destruct Hz1 as (_ & -> & ->); [lia|reflexivity].
  Qed.

  Lemma cell_o1_eq c st : m = Order1 -> p_missing p = None -> wf_cell T o c -> cell_o1 p T (o_nx o) (o_ny o) st c = ofold push (items c) st.
  Proof.
    intros E Em Hc. unfold cell_o1. destruct (src_get T o c Hc) as (-> & HI). cbn [bind]. rewrite (weigh_ok c) by auto. cbn [bind].
    apply level_loop; auto. clear st. intros st area k Hk.
    replace (k * t_nx (src T c) * t_ny (src T c) + x_j c * t_nx (src T c) + x_i c)%Z with (k * (t_nx (src T c) * t_ny (src T c)) + src_cell T c)%Z by (unfold src_cell; ring).
    rewrite scale_level by auto. apply bind_ext. intros area'. destruct (HT _ HI) as (_ & _ & _ & _ & _ & HD). rewrite E in HD. pose proof (src_range T o c Hc).
    rewrite get_at by (rewrite HD; nia). cbn [bind].
    replace (k * o_nx o * o_ny o + x_jo c * o_nx o + x_io c)%Z with (key (c, k)) by (unfold key, dst_cell; cbn; ring).
    unfold x_value. rewrite E. unfold in_value, cell_mean. replace (k * (t_nx (src T c) * t_ny (src T c)) + x_j c * t_nx (src T c) + x_i c)%Z with (k * (t_nx (src T c) * t_ny (src T c)) + src_cell T c)%Z by (unfold src_cell; ring). reflexivity.
  Qed.
  Lemma cell_o2_eq c st : m = Order2 -> p_missing p = None -> wf_cell T o c -> cell_o2 p T (o_nx o) (o_ny o) st c = ofold push (items c) st.
  Proof.
    intros E Em Hc. unfold cell_o2. destruct (src_get T o c Hc) as (-> & HI). cbn [bind]. rewrite (weigh_ok c) by auto. cbn [bind].
    apply level_loop; auto. clear st. intros st area k Hk.
    replace (k * t_nx (src T c) * t_ny (src T c) + x_j c * t_nx (src T c) + x_i c)%Z with (k * (t_nx (src T c) * t_ny (src T c)) + src_cell T c)%Z by (unfold src_cell; ring).
    rewrite scale_level by auto. apply bind_ext. intros area'. destruct (HT _ HI) as (_ & _ & _ & _ & _ & HD). rewrite E in HD. destruct HD as (HD & HX & HY & _). pose proof (src_range T o c Hc).
    destruct Hc as (_ & Hi & Hj & _). set (t := src T c) in *.
    replace (k * (t_nx t + 2) * (t_ny t + 2) + (x_j c + 1) * (t_nx t + 2) + x_i c + 1)%Z with (k * ((t_nx t + 2) * (t_ny t + 2)) + (x_j c + 1) * (t_nx t + 2) + x_i c + 1)%Z by ring.
    assert (RD : (0 <= k * ((t_nx t + 2) * (t_ny t + 2)) + (x_j c + 1) * (t_nx t + 2) + x_i c + 1 < zlen (t_data t))%Z).
    { rewrite HD. assert (0 <= (x_j c + 1) * (t_nx t + 2) + x_i c + 1 < (t_nx t + 2) * (t_ny t + 2))%Z by nia. nia. }
    rewrite get_at by auto. cbn [bind]. rewrite !get_at by (rewrite ?HX, ?HY; nia). cbn [bind].
    replace (k * o_nx o * o_ny o + x_jo c * o_nx o + x_io c)%Z with (key (c, k)) by (unfold key, dst_cell; cbn; ring).
    unfold x_value. rewrite E. cbv zeta. unfold masked. rewrite Em. unfold in_value, cell_mean. fold t. rewrite <- Rplus_assoc. reflexivity.
  Qed.
  Lemma key0 c : (x_jo c * o_nx o + x_io c = key (c, 0))%Z.
  Proof. unfold key, dst_cell. cbn. ring. Qed.
  Definition area_ok (c : xc) : Prop := p_measures p = true -> p_sum p = false -> at_ (t_frac (src T c)) (src_cell T c) <> p_area_missing p.
  Lemma cell_o1m_eq c st : m = Order1 -> p_missing p <> None -> wf_cell T o c -> (ok c = true -> area_ok c) -> cell_o1m p T (o_nx o) st c = ofold push (items c) st.
  Proof.
    intros E Em Hc Ha. unfold cell_o1m. pose proof (src_range T o c Hc) as Hr. destruct (src_get T o c Hc) as (-> & HI). cbn [bind]. fold (src_cell T c). rewrite (weigh_ok c) by auto. cbn [bind].
    destruct (HT _ HI) as (_ & _ & _ & _ & _ & HD). rewrite E in HD. rewrite get_at by (rewrite HD, (nz1 Em); lia). cbn [bind].
    assert (EV : at_ (t_data (src T c)) (src_cell T c) = in_value m T c 0). { rewrite E. unfold in_value, cell_mean, src_cell. f_equal. }
    rewrite EV. rewrite valid_eqb by auto. unfold items. fold (ok c). destruct (ok c) eqn:Eo; [|reflexivity].
    rewrite (scale_ok c) by (auto; intros; apply Ha; auto). cbn [bind]. rewrite nz1 by auto. change (zseq 0 1) with [0%Z]. cbn [map ofold]. unfold push. cbn [fst snd]. rewrite weight_eq, key0.
    unfold x_value. rewrite E. destruct (add _ _ _ _ _); reflexivity.
  Qed.
  Lemma cell_o2m_eq c st : m = Order2 -> p_missing p <> None -> wf_cell T o c -> (ok c = true -> area_ok c) -> cell_o2m p T (o_nx o) st c = ofold push (items c) st.
  Proof.
    intros E Em Hc Ha. unfold cell_o2m. pose proof (src_range T o c Hc) as Hr. destruct (src_get T o c Hc) as (-> & HI). cbn [bind]. fold (src_cell T c). rewrite (weigh_ok c) by auto. cbn [bind].
    destruct (HT _ HI) as (_ & _ & _ & _ & _ & HD). rewrite E in HD. destruct HD as (HD & HX & HY & HG). rewrite nz1 in HD, HX, HY, HG by auto.
    assert (RD : (0 <= (x_j c + 1) * (t_nx (src T c) + 2) + x_i c + 1 < zlen (t_data (src T c)))%Z). { destruct Hc as (_ & ? & ? & _). rewrite HD. nia. }
    rewrite get_at by auto. cbn [bind].
    assert (EV : at_ (t_data (src T c)) ((x_j c + 1) * (t_nx (src T c) + 2) + x_i c + 1) = in_value m T c 0). { rewrite E. unfold in_value, cell_mean, src_cell. f_equal. }
    rewrite EV. rewrite valid_eqb by auto. unfold items. fold (ok c). destruct (ok c) eqn:Eo; [|reflexivity].
    rewrite (scale_ok c) by (auto; intros; apply Ha; auto). cbn [bind]. rewrite nz1 by auto. change (zseq 0 1) with [0%Z]. cbn [map ofold]. unfold push. cbn [fst snd]. rewrite weight_eq, key0.
    assert (EG : oget (t_gmask (src T c)) (src_cell T c) = Ok (nth (Z.to_nat (src_cell T c)) (t_gmask (src T c)) 0%Z)).
    { apply oget_Ok. unfold zget. destruct (Z.ltb_spec (src_cell T c) 0); [lia|]. apply nth_error_nth'. unfold zlen in HG. lia. }
    rewrite EG. cbn [bind]. unfold x_value. rewrite E. cbv zeta. change (0 * (t_nx (src T c) * t_ny (src T c)) + src_cell T c)%Z with (src_cell T c). unfold masked.
    destruct (p_missing p); [|congruence]. destruct (negb (nth (Z.to_nat (src_cell T c)) (t_gmask (src T c)) 0 =? 0)%Z).
    - destruct (add _ _ _ _ _); reflexivity.
    - rewrite !get_at by (rewrite ?HX, ?HY; lia). cbn [bind]. rewrite <- Rplus_assoc. destruct (add _ _ _ _ _); reflexivity.
  Qed.
End Cell.

(** ** One output tile *)
Definition wf_otile (T : list tile) (o : otile) : Prop :=
  (0 <= o_nx o)%Z /\ (0 <= o_ny o)%Z /\ zlen (o_cell o) = (o_nx o * o_ny o)%Z /\ forall c, In c (o_xgrid o) -> wf_cell T o c.
Definition wf_opts (p : opts) : Prop := (1 <= p_nz p)%Z /\ ((1 < p_nz p)%Z -> p_missing p = None /\ p_measures p = false /\ p_sum p = false).

Lemma dst_range T o c : wf_cell T o c -> (0 <= dst_cell o c < o_nx o * o_ny o)%Z.
Proof. intros (_ & _ & _ & Hi & Hj). unfold dst_cell. nia. Qed.

Lemma accumulate_run m p T o : (m = Order1 \/ m = Order2) -> wf_opts p -> (forall t, In t T -> wf_tile m p t) -> wf_otile T o ->
  areas_known m p T [o] ->
  let N := (o_nx o * o_ny o)%Z in let M := (o_nx o * o_ny o * p_nz p)%Z in
  exists d a u, M_Fregrid.accumulate m p T o (repeat 0 (Z.to_nat M), repeat 0 (Z.to_nat M), repeat 0%Z (Z.to_nat M)) = Ok (d, a, u)
   /\ vec d M (fun i => total m p T o (i / N) (i mod N)) /\ vec a M (fun i => weight_on m p T o (i mod N))
   /\ vec u M (fun i => b01 (used m p T o (i mod N))).
Proof.
  intros Hm (Hz & Hz1) HT (Hx & Hy & HC & HX) HA N M. assert (HM : (0 <= M)%Z) by (unfold M; nia).
  assert (E : forall st, M_Fregrid.accumulate m p T o st = ofold (push m p T o) (flat_map (items m p T) (o_xgrid o)) st).
  { intros st. rewrite ofold_flat_map. unfold M_Fregrid.accumulate.
    assert (Ha : forall c, In c (o_xgrid o) -> p_missing p <> None -> ok m p T c = true -> area_ok p T c).
    { intros c Hc Hpm Ho H1 H2. apply (HA H1 H2 Hpm o c); auto. now left. }
    destruct Hm as [-> | ->]; destruct (p_missing p) as [mv|] eqn:Em; apply ofold_ext; intros s c Hc; (assert (Hz1' : (1 < p_nz p)%Z -> p_missing p = None /\ p_measures p = false /\ p_sum p = false) by (rewrite Em; auto)).
    - apply cell_o1m_eq; auto; try congruence. apply Ha; auto; congruence.
    - apply cell_o1_eq; auto.
    - apply cell_o2m_eq; auto; try congruence. apply Ha; auto; congruence.
    - apply cell_o2_eq; auto. }
  rewrite E. clear E.
  destruct (add_all (key o) (fun x => x_value m p T (fst x) (snd x)) (fun x => x_weight p T (fst x)) true M (flat_map (items m p T) (o_xgrid o)) (fun _ => 0) (fun _ => 0) (fun _ => 0%Z) _ _ _
     (vec_repeat 0 M HM) (vec_repeat 0 M HM) (vec_repeat 0%Z M HM)) as (d & a & u & E & Vd & Va & Vu).
  { intros x Hi. apply in_flat_map in Hi. destruct Hi as (c & Hc & Hi). unfold items in Hi. destruct (ok m p T c); [|destruct Hi]. apply in_map_iff in Hi. destruct Hi as (k & <- & Hk). apply In_zseq in Hk.
    pose proof (dst_range _ _ _ (HX c Hc)). unfold key. cbn [fst snd]. unfold M. fold N in H |- *. nia. }
  exists d, a, u. split; [exact E|].
  assert (Fl : forall i, (0 <= i < M)%Z -> filter (fun x => (key o x =? i)%Z) (flat_map (items m p T) (o_xgrid o)) = map (fun c => (c, i / N)%Z) (used m p T o (i mod N))).
  { intros i Hi. assert (HN : (0 < N)%Z) by (unfold M in Hi; fold N in Hi; nia).
    pose proof (Z.div_mod i N ltac:(lia)) as DM. pose proof (Z.mod_pos_bound i N HN) as MB.
    assert (Hk : (0 <= i / N < p_nz p)%Z) by (unfold M in Hi; fold N in Hi; nia).
    unfold used, over. change (fun c => valid p (in_value m T c 0)) with (ok m p T).
    rewrite <- (filter_levels o (ok m p T) (o_xgrid o) (p_nz p) N (i / N) (i mod N) MB Hk).
    - unfold key. fold N. rewrite (Z.mul_comm (i / N) N), <- DM. reflexivity.
    - intros c Hc. apply (dst_range T). auto. }
  split; [|split]; (eapply vec_ext; [|eassumption]); intros i Hi; cbv beta; rewrite Fl by auto; rewrite ?rsum_map; cbn [fst snd].
  - rewrite Rplus_0_l; reflexivity.
  - rewrite Rplus_0_l; reflexivity.
  - destruct (used m p T o (i mod N)); reflexivity.
Qed.

(** The value before the target-area correction. *)
Definition raw (m : method) (p : opts) (T : list tile) (o : otile) (k n : Z) : R :=
  match used m p T o n with
  | [] => fill p
  | _ => if p_sum p then (if Req_EM_T (weight_on m p T o n) 0 then 0 else total m p T o k n)
         else if Rlt_dec 0 (weight_on m p T o n) then total m p T o k n / weight_on m p T o n else 0
  end.
Lemma finish_run m p T o d a u : let N := (o_nx o * o_ny o)%Z in let M := (o_nx o * o_ny o * p_nz p)%Z in
  vec d M (fun i => total m p T o (i / N) (i mod N)) -> vec a M (fun i => weight_on m p T o (i mod N)) ->
  vec u M (fun i => b01 (used m p T o (i mod N))) ->
  exists r, finish p M (d, a, u) = Ok r /\ vec r M (fun i => raw m p T o (i / N) (i mod N)).
Proof.
  intros N M Vd Va Vu. unfold finish. pose proof (vec_len _ _ _ Vd) as HM.
  match goal with |- context [ofor 0 M ?f d] => destruct (ofor_vec f M 0 M
    (fun j i => if (i <? j)%Z then raw m p T o (i / N) (i mod N) else total m p T o (i / N) (i mod N)) d HM) as (r & E & V) end.
  - eapply vec_ext; [|exact Vd]. intros i Hi. cbv beta. destruct (Z.ltb_spec i 0); auto; lia.
  - intros i g Hi Hg. rewrite (vec_get _ _ _ _ Va), (vec_get _ _ _ _ Vu) by lia. cbn [bind].
    assert (SET : forall v, v = raw m p T o (i / N) (i mod N) -> exists g', oset g i v = Ok g' /\ vec g' M (fun i0 => if (i0 <? i + 1)%Z then raw m p T o (i0 / N) (i0 mod N) else total m p T o (i0 / N) (i0 mod N))).
    { intros v ->. eapply vec_set; [exact Hg|lia|]. intros j Hj. destruct (Z.eqb_spec j i) as [->|NE]. - destruct (Z.ltb_spec i (i + 1)); auto; lia. - destruct (Z.ltb_spec j (i + 1)), (Z.ltb_spec j i); auto; lia. }
    destruct (p_sum p) eqn:Es.
    + destruct (reqb_spec (weight_on m p T o (i mod N)) 0) as [W0|W0].
      * apply SET. unfold raw. rewrite Es. rewrite missing_fill. destruct (used m p T o (i mod N)) eqn:Eu; cbn; auto. destruct (Req_EM_T _ 0); auto; contradiction.
      * exists g. split; auto. eapply vec_ext; [|exact Hg]. intros j Hj. cbv beta. destruct (Z.ltb_spec j (i + 1)), (Z.ltb_spec j i); auto; try lia. assert (j = i) by lia. subst j.
        unfold raw. rewrite Es. destruct (used m p T o (i mod N)) eqn:Eu. { exfalso. apply W0. unfold weight_on. rewrite Eu. reflexivity. } destruct (Req_EM_T _ 0); auto; contradiction.
    + destruct (rlt_spec 0 (weight_on m p T o (i mod N))) as [W|W].
      * rewrite (vec_get _ _ _ _ Hg) by lia. cbn [bind]. destruct (Z.ltb_spec i i); [lia|]. apply SET. unfold raw. rewrite Es. destruct (used m p T o (i mod N)) eqn:Eu. { exfalso. unfold weight_on in W. rewrite Eu in W. cbn in W. lra. } destruct (Rlt_dec _ _); auto; contradiction.
      * apply SET. unfold raw. rewrite Es, missing_fill. destruct (used m p T o (i mod N)) eqn:Eu; cbn; auto. destruct (Rlt_dec _ _); auto. contradiction.
  - exists r. split; auto. eapply vec_ext; [|exact V]. intros i Hi. cbv beta. destruct (Z.ltb_spec i (0 + M)); auto; lia.
Qed.

Lemma target_run m p T o r : wf_opts p -> (forall t, In t T -> wf_tile m p t) -> wf_otile T o -> p_sum p = false -> p_target p = true ->
  let N := (o_nx o * o_ny o)%Z in let M := (o_nx o * o_ny o * p_nz p)%Z in
  vec r M (fun i => raw m p T o (i / N) (i mod N)) ->
  exists r', to_target p T o r = Ok r' /\ vec r' M (fun i => remapped m p T o (i / N) (i mod N)).
Proof.
  intros (Hz & Hz1) HT (Hx & Hy & HC & HX) Es Et N M Vr. unfold to_target. fold N. assert (HN : (0 <= N)%Z) by (unfold N; nia).
  destruct (P_Interp2.accumulate (dst_cell o) (fun c => if p_measures p then x_a c * at_ (t_frac (src T c)) (src_cell T c) / at_ (t_cell (src T c)) (src_cell T c) else x_a c) N (o_xgrid o)
     (fun oa c => do t <- oget T (x_t c) ; let n0 := (x_jo c * o_nx o + x_io c)%Z in let n1 := (x_j c * t_nx t + x_i c)%Z in do s <- oget oa n0 ;
      if p_measures p then do f <- oget (t_frac t) n1 ; do a <- oget (t_cell t) n1 ; oset oa n0 (s + x_a c * f / a) else oset oa n0 (s + x_a c)) _ _ (vec_repeat 0 N HN)) as (oa & E & Vo).
  { intros c Hc. apply (dst_range T). auto. }
  { intros oa c Hc. pose proof (HX c Hc) as Wc. destruct (src_get T o c Wc) as (-> & HI). cbn [bind]. fold (dst_cell o c). fold (src_cell T c). apply bind_ext. intros s.
    destruct (p_measures p) eqn:Eme; auto. destruct (HT _ HI) as (_ & _ & HCl & _ & HF & _). pose proof (src_range T o c Wc). rewrite !get_at by (rewrite ?HF, ?HCl; auto). reflexivity. }
  cbv zeta in E |- *. rewrite E. cbn [bind]. clear E. change (N * p_nz p)%Z with M.
  pose proof (vec_len _ _ _ Vr) as HM.
  match goal with |- context [ofor 0 M ?f r] => destruct (ofor_vec f M 0 M
    (fun j i => if (i <? j)%Z then remapped m p T o (i / N) (i mod N) else raw m p T o (i / N) (i mod N)) r HM) as (r' & E & V) end.
  - eapply vec_ext; [|exact Vr]. intros i Hi. cbv beta. destruct (Z.ltb_spec i 0); auto; lia.
  - intros i g Hi Hg. assert (HN0 : (0 < N)%Z) by (unfold M in Hi; fold N in Hi; nia). pose proof (Z.mod_pos_bound i N HN0) as MB.
    rewrite (vec_get _ _ _ _ Hg) by lia. cbn [bind]. destruct (Z.ltb_spec i i); [lia|].
    assert (ER : remapped m p T o (i / N) (i mod N) = if Req_EM_T (raw m p T o (i / N) (i mod N)) (fill p) then raw m p T o (i / N) (i mod N) else raw m p T o (i / N) (i mod N) * (area_on p T o (i mod N) / at_ (o_cell o) (i mod N))).
    { unfold remapped, raw. rewrite Es, Et. destruct (used m p T o (i mod N)); auto. destruct (Req_EM_T (fill p) (fill p)); auto; contradiction. }
    rewrite Z.rem_mod_nonneg by lia. rewrite missing_fill. destruct (reqb_spec (raw m p T o (i / N) (i mod N)) (fill p)) as [Q|Q]; cbn [negb].
    + exists g. split; auto. eapply vec_ext; [|exact Hg]. intros j Hj. cbv beta. destruct (Z.ltb_spec j (i + 1)), (Z.ltb_spec j i); auto; try lia. assert (j = i) by lia. subst j. rewrite ER. destruct (Req_EM_T _ (fill p)); auto; contradiction.
    + rewrite (vec_get _ _ _ _ Vo) by lia. cbn [bind]. rewrite get_at by (rewrite HC; auto). cbn [bind].
      eapply vec_set; [exact Hg|lia|]. intros j Hj. destruct (Z.eqb_spec j i) as [->|NE].
      * destruct (Z.ltb_spec i (i + 1)); [|lia]. rewrite ER. destruct (Req_EM_T _ (fill p)); [contradiction|]. unfold area_on, over. rewrite Rplus_0_l. reflexivity.
      * destruct (Z.ltb_spec j (i + 1)), (Z.ltb_spec j i); auto; lia.
  - exists r'. split; [exact E|]. eapply vec_ext; [|exact V]. intros i Hi. cbv beta. destruct (Z.ltb_spec i (0 + M)); auto; lia.
Qed.

Lemma one_tile_run m p T o : (m = Order1 \/ m = Order2) -> wf_opts p -> (forall t, In t T -> wf_tile m p t) -> wf_otile T o ->
  areas_known m p T [o] ->
  exists r, one_tile m p T o = Ok r /\ vec r (o_nx o * o_ny o * p_nz p) (fun i => remapped m p T o (i / (o_nx o * o_ny o)) (i mod (o_nx o * o_ny o))).
Proof.
  intros Hm Hp HT Ho HA. unfold one_tile. destruct (accumulate_run m p T o Hm Hp HT Ho HA) as (d & a & u & E & Vd & Va & Vu). rewrite E. cbn [bind]. clear E.
  destruct (finish_run m p T o d a u Vd Va Vu) as (r & E & Vr). rewrite E. cbn [bind].
  destruct (p_sum p) eqn:Es; cbn [negb andb]; [|destruct (p_target p) eqn:Et].
  - exists r. split; auto. eapply vec_ext; [|exact Vr]. intros i Hi. cbv beta. unfold raw, remapped. rewrite Es. destruct (used _ _ _ _ _); auto.
  - apply (target_run m p T o r Hp HT Ho Es Et Vr).
  - exists r. split; auto. eapply vec_ext; [|exact Vr]. intros i Hi. cbv beta. unfold raw, remapped. rewrite Es, Et. destruct (used _ _ _ _ _); auto.
Qed.

Lemma tiles_run {A B} (f : A -> outcome B) O acc : (forall o, In o O -> exists r, f o = Ok r) ->
  exists outs, ofold (fun l o => do d <- f o ; Ok (l ++ [d])) O acc = Ok (acc ++ outs) /\ Forall2 (fun o r => f o = Ok r) O outs.
Proof.
  revert acc. induction O as [|o O IH]; intros acc H; cbn [ofold].
  - exists []. rewrite app_nil_r. auto.
  - destruct (H o (or_introl eq_refl)) as (r & E). rewrite E. cbn [bind]. destruct (IH (acc ++ [r])) as (outs & E2 & F). { intros; apply H; now right. }
    exists (r :: outs). rewrite E2, <- app_assoc. auto.
Qed.

Lemma do_scalar_run m p T O : (m = Order1 \/ m = Order2) -> wf m p T O -> areas_known m p T O ->
  exists outs, do_scalar m p T O = Ok outs
   /\ Forall2 (fun o r => vec r (o_nx o * o_ny o * p_nz p) (fun i => remapped m p T o (i / (o_nx o * o_ny o)) (i mod (o_nx o * o_ny o)))) O outs.
Proof.
  intros Hm (Hz & Hz1 & HT & HO) HA.
  assert (R : forall o, In o O -> exists r, one_tile m p T o = Ok r /\ vec r (o_nx o * o_ny o * p_nz p) (fun i => remapped m p T o (i / (o_nx o * o_ny o)) (i mod (o_nx o * o_ny o)))).
  { intros o Ho. apply one_tile_run; auto. - split; auto. - apply HO; auto. - intros H1 H2 H3 o' c [<-|[]]. apply HA; auto. }
  destruct (tiles_run (one_tile m p T) O []) as (outs & E & F). { intros o Ho. destruct (R o Ho) as (r & ? & _). eauto. }
  exists outs. split.
  - unfold do_scalar. destruct (Z.ltb_spec 1 (p_nz p)) as [C|C]; cbn [andb]; [|exact E]. destruct (Hz1 C) as (-> & -> & ->). exact E.
  - clear E. induction F as [|o r O outs Hr F IH]; constructor.
    + destruct (R o (or_introl eq_refl)) as (r' & E & V). congruence.
    + apply IH. * intros; apply HO; now right. * intros H1 H2 H3 o' c Ho'. apply HA; auto. now right. * intros; apply R; now right.
Qed.
