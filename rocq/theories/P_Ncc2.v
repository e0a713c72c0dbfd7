From Verif Require Import Base Loops Lst M_Compress Spec_Compress P_Compress M_Ncc Spec_Ncc P_Ncc T_Compress.
From Coq Require Import Permutation Sorting.Sorted.

Lemma lexlt_before x a b : valid x a -> valid x b -> lexlt x a b -> before x a b.
Proof.
  intros Va Vb H. destruct (zget_in_range x a Va) as (va & Ea). destruct (zget_in_range x b Vb) as (vb & Eb).
  exists va, vb. split; auto. split; auto. unfold lexlt, key in H. rewrite Ea, Eb in H. exact H.
Qed.
Lemma ss_weaken {R R' : Z -> Z -> Prop} l : (forall a b, In a l -> In b l -> R a b -> R' a b) -> StronglySorted R l -> StronglySorted R' l.
Proof.
  intros H S. induction S as [|a l S IH F]; constructor.
  - apply IH. intros; apply H; cbn; auto.
  - rewrite Forall_forall in *. intros b Hb. apply H; cbn; auto.
Qed.

Lemma combine_ranking idxs : exists r, ranking (concat idxs) r /\
  (Permutation r (filter (fun q => key (concat idxs) q >=? 0) (zseq 0 (zlen (concat idxs))))) /\
  forall A (datas : list (list A)), map (@length A) datas = map (@length Z) idxs ->
  exists out, combine_slice idxs datas = Ok out /\ zlen out = zlen r /\ forall k q, zget r k = Some q -> zget out k = zget (concat datas) q.
Proof.
  destruct (reorder_ok idxs) as (rank & pos & E & L & G & P & S). exists pos.
  assert (V : Forall (valid (concat idxs)) pos).
  { apply Forall_forall. intros q Hq. apply (Permutation_in _ P) in Hq. apply filter_In in Hq. destruct Hq as [Hq _]. apply In_zseq in Hq. unfold valid. lia. }
  split; [|split; auto].
  - split.
    + intros q. split.
      * intros Hq. apply (Permutation_in _ P) in Hq. apply filter_In in Hq. destruct Hq as [Hq Hk]. apply In_zseq in Hq. destruct (zget_in_range (concat idxs) q ltac:(lia)) as (v & Ev). exists v. split; auto. unfold key in Hk. rewrite Ev in Hk. lia.
      * intros (v & Ev & Hv). apply (Permutation_in _ (Permutation_sym P)). apply filter_In. split; [apply In_zseq; apply zget_Some_range in Ev; lia|]. unfold key. rewrite Ev. lia.
    + eapply ss_weaken; [|exact S]. intros a b Ha Hb. rewrite Forall_forall in V. apply lexlt_before; auto.
  - intros A datas HL. eapply combine_slice_ok; eauto.
Qed.

Lemma list_by_rank {A} (r : list Z) (out buf : list A) (d : A) : zlen out = zlen r -> Forall (fun q => 0 <= q < zlen buf) r -> (forall k q, zget r k = Some q -> zget out k = zget buf q) ->
  out = map (fun q => match zget buf q with Some v => v | None => d end) r.
Proof.
  intros L V H. apply zget_ext; [rewrite zlen_map; auto|]. intros k Hk. rewrite zget_map. destruct (zget_in_range r k ltac:(lia)) as (q & Eq). rewrite (H _ _ Eq), Eq. cbn.
  rewrite Forall_forall in V. destruct (zget_in_range buf q) as (v & ->); auto. apply V. eapply zget_In; eauto.
Qed.

Lemma map_zget {A} (l : list A) d : map (fun q => match zget l q with Some v => v | None => d end) (zseq 0 (zlen l)) = l.
Proof.
  pose proof (zlen_nonneg l). apply zget_ext; [rewrite zlen_map, zlen_zseq; lia|]. rewrite zlen_map, zlen_zseq by lia. intros i Hi. rewrite zget_map, zget_zseq by lia. cbn [option_map]. replace (0 + i) with i by lia. destruct (zget_in_range l i ltac:(lia)) as (v & ->). auto.
Qed.
Lemma combine_map {A B C} (f : A -> B) (g : A -> C) l : combine (map f l) (map g l) = map (fun z => (f z, g z)) l.
Proof. induction l; cbn; congruence. Qed.

(** The pairs of the result. *)
Lemma combine_pairs {A} idxs (datas : list (list A)) : map (@length A) datas = map (@length Z) idxs ->
  exists oidx out, combine_slice idxs idxs = Ok oidx /\ combine_slice idxs datas = Ok out /\ zlen out = zlen oidx
  /\ StronglySorted Z.le oidx /\ Permutation (combine oidx out) (filter (fun p => fst p >=? 0) (combine (concat idxs) (concat datas))).
Proof.
  intros HL. destruct (combine_ranking idxs) as (r & [R1 R2] & P & H). destruct (H Z idxs eq_refl) as (oidx & E1 & L1 & G1). destruct (H A datas HL) as (out & E2 & L2 & G2).
  exists oidx, out. split; auto. split; auto. split; [lia|].
  assert (V : Forall (fun q => 0 <= q < zlen (concat idxs)) r). { apply Forall_forall. intros q Hq. apply R1 in Hq. destruct Hq as (v & Ev & _). apply zget_Some_range in Ev. auto. }
  assert (V' : Forall (fun q => 0 <= q < zlen (concat datas)) r) by (rewrite (zlen_concat_eq _ _ HL); auto).
  assert (Eo := list_by_rank r oidx (concat idxs) 0 L1 V G1). fold (key (concat idxs)) in Eo. split.
  - rewrite Eo. clear -R2. induction R2 as [|a l S IH F]; cbn; constructor; auto. rewrite Forall_map. eapply Forall_impl; [|exact F]. intros b (va & vb & Ea & Eb & Hab). unfold key. rewrite Ea, Eb. lia.
  - destruct (concat datas) as [|d0 dl] eqn:Ed.
    + assert (r = []) as -> by (destruct r; auto; inversion V'; change (zlen (@nil A)) with 0 in *; lia). cbn in Eo. rewrite Eo. destruct (concat idxs); cbn; constructor.
    + rewrite <- Ed in *. assert (Eout := list_by_rank r out (concat datas) d0 L2 V' G2). rewrite Eo, Eout, combine_map.
      assert (Ec : combine (concat idxs) (concat datas) = map (fun q => (key (concat idxs) q, match zget (concat datas) q with Some v => v | None => d0 end)) (zseq 0 (zlen (concat idxs)))).
      { rewrite <- combine_map, map_key. rewrite <- (zlen_concat_eq _ _ HL), map_zget. reflexivity. }
      rewrite Ec, filter_map. apply Permutation_map. exact P.
Qed.

(** ** Scatter: the division of the grid *)
Section Grid.
  Variables px py nl mt nt : Z.
  Hypothesis Hpx : 1 <= px. Hypothesis Hpy : 1 <= py. Hypothesis Hnl : 1 <= nl. Hypothesis Hmt : 1 <= mt. Hypothesis Hnt : 1 <= nt.
  Let y := MkLayout (px * nl) (py * mt) px py.
  Let vsize := px * nl * (py * mt) * nt.
  Let vloc := nl * mt * nt.
  Definition inv (n ll : Z) : Z :=
    let r := ll mod (nl * mt) in
    (ll / (nl * mt)) * (px * nl * (py * mt)) + ((n / px) * mt + r / nl) * (px * nl) + ((n mod px) * nl + r mod nl).

  Lemma nl_eq : nlon_local y = nl.
  Proof. unfold nlon_local, y; cbn. rewrite Z.mul_comm. apply Z.div_mul. lia. Qed.
  Lemma mt_eq : nlat_local y = mt.
  Proof. unfold nlat_local, y; cbn. rewrite Z.mul_comm. apply Z.div_mul. lia. Qed.
  Lemma vloc_eq : vsize / nfiles_out y = vloc.
  Proof. unfold nfiles_out, y, vsize, vloc; cbn. replace (px * nl * (py * mt) * nt) with (nl * mt * nt * (px * py)) by ring. apply Z.div_mul. nia. Qed.

  Lemma qr b q r : 0 <= r < b -> (q * b + r) / b = q /\ (q * b + r) mod b = r.
  Proof. intros H. rewrite Z.add_comm, Z.div_add, Z.mod_add by lia. rewrite Z.div_small, Z.mod_small by lia. lia. Qed.
  Lemma dm a b : 0 < b -> a = a / b * b + a mod b /\ 0 <= a mod b < b.
  Proof. intros H. pose proof (Z.div_mod a b ltac:(lia)). pose proof (Z.mod_pos_bound a b H). lia. Qed.
  Lemma div_lt a b c : 0 < b -> 0 <= a < c * b -> 0 <= a / b < c.
  Proof. intros H1 H2. split; [apply Z.div_pos; lia|]. apply Z.div_lt_upper_bound; lia. Qed.

  (** A point is given by five coordinates. *)
  Definition point t b jj a ii := t * (px * nl * (py * mt)) + (b * mt + jj) * (px * nl) + (a * nl + ii).
  Lemma point_ok t b jj a ii : 0 <= t < nt -> 0 <= b < py -> 0 <= jj < mt -> 0 <= a < px -> 0 <= ii < nl ->
    let l := point t b jj a ii in
    0 <= l < vsize /\ file_of y l = b * px + a /\ place_of y l = t * (nl * mt) + jj * nl + ii.
  Proof.
    intros H1 H2 H3 H4 H5 l. unfold file_of, place_of. rewrite nl_eq, mt_eq. cbn [y ly_nlon ly_nlat ly_px ly_py].
    assert (I : 0 <= a * nl + ii < px * nl) by nia. assert (J : 0 <= b * mt + jj < py * mt) by nia.
    assert (K : 0 <= (b * mt + jj) * (px * nl) + (a * nl + ii) < px * nl * (py * mt)).
    { set (u := b * mt + jj) in *. set (w := a * nl + ii) in *. set (X := px * nl) in *. set (Y := py * mt) in *. clearbody u w X Y. clear -I J. nia. }
    assert (E : l = t * (px * nl * (py * mt)) + ((b * mt + jj) * (px * nl) + (a * nl + ii))) by (unfold l, point; ring).
    destruct (qr (px * nl * (py * mt)) t _ K) as [D1 M1]. rewrite <- E in D1, M1. rewrite D1, M1.
    destruct (qr (px * nl) (b * mt + jj) _ I) as [D2 M2]. rewrite D2, M2.
    destruct (qr mt b _ H3) as [D3 M3]. destruct (qr nl a _ H5) as [D4 M4]. rewrite D3, M3, D4, M4. split; [|split; ring].
    rewrite E. unfold vsize. set (N := px * nl * (py * mt)) in *. set (w := (b * mt + jj) * (px * nl) + (a * nl + ii)) in *. clearbody N w. clear -H1 K. nia.
  Qed.
  Lemma inv_point t b jj a ii : 0 <= jj < mt -> 0 <= a < px -> 0 <= ii < nl -> inv (b * px + a) (t * (nl * mt) + jj * nl + ii) = point t b jj a ii.
  Proof.
    intros H3 H4 H5. unfold inv, point. assert (K : 0 <= jj * nl + ii < nl * mt) by nia.
    destruct (qr (nl * mt) t _ K) as [D1 M1]. rewrite Z.add_assoc in D1, M1. rewrite D1, M1. destruct (qr nl jj _ H5) as [D2 M2]. rewrite D2, M2. destruct (qr px b _ H4) as [D3 M3]. rewrite D3, M3. ring.
  Qed.
  Lemma as_point l : 0 <= l < vsize -> exists t b jj a ii, l = point t b jj a ii /\ 0 <= t < nt /\ 0 <= b < py /\ 0 <= jj < mt /\ 0 <= a < px /\ 0 <= ii < nl.
  Proof.
    intros Hl. unfold vsize in Hl. set (N := px * nl * (py * mt)) in *. assert (0 < N) by (unfold N; apply Z.mul_pos_pos; nia).
    destruct (dm l N) as [E1 B1]; auto. destruct (dm (l mod N) (px * nl)) as [E2 B2]; [nia|].
    destruct (dm (l mod N / (px * nl)) mt) as [E3 B3]; [lia|]. destruct (dm (l mod N mod (px * nl)) nl) as [E4 B4]; [lia|].
    exists (l / N), (l mod N / (px * nl) / mt), (l mod N / (px * nl) mod mt), (l mod N mod (px * nl) / nl), (l mod N mod (px * nl) mod nl).
    split; [unfold point; fold N; lia|]. split; [apply div_lt; lia|]. split.
    { apply div_lt; [lia|]. apply div_lt; [nia|]. unfold N in B1. lia. }
    split; auto. split; auto. apply div_lt; lia.
  Qed.
  Lemma as_pair n ll : 0 <= n < px * py -> 0 <= ll < vloc -> exists t b jj a ii, n = b * px + a /\ ll = t * (nl * mt) + jj * nl + ii /\ 0 <= t < nt /\ 0 <= b < py /\ 0 <= jj < mt /\ 0 <= a < px /\ 0 <= ii < nl.
  Proof.
    intros Hn Hl. unfold vloc in Hl. destruct (dm n px) as [E1 B1]; [lia|]. destruct (dm ll (nl * mt)) as [E2 B2]; [nia|]. destruct (dm (ll mod (nl * mt)) nl) as [E3 B3]; [lia|].
    exists (ll / (nl * mt)), (n / px), (ll mod (nl * mt) / nl), (n mod px), (ll mod (nl * mt) mod nl).
    split; auto. split; [lia|]. split; [apply div_lt; nia|]. split; [apply div_lt; lia|]. split; [apply div_lt; lia|]. auto.
  Qed.
  Lemma point_range l : 0 <= l < vsize -> 0 <= file_of y l < px * py /\ 0 <= place_of y l < vloc /\ inv (file_of y l) (place_of y l) = l.
  Proof.
    intros Hl. destruct (as_point l Hl) as (t & b & jj & a & ii & -> & H1 & H2 & H3 & H4 & H5). destruct (point_ok t b jj a ii H1 H2 H3 H4 H5) as (_ & F & P). rewrite F, P. rewrite inv_point by auto. unfold vloc. split; [nia|]. split; auto.
    assert (0 <= jj * nl + ii < nl * mt) by nia. nia.
  Qed.
  Lemma inv_range n ll : 0 <= n < px * py -> 0 <= ll < vloc -> 0 <= inv n ll < vsize /\ file_of y (inv n ll) = n /\ place_of y (inv n ll) = ll.
  Proof.
    intros Hn Hl. destruct (as_pair n ll Hn Hl) as (t & b & jj & a & ii & -> & -> & H1 & H2 & H3 & H4 & H5). rewrite inv_point by auto. apply point_ok; auto.
  Qed.
End Grid.
