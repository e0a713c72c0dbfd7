From Verif Require Import Base Loops Lst M_Compress Spec_Compress.

Fixpoint coords (ds : list cdim) (i : Z) : list Z :=
  match ds with [] => [] | d :: ds => i mod cd_len d :: coords ds (i / cd_len d) end.

Lemma coords_0 ds : Forall dim_ok ds -> coords ds 0 = map (fun _ => 0) ds.
Proof. induction 1 as [|d ds [Hd _] _ IH]; cbn [coords map]; auto. rewrite Zmod_0_l, Zdiv_0_l. now rewrite IH. Qed.

Lemma divmod_next a b : 0 < b -> (a mod b + 1 < b -> (a + 1) / b = a / b /\ (a + 1) mod b = a mod b + 1) /\
   (b <= a mod b + 1 -> (a + 1) / b = a / b + 1 /\ (a + 1) mod b = 0).
Proof.
  intros H. pose proof (Z.mod_pos_bound a b H) as B. pose proof (Z.div_mod a b ltac:(lia)) as E. split; intros H1.
  - assert (X : (a + 1) / b = a / b) by (symmetry; apply (Z.div_unique_pos (a + 1) b (a / b) (a mod b + 1)); lia). split; auto.
    rewrite Z.mod_eq by lia. rewrite X. lia.
  - assert (X : (a + 1) / b = a / b + 1) by (symmetry; apply (Z.div_unique_pos (a + 1) b (a / b + 1) 0); lia). split; auto.
    rewrite Z.mod_eq by lia. rewrite X. lia.
Qed.

Lemma incr_coords ds : Forall dim_ok ds -> forall i, 0 <= i -> incr ds (coords ds i) = coords ds (i + 1).
Proof.
  induction 1 as [|d ds [Hd _] _ IH]; intros i Hi; cbn [incr coords]; auto.
  destruct (divmod_next i (cd_len d) ltac:(lia)) as [K1 K2].
  destruct (Z.ltb_spec (i mod cd_len d + 1) (cd_len d)) as [L|L].
  - destruct (K1 L) as [-> ->]. reflexivity.
  - destruct (K2 L) as [-> ->]. rewrite IH; auto. apply Z.div_pos; lia.
Qed.

Lemma file_size_pos ds : Forall dim_ok ds -> 0 < file_size ds.
Proof. unfold file_size. induction 1 as [|d ds [Hd _] _ IH]; cbn; nia. Qed.

Lemma coords_valid ds : Forall dim_ok ds -> forall i, 0 <= i < file_size ds -> coords_ok ds (coords ds i) /\ file_pos ds (coords ds i) = i.
Proof.
  induction 1 as [|d ds [Hd H2] H1 IH]; intros i Hi.
  - cbn in *. split; [constructor|lia].
  - unfold file_size in *. cbn [fold_right] in Hi. cbn [coords file_pos]. pose proof (Z.mod_pos_bound i (cd_len d) ltac:(lia)).
    pose proof (Z.div_mod i (cd_len d) ltac:(lia)). destruct (IH (i / cd_len d)) as [K1 K2].
    { split; [apply Z.div_pos; lia|apply Z.div_lt_upper_bound; lia]. }
    split; [constructor; auto|]. rewrite K2. lia.
Qed.
Lemma valid_coords ds : Forall dim_ok ds -> forall cs, coords_ok ds cs -> 0 <= file_pos ds cs < file_size ds /\ coords ds (file_pos ds cs) = cs.
Proof.
  intros H cs Hc. induction Hc as [|d ds c cs Hcd Hc IH].
  - cbn. split; [lia|auto].
  - inversion H as [|? ? Hd Hds]; subst. destruct (IH Hds) as [K1 K2]. unfold file_size in *. cbn [file_pos fold_right coords].
    split; [nia|]. assert (E : (c + cd_len d * file_pos ds cs) / cd_len d = file_pos ds cs) by (symmetry; apply (Z.div_unique_pos _ _ _ c); lia).
    rewrite E, K2. f_equal. rewrite Z.mod_eq by lia. rewrite E. lia.
Qed.

Lemma dest_ok ds : Forall dim_ok ds -> forall cs s acc, coords_ok ds cs ->
  dest ds (strides ds s) cs acc = Ok (match grid_point ds cs with Some q => Some (acc + s * q) | None => None end).
Proof.
  intros H cs s acc Hc. revert s acc. induction Hc as [|d ds c cs Hcd Hc IH]; intros s acc.
  - cbn. f_equal. f_equal. lia.
  - inversion H as [|? ? [Hd Hi] Hds]; subst. specialize (IH Hds). cbn [strides dest grid_point].
    destruct (cd_idx d) as [l|].
    + destruct (zget_in_range l c ltac:(lia)) as (x & Ex). rewrite (proj2 (oget_Ok _ _ _) Ex), Ex. cbn [bind].
      destruct (Z.geb_spec x 0).
      * rewrite IH. destruct (grid_point ds cs) as [q|]; auto. destruct (Z.ltb_spec x 0); [lia|]. f_equal. f_equal. ring.
      * destruct (grid_point ds cs); auto. destruct (Z.ltb_spec x 0); [auto|lia].
    + rewrite IH. destruct (grid_point ds cs) as [q|]; auto. destruct (Z.ltb_spec c 0); [lia|]. f_equal. f_equal. ring.
Qed.

Lemma psrc_ok ds : Forall dim_ok ds -> forall cs s acc q, coords_ok ds cs -> grid_point ds cs = Some q ->
  psrc ds (strides ds s) cs acc = Ok (acc + s * q).
Proof.
  intros H cs s acc q Hc. revert s acc q. induction Hc as [|d ds c cs Hcd Hc IH]; intros s acc q Hq.
  - cbn in *. injection Hq as <-. f_equal. ring.
  - inversion H as [|? ? [Hd Hi] Hds]; subst. specialize (IH Hds). cbn [strides psrc grid_point] in *.
    destruct (grid_point ds cs) as [q'|] eqn:Eq; [|discriminate]. specialize (fun s acc => IH s acc q' eq_refl).
    destruct (cd_idx d) as [l|].
    + destruct (zget l c) as [x|] eqn:Ex; [|discriminate]. rewrite (proj2 (oget_Ok _ _ _) Ex). cbn [bind]. rewrite IH. destruct (x <? 0); [discriminate|]. injection Hq as <-. f_equal. ring.
    + rewrite IH. destruct (c <? 0); [discriminate|]. injection Hq as <-. f_equal. ring.
Qed.

Lemma grid_point_range ds : Forall dim_ok ds -> forall cs p, coords_ok ds cs -> grid_point ds cs = Some p -> 0 <= p < grid_size ds.
Proof.
  intros H cs p Hc. revert p. induction Hc as [|d ds c cs Hcd Hc IH]; intros p Hp.
  - cbn in *. injection Hp as <-. lia.
  - inversion H as [|? ? [Hd Hi] Hds]; subst. specialize (IH Hds). cbn [grid_point] in Hp. unfold grid_size in *. cbn [fold_right].
    destruct (grid_point ds cs) as [q|]; [|discriminate]. specialize (IH q eq_refl).
    assert (Hu : forall u, (match cd_idx d with Some l => zget l c | None => Some c end) = Some u -> u < cd_full d).
    { intros u Eu. destruct (cd_idx d) as [l|]; [|injection Eu as <-; lia]. destruct Hi as [_ Hi]. apply Hi. eapply zget_In; eauto. }
    destruct (match cd_idx d with Some l => zget l c | None => Some c end) as [u|]; [|discriminate]. specialize (Hu u eq_refl).
    destruct (Z.ltb_spec u 0); [discriminate|]. injection Hp as <-. nia.
Qed.

(** The target of file position [k]. *)
Definition target (ds : list cdim) (k : Z) : option Z := grid_point ds (coords ds k).

Section Loop.
  Context {A : Type} (ds : list cdim) (Hds : Forall dim_ok ds) (buffer : list A) (Hb : zlen buffer = file_size ds).

  Definition written (data0 : list A) (mask0 : list bool) (n : Z) (data : list A) (mask oc : list bool) : Prop :=
    zlen data = zlen data0 /\ zlen mask = zlen mask0 /\ zlen oc = zlen data0 /\
    forall p, 0 <= p < zlen data0 ->
      (exists k, 0 <= k < n /\ target ds k = Some p /\ (forall k', k < k' < n -> target ds k' <> Some p)
         /\ zget data p = zget buffer k /\ zget mask p = Some true /\ zget oc p = Some true)
      \/ ((forall k, 0 <= k < n -> target ds k <> Some p) /\ zget data p = zget data0 p /\ zget mask p = zget mask0 p /\ zget oc p = Some false).

  Lemma get_loop data0 mask0 : zlen data0 = grid_size ds -> zlen mask0 = grid_size ds ->
    exists data mask oc idx, ofor 0 (zlen buffer) (fun '(data, mask, oc, idx) i =>
      do t <- dest ds (strides ds 1) idx 0 ;
      do v <- oget buffer i ;
      match t with
      | Some p => do data <- oset data p v ; do mask <- oset mask p true ; do oc <- oset oc p true ;
                  Ok (data, mask, oc, incr ds idx)
      | None => Ok (data, mask, oc, incr ds idx)
      end) (data0, mask0, repeat false (length data0), map (fun _ => 0) ds) = Ok (data, mask, oc, idx)
    /\ written data0 mask0 (file_size ds) data mask oc.
  Proof.
    intros Hd Hm.
    match goal with |- context [ofor 0 _ ?f ?s] =>
      destruct (ofor_inv (fun i (st : list A * list bool * list bool * list Z) => let '(data, mask, oc, idx) := st in
         idx = coords ds i /\ written data0 mask0 i data mask oc) f 0 (zlen buffer) s) as ([[[data mask] oc] idx] & E & HI) end.
    - apply zlen_nonneg.
    - rewrite coords_0 by auto. split; auto. split; [auto|]. split; auto. split; [rewrite zlen_repeat; unfold zlen; lia|]. intros p Hp. right. split; [lia|]. split; auto. split; auto.
      apply zget_repeat. unfold zlen in Hp. lia.
    - intros i [[[data mask] oc] idx] Hi (-> & L1 & L2 & L3 & HW). rewrite Z.add_0_l in Hi. rewrite Hb in Hi.
      destruct (coords_valid ds Hds i Hi) as [Hv _]. rewrite dest_ok by auto. cbn [bind].
      destruct (zget_in_range buffer i ltac:(lia)) as (v & Ev). rewrite (proj2 (oget_Ok _ _ _) Ev). cbn [bind].
      rewrite incr_coords by (auto; lia).
      destruct (grid_point ds (coords ds i)) as [p|] eqn:Ep.
      + pose proof (grid_point_range ds Hds _ _ Hv Ep) as Hp. replace (0 + 1 * p) with p by lia.
        destruct (zset_Some data p v ltac:(lia)) as (data' & Ed). destruct (zset_Some mask p true ltac:(lia)) as (mask' & Em). destruct (zset_Some oc p true ltac:(lia)) as (oc' & Eo).
        rewrite (proj2 (oset_Ok _ _ _ _) Ed), (proj2 (oset_Ok _ _ _ _) Em). cbn [bind]. rewrite (proj2 (oset_Ok _ _ _ _) Eo). cbn [bind].
        eexists. split; [reflexivity|]. split; auto. pose proof (zset_len _ _ _ _ Ed). pose proof (zset_len _ _ _ _ Em). pose proof (zset_len _ _ _ _ Eo).
        split; [lia|]. split; [lia|]. split; [lia|]. intros q Hq. destruct (Z.eq_dec q p) as [->|Hne].
        * left. exists i. split; [lia|]. split; auto. split; [lia|]. rewrite (zget_zset_eq _ _ _ _ Ed), (zget_zset_eq _ _ _ _ Em), (zget_zset_eq _ _ _ _ Eo). auto.
        * rewrite (zget_zset_ne _ _ _ _ _ Ed), (zget_zset_ne _ _ _ _ _ Em), (zget_zset_ne _ _ _ _ _ Eo) by auto.
          destruct (HW q Hq) as [(k & Hk & Et & Hl & R)|(Hno & R)]; [left|right].
          -- exists k. split; [lia|]. split; auto. split; auto. intros k' Hk'. destruct (Z.eq_dec k' i) as [->|]; [unfold target; congruence|apply Hl; lia].
          -- split; auto. intros k Hk. destruct (Z.eq_dec k i) as [->|]; [unfold target; congruence|apply Hno; lia].
      + eexists. split; [reflexivity|]. split; auto. split; [auto|]. split; [auto|]. split; [auto|]. intros q Hq.
        destruct (HW q Hq) as [(k & Hk & Et & Hl & R)|(Hno & R)]; [left|right].
        * exists k. split; [lia|]. split; auto. split; auto. intros k' Hk'. destruct (Z.eq_dec k' i) as [->|]; [unfold target; congruence|apply Hl; lia].
        * split; auto. intros k Hk. destruct (Z.eq_dec k i) as [->|]; [unfold target; congruence|apply Hno; lia].
    - rewrite Z.add_0_l, Hb in HI. exists data, mask, oc, idx. destruct HI as [_ HI]. auto.
  Qed.

  Lemma fill_loop (oc : list bool) (data : list A) v : zlen oc = zlen data ->
    exists data', ofor 0 (zlen oc) (fun data i => do b <- oget oc i ; if (b : bool) then Ok data else oset data i v) data = Ok data'
    /\ zlen data' = zlen data /\ forall p, 0 <= p < zlen data -> zget data' p = match zget oc p with Some false => Some v | _ => zget data p end.
  Proof.
    intros Hl. match goal with |- context [ofor 0 _ ?f ?s] =>
      destruct (ofor_inv (fun i (d : list A) => zlen d = zlen data /\ forall p, 0 <= p < zlen data -> zget d p = if p <? i then match zget oc p with Some false => Some v | _ => zget data p end else zget data p) f 0 (zlen oc) s) as (d & E & L & HI) end.
    - apply zlen_nonneg.
    - split; auto. intros p Hp. destruct (Z.ltb_spec p 0); [lia|auto].
    - intros i d Hi [L HI]. destruct (zget_in_range oc i ltac:(lia)) as (b & Eb). rewrite (proj2 (oget_Ok _ _ _) Eb). cbn [bind]. destruct b.
      + exists d. split; auto. split; auto. intros p Hp. rewrite HI by auto. destruct (Z.ltb_spec p i), (Z.ltb_spec p (i + 1)); auto; try lia.
        replace p with i by lia. rewrite Eb. auto.
      + destruct (zset_Some d i v ltac:(lia)) as (d' & Ed). rewrite (proj2 (oset_Ok _ _ _ _) Ed). exists d'. split; auto. pose proof (zset_len _ _ _ _ Ed). split; [lia|].
        intros p Hp. destruct (Z.eq_dec p i) as [->|Hne].
        * rewrite (zget_zset_eq _ _ _ _ Ed). destruct (Z.ltb_spec i (i + 1)); [|lia]. now rewrite Eb.
        * rewrite (zget_zset_ne _ _ _ _ _ Ed), HI by auto. destruct (Z.ltb_spec p i), (Z.ltb_spec p (i + 1)); auto; lia.
    - exists d. split; auto. split; auto. intros p Hp. rewrite HI by auto. destruct (Z.ltb_spec p (0 + zlen oc)); [auto|lia].
  Qed.

  Lemma get_ok data0 mask0 ocean : zlen data0 = grid_size ds -> zlen mask0 = grid_size ds ->
    exists data mask, get_compressed ds buffer data0 mask0 ocean = Ok (data, mask)
    /\ zlen data = zlen data0 /\ zlen mask = zlen mask0
    /\ forall p, 0 <= p < zlen data0 ->
      (exists k, 0 <= k < file_size ds /\ target ds k = Some p /\ (forall k', k < k' < file_size ds -> target ds k' <> Some p)
         /\ zget data p = zget buffer k /\ zget mask p = Some true)
      \/ ((forall k, 0 <= k < file_size ds -> target ds k <> Some p) /\ zget data p = (match ocean with None => zget data0 p | Some v => Some v end) /\ zget mask p = zget mask0 p).
  Proof.
    intros Hd Hm. unfold get_compressed. destruct (get_loop data0 mask0 Hd Hm) as (data & mask & oc & idx & E & L1 & L2 & L3 & HW). rewrite E. cbn [bind].
    destruct ocean as [v|].
    - destruct (fill_loop oc data v ltac:(lia)) as (data' & E' & L' & HF). rewrite E'. cbn [bind]. exists data', mask. split; auto. split; [lia|]. split; auto.
      intros p Hp. rewrite HF by lia. destruct (HW p Hp) as [(k & Hk & Et & Hl & R1 & R2 & R3)|(Hno & R1 & R2 & R3)]; rewrite R3.
      + left. exists k. auto.
      + right. auto.
    - exists data, mask. split; auto. split; [auto|]. split; auto. intros p Hp. destruct (HW p Hp) as [(k & Hk & Et & Hl & R1 & R2 & R3)|(Hno & R1 & R2 & R3)].
      + left. exists k. auto.
      + right. auto.
  Qed.
End Loop.

(** Positions and coordinates. *)
Lemma listed_target ds : Forall dim_ok ds -> forall p,
  (forall cs, listed ds cs p -> 0 <= file_pos ds cs < file_size ds /\ target ds (file_pos ds cs) = Some p)
  /\ (forall k, 0 <= k < file_size ds -> target ds k = Some p -> listed ds (coords ds k) p /\ file_pos ds (coords ds k) = k).
Proof.
  intros H p. split.
  - intros cs [Hv Hp]. destruct (valid_coords ds H cs Hv) as [K1 K2]. split; auto. unfold target. now rewrite K2.
  - intros k Hk Ht. destruct (coords_valid ds H k Hk) as [K1 K2]. split; auto. split; auto.
Qed.
