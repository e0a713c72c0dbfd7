From Verif Require Import Base Loops Lst M_Compress Spec_Compress P_Compress M_Ncc Spec_Ncc P_Ncc P_Ncc2 T_Compress.
From Coq Require Import Permutation Sorting.Sorted.

Lemma ss_lt_get (l : list Z) : StronglySorted Z.lt l -> forall i j a b, zget l i = Some a -> zget l j = Some b -> i < j -> a < b.
Proof.
  induction 1 as [|h l S IH F]; intros i j a b Ha Hb Hij; [rewrite zget_nil in Ha; discriminate|]. pose proof (zget_Some_range _ _ _ Ha). pose proof (zget_Some_range _ _ _ Hb).
  rewrite zget_cons_pos in Hb by lia. destruct (Z.eq_dec i 0) as [->|].
  - rewrite zget_cons_0 in Ha. injection Ha as <-. rewrite Forall_forall in F. apply F. eapply zget_In; eauto.
  - rewrite zget_cons_pos in Ha by lia. eapply IH; eauto. lia.
Qed.

(** Reading a variable with one compressed dimension. *)
Lemma get_1d {A} (idx : list Z) (data buf0 : list A) (m0 : list bool) vsize : 1 <= zlen idx -> StronglySorted Z.lt idx -> (forall v, In v idx -> 0 <= v < vsize) ->
  zlen data = zlen idx -> zlen buf0 = vsize -> m0 = repeat false (Z.to_nat vsize) ->
  exists buf mask, get_compressed [MkCdim (zlen idx) (Some idx) vsize] data buf0 m0 None = Ok (buf, mask) /\ zlen buf = vsize /\ zlen mask = vsize
   /\ (forall k v, zget idx k = Some v -> zget buf v = zget data k)
   /\ (forall v, 0 <= v < vsize -> zget mask v = Some (if in_dec Z.eq_dec v idx then true else false)).
Proof.
  intros H1 S V L Lb ->. set (d := MkCdim (zlen idx) (Some idx) vsize).
  assert (Hv : 0 < vsize). { destruct idx as [|a idx]; [change (zlen (@nil Z)) with 0 in H1; lia|]. specialize (V a ltac:(left; auto)). lia. }
  assert (Hd : Forall dim_ok [d]). { constructor; [|constructor]. split; auto. cbn. split; auto. intros v Hi. apply V in Hi. lia. }
  assert (Gs : grid_size [d] = vsize) by (unfold grid_size; cbn; lia).
  destruct (C18_decompress A [d] data buf0 (repeat false (Z.to_nat vsize)) None Hd) as (buf & mask & E & L1 & L2 & R1 & R2); try rewrite Gs; auto.
  { unfold file_size; cbn. lia. } { rewrite zlen_repeat. lia. }
  rewrite Gs in *. exists buf, mask. split; auto. split; auto. split; auto.
  assert (Li : forall cs p, listed [d] cs p <-> exists k, cs = [k] /\ zget idx k = Some p).
  { intros cs p. split.
    - intros [Hc Hg]. inversion Hc as [|? ? c cs' Hcr Hc' E1 E2]; subst. inversion Hc'; subst. exists c. split; auto. cbn in Hg. destruct (zget idx c) as [u|] eqn:Eu; [|discriminate]. destruct (Z.ltb_spec u 0); [discriminate|]. injection Hg as <-. f_equal. lia.
    - intros (k & -> & Hk). pose proof (zget_Some_range _ _ _ Hk). split; [constructor; [cbn; lia|constructor]|]. cbn. rewrite Hk. pose proof (V p ltac:(eapply zget_In; eauto)). destruct (Z.ltb_spec p 0); [lia|]. f_equal. lia. }
  assert (Hmax : forall k v, zget idx k = Some v -> zget buf v = zget data k /\ zget mask v = Some true).
  { intros k v Hk. destruct (R1 [k] v) as [G1 G2].
    - apply Li. eauto.
    - intros cs' Hl. apply Li in Hl. destruct Hl as (k' & -> & Hk'). cbn. assert (k' = k); [|subst; lia].
      destruct (Z.lt_trichotomy k k') as [Hlt|[Heq|Hlt]]; auto; exfalso; [pose proof (ss_lt_get idx S k k' v v Hk Hk' Hlt)|pose proof (ss_lt_get idx S k' k v v Hk' Hk Hlt)]; lia.
    - cbn in G1. replace (k + zlen idx * 0) with k in G1 by lia. auto. }
  split; [intros k v Hk; apply Hmax; auto|]. intros v Hv'. destruct (in_dec Z.eq_dec v idx) as [Hi|Hi].
  - apply In_zget in Hi. destruct Hi as (k & _ & Hk). destruct (Hmax k v Hk). auto.
  - destruct (R2 v Hv') as [G _].
    + intros cs Hl. apply Li in Hl. destruct Hl as (k & _ & Hk). apply Hi. eapply zget_In; eauto.
    + rewrite G. rewrite zget_repeat by lia. auto.
Qed.

(** ** pack *)
Lemma pack_spec {A} (P : Z -> bool) (g : Z -> A) : forall row mrow lo, length row = length mrow ->
  (forall p, 0 <= p < zlen row -> zget mrow p = Some (P (lo + p))) -> (forall p, 0 <= p < zlen row -> P (lo + p) = true -> zget row p = Some (g (lo + p))) ->
  pack row mrow = map g (filter P (zseq lo (zlen row))).
Proof.
  induction row as [|a row IH]; intros [|m mrow] lo L H1 H2; try discriminate; [reflexivity|]. rewrite zlen_cons in *. pose proof (zlen_nonneg row).
  rewrite zseq_S by lia. replace (1 + zlen row - 1) with (zlen row) by lia. cbn [filter].
  pose proof (H1 0 ltac:(lia)) as M. rewrite zget_cons_0, Z.add_0_r in M. injection M as ->. cbn in L.
  assert (E : pack row mrow = map g (filter P (zseq (lo + 1) (zlen row)))).
  { apply IH; [lia| |].
    - intros p Hp. specialize (H1 (p + 1) ltac:(lia)). rewrite zget_cons_pos in H1 by lia. replace (p + 1 - 1) with p in H1 by lia. rewrite H1. f_equal. f_equal. lia.
    - intros p Hp Hq. specialize (H2 (p + 1) ltac:(lia)). rewrite zget_cons_pos in H2 by lia. replace (p + 1 - 1) with p in H2 by lia. replace (lo + (p + 1)) with (lo + 1 + p) in H2 by lia. auto. }
  cbn [pack]. specialize (H2 0 ltac:(lia)). rewrite zget_cons_0, Z.add_0_r in H2. destruct (P lo); cbn [map]; auto. specialize (H2 eq_refl). injection H2 as ->. now rewrite E.
Qed.

Section Scatter.
  Variables px py nl mt nt : Z.
  Hypothesis Hpx : 1 <= px. Hypothesis Hpy : 1 <= py. Hypothesis Hnl : 1 <= nl. Hypothesis Hmt : 1 <= mt. Hypothesis Hnt : 1 <= nt.
  Let y := MkLayout (px * nl) (py * mt) px py.
  Let vsize := px * nl * (py * mt) * nt.
  Let vloc := nl * mt * nt.
  Variable idx : list Z.
  Hypothesis Hne : 1 <= zlen idx. Hypothesis HS : StronglySorted Z.lt idx. Hypothesis HV : forall v, In v idx -> 0 <= v < vsize.
  Definition lst (l : Z) : bool := if in_dec Z.eq_dec l idx then true else false.
  Definition order (n : Z) : list Z := filter (fun ll => lst (inv px py nl mt n ll)) (zseq 0 vloc).

  Lemma vloc_pos : 0 < vloc. Proof. unfold vloc. apply Z.mul_pos_pos; nia. Qed.
  Lemma nf_pos : 0 < px * py. Proof. nia. Qed.
  Lemma vsize_pos : 0 < vsize. Proof. unfold vsize. repeat apply Z.mul_pos_pos; lia. Qed.

  Lemma NoDup_filter {A} (p : A -> bool) l : NoDup l -> NoDup (filter p l).
  Proof. apply List.NoDup_filter. Qed.
  Lemma NoDup_map_inj {A B} (f : A -> B) l : (forall a b, In a l -> In b l -> f a = f b -> a = b) -> NoDup l -> NoDup (map f l).
  Proof. intros H N. induction N as [|a l Ha N IH]; cbn; constructor; [intros Hi; apply in_map_iff in Hi; destruct Hi as (b & E & Hb); apply H in E; cbn; auto; now subst|apply IH; intros; apply H; cbn; auto]. Qed.

  Lemma NoDup_app_intro {A} (l m : list A) : NoDup l -> NoDup m -> (forall z, In z l -> In z m -> False) -> NoDup (l ++ m).
  Proof. intros N M H. induction N as [|a l Ha N IH]; cbn; auto. constructor; [intros Hi; apply in_app_or in Hi; destruct Hi; [contradiction|eapply H; cbn; eauto]|]. apply IH. intros z Hz. apply H. cbn. auto. Qed.

  Lemma points_of_file n : 0 <= n < px * py -> Permutation (map (inv px py nl mt n) (order n)) (filter (fun l => lst l && (file_of y l =? n)) (zseq 0 vsize)).
  Proof.
    intros Hn. apply NoDup_Permutation.
    - apply NoDup_map_inj; [|apply NoDup_filter, NoDup_zseq]. intros a b Ha Hb E. apply filter_In in Ha, Hb. destruct Ha as [Ha _], Hb as [Hb _]. apply In_zseq in Ha, Hb.
      destruct (inv_range px py nl mt nt Hpx Hpy Hnl Hmt Hnt n a Hn ltac:(fold vloc; lia)) as (_ & _ & K1). destruct (inv_range px py nl mt nt Hpx Hpy Hnl Hmt Hnt n b Hn ltac:(fold vloc; lia)) as (_ & _ & K2). rewrite E in K1. congruence.
    - apply NoDup_filter, NoDup_zseq.
    - intros l. rewrite in_map_iff, filter_In. split.
      + intros (ll & <- & H). apply filter_In in H. destruct H as [Hl HL]. apply In_zseq in Hl. destruct (inv_range px py nl mt nt Hpx Hpy Hnl Hmt Hnt n ll Hn ltac:(fold vloc; lia)) as (K0 & K1 & K2). fold vsize in K0. fold y in K1, K2. split; [apply In_zseq; lia|]. rewrite HL, K1, Z.eqb_refl. auto.
      + intros [Hl H]. apply In_zseq in Hl. apply andb_prop in H. destruct H as [HL HF]. apply Z.eqb_eq in HF. destruct (point_range px py nl mt nt Hpx Hpy Hnl Hmt Hnt l ltac:(fold vsize; lia)) as (K0 & K1 & K2). fold y in K0, K1, K2. rewrite HF in K2. exists (place_of y l). split; auto. apply filter_In. split; [apply In_zseq; fold vloc in K1; lia|]. now rewrite K2.
  Qed.

  Lemma dimlen_ok : exists dl, dimlen_list y vsize idx = Ok dl /\ forall n, 0 <= n < px * py -> zget dl n = Some (zlen (order n)).
  Proof.
    unfold dimlen_list. pose proof vsize_pos. pose proof nf_pos.
    destruct (get_1d idx idx (repeat 0 (Z.to_nat vsize)) (repeat false (Z.to_nat vsize)) vsize) as (buf & mask & E & _ & _ & _ & HM); auto. { rewrite zlen_repeat. lia. }
    rewrite E. cbn [bind]. change (nfiles_out y) with (px * py).
    match goal with |- context [ofor 0 _ ?f ?s] => destruct (ofor_inv (fun i (t : list Z) => zlen t = px * py /\ forall n, 0 <= n < px * py -> zget t n = Some (zlen (filter (fun l => lst l && (file_of y l =? n)) (zseq 0 i)))) f 0 vsize s) as (t & ET & L & G) end.
    - lia.
    - split; [rewrite zlen_repeat; lia|]. intros n Hn. rewrite zget_repeat by lia. auto.
    - intros i t Hi [L G]. cbn beta. rewrite (proj2 (oget_Ok _ _ _) (HM i ltac:(lia))). cbn [bind]. fold (lst i).
      assert (Z1 : forall n, filter (fun l => lst l && (file_of y l =? n)) (zseq 0 (i + 1)) = filter (fun l => lst l && (file_of y l =? n)) (zseq 0 i) ++ (if lst i && (file_of y i =? n) then [i] else [])).
      { intros n. rewrite zseq_snoc by lia. rewrite filter_app. cbn. replace (0 + i) with i by lia. destruct (lst i && _); auto. }
      destruct (lst i) eqn:Ei.
      + destruct (point_range px py nl mt nt Hpx Hpy Hnl Hmt Hnt i ltac:(fold vsize; lia)) as (K0 & _). fold y in K0.
        rewrite (proj2 (oget_Ok _ _ _) (G _ K0)). cbn [bind]. match goal with |- context [oset t ?p ?v] => destruct (zset_Some t p v ltac:(lia)) as (t' & Et) end. exists t'. split; [now apply oset_Ok|]. pose proof (zset_len _ _ _ _ Et). split; [lia|].
        intros n Hn. rewrite Z1. cbn [andb]. destruct (Z.eqb_spec (file_of y i) n) as [<-|Hne'].
        * rewrite (zget_zset_eq _ _ _ _ Et). f_equal. rewrite zlen_app. reflexivity.
        * rewrite (zget_zset_ne _ _ _ _ _ Et) by auto. rewrite app_nil_r. auto.
      + exists t. split; auto. split; auto. intros n Hn. rewrite Z1. cbn [andb]. rewrite app_nil_r. auto.
    - exists t. split; auto. intros n Hn. rewrite G by auto. f_equal. rewrite Z.add_0_l. pose proof (Permutation_length (points_of_file n Hn)) as PL. rewrite map_length in PL. unfold zlen. lia.
  Qed.

  Lemma rows_ok {A} (data : list A) zero : zlen data = zlen idx -> exists b2 m2 (val : Z -> A), scatter_rows y vsize idx data zero = Ok (b2, m2)
    /\ (forall k v, zget idx k = Some v -> zget data k = Some (val v))
    /\ (forall n, 0 <= n < px * py -> exists row mrow, zget b2 n = Some row /\ zget m2 n = Some mrow /\ zlen row = vloc /\ zlen mrow = vloc
        /\ forall ll, 0 <= ll < vloc -> zget mrow ll = Some (lst (inv px py nl mt n ll)) /\ (lst (inv px py nl mt n ll) = true -> zget row ll = Some (val (inv px py nl mt n ll)))).
  Proof.
    intros Ld. unfold scatter_rows. pose proof vsize_pos. pose proof nf_pos. pose proof vloc_pos.
    destruct (get_1d idx data (repeat zero (Z.to_nat vsize)) (repeat false (Z.to_nat vsize)) vsize) as (buf & mask & E & LB & _ & HB & HM); auto. { rewrite zlen_repeat. lia. }
    rewrite E. cbn [bind]. change (vsize / nfiles_out y) with (vsize / nfiles_out (MkLayout (px * nl) (py * mt) px py)). unfold vsize at 2 3. rewrite vloc_eq by auto. fold vloc. change (nfiles_out y) with (px * py).
    set (val := fun l => match zget buf l with Some v => v | None => zero end).
    match goal with |- context [ofor 0 _ ?f ?s0] => destruct (ofor_inv (fun i (s : list (list A) * list (list bool)) => zlen (fst s) = px * py /\ zlen (snd s) = px * py /\
       forall n, 0 <= n < px * py -> exists row mrow, zget (fst s) n = Some row /\ zget (snd s) n = Some mrow /\ zlen row = vloc /\ zlen mrow = vloc
        /\ forall ll, 0 <= ll < vloc -> zget mrow ll = Some (lst (inv px py nl mt n ll) && (inv px py nl mt n ll <? i)) /\ (lst (inv px py nl mt n ll) && (inv px py nl mt n ll <? i) = true -> zget row ll = Some (val (inv px py nl mt n ll)))) f 0 vsize s0) as ([b2 m2] & ET & L1 & L2 & G) end.
    - lia.
    - cbn [fst snd]. split; [rewrite zlen_repeat; lia|]. split; [rewrite zlen_repeat; lia|]. intros n Hn. exists (repeat zero (Z.to_nat vloc)), (repeat false (Z.to_nat vloc)).
      split; [apply zget_repeat; lia|]. split; [apply zget_repeat; lia|]. split; [rewrite zlen_repeat; lia|]. split; [rewrite zlen_repeat; lia|]. intros ll Hl.
      destruct (inv_range px py nl mt nt Hpx Hpy Hnl Hmt Hnt n ll Hn ltac:(auto)) as (K0 & _). destruct (Z.ltb_spec (inv px py nl mt n ll) 0); [lia|]. rewrite andb_false_r. split; [apply zget_repeat; lia|discriminate].
    - intros i [b2 m2] Hi (L1 & L2 & G). cbn [fst snd] in L1, L2, G. cbv beta iota. rewrite (proj2 (oget_Ok _ _ _) (HM i ltac:(lia))). cbn [bind]. fold (lst i).
      assert (Step : forall n ll, 0 <= n < px * py -> 0 <= ll < vloc -> (inv px py nl mt n ll <? i + 1) = (inv px py nl mt n ll <? i) || ((file_of y i =? n) && (place_of y i =? ll))).
      { intros n ll Hn Hl. destruct (inv_range px py nl mt nt Hpx Hpy Hnl Hmt Hnt n ll Hn Hl) as (K0 & K1 & K2). fold y in K1, K2. destruct (point_range px py nl mt nt Hpx Hpy Hnl Hmt Hnt i ltac:(fold vsize; lia)) as (_ & _ & K3). fold y in K3.
        destruct (Z.eq_dec (inv px py nl mt n ll) i) as [Ei|Hne'].
        - subst i. rewrite K1, K2, !Z.eqb_refl. lia.
        - destruct (Z.eqb_spec (file_of y i) n) as [<-|]; destruct (Z.eqb_spec (place_of y i) ll) as [<-|]; try contradiction; cbn [andb]; lia. }
      destruct (lst i) eqn:Ei.
      + destruct (point_range px py nl mt nt Hpx Hpy Hnl Hmt Hnt i ltac:(fold vsize; lia)) as (K0 & K1 & K3). fold y vloc in K0, K1, K3.
        destruct (zget_in_range buf i ltac:(lia)) as (v & Ev). rewrite (proj2 (oget_Ok _ _ _) Ev). cbn [bind].
        destruct (G _ K0) as (row & mrow & G1 & G2 & Lr & Lm & G3). rewrite (proj2 (oget_Ok _ _ _) G1). cbn [bind].
        destruct (zset_Some row (place_of y i) v ltac:(lia)) as (row' & Er). rewrite (proj2 (oset_Ok _ _ _ _) Er). cbn [bind].
        destruct (zset_Some b2 (file_of y i) row' ltac:(lia)) as (b2' & Eb). rewrite (proj2 (oset_Ok _ _ _ _) Eb). cbn [bind].
        rewrite (proj2 (oget_Ok _ _ _) G2). cbn [bind].
        destruct (zset_Some mrow (place_of y i) true ltac:(lia)) as (mrow' & Em). rewrite (proj2 (oset_Ok _ _ _ _) Em). cbn [bind].
        destruct (zset_Some m2 (file_of y i) mrow' ltac:(lia)) as (m2' & Eb2). rewrite (proj2 (oset_Ok _ _ _ _) Eb2). cbn [bind].
        eexists. split; [reflexivity|]. cbn [fst snd]. pose proof (zset_len _ _ _ _ Er). pose proof (zset_len _ _ _ _ Eb). pose proof (zset_len _ _ _ _ Em). pose proof (zset_len _ _ _ _ Eb2).
        split; [lia|]. split; [lia|]. intros n Hn. destruct (Z.eq_dec (file_of y i) n) as [<-|Hne'].
        * exists row', mrow'. split; [apply (zget_zset_eq _ _ _ _ Eb)|]. split; [apply (zget_zset_eq _ _ _ _ Eb2)|]. split; [lia|]. split; [lia|]. intros ll Hl. rewrite Step by auto. rewrite Z.eqb_refl. cbn [andb].
          destruct (Z.eqb_spec (place_of y i) ll) as [<-|Hp].
          -- rewrite K3, Ei, orb_true_r. cbn [andb]. split; [apply (zget_zset_eq _ _ _ _ Em)|]. intros _. rewrite (zget_zset_eq _ _ _ _ Er). unfold val. now rewrite Ev.
          -- rewrite orb_false_r. rewrite (zget_zset_ne _ _ _ _ _ Er), (zget_zset_ne _ _ _ _ _ Em) by auto. apply G3; auto.
        * destruct (G n Hn) as (row1 & mrow1 & A1 & A2 & A3 & A4 & A5). exists row1, mrow1. rewrite (zget_zset_ne _ _ _ _ _ Eb), (zget_zset_ne _ _ _ _ _ Eb2) by auto. split; auto. split; auto. split; auto. split; auto.
          intros ll Hl. rewrite Step by auto. destruct (Z.eqb_spec (file_of y i) n); [contradiction|]. cbn [andb]. rewrite orb_false_r. apply A5; auto.
      + eexists. split; [reflexivity|]. cbn [fst snd]. split; auto. split; auto. intros n Hn. destruct (G n Hn) as (row1 & mrow1 & A1 & A2 & A3 & A4 & A5). exists row1, mrow1. split; auto. split; auto. split; auto. split; auto.
        intros ll Hl. rewrite Step by auto. destruct ((file_of y i =? n) && (place_of y i =? ll)) eqn:Eq; [|rewrite orb_false_r; apply A5; auto].
        apply andb_prop in Eq. destruct Eq as [E1 E2]. apply Z.eqb_eq in E1, E2. destruct (point_range px py nl mt nt Hpx Hpy Hnl Hmt Hnt i ltac:(fold vsize; lia)) as (_ & _ & K3). fold y in K3. rewrite E1, E2 in K3.
        specialize (A5 ll Hl). rewrite K3, Ei in *. cbn [andb] in *. exact A5.
    - cbn [fst snd] in *. exists b2, m2, val. split; auto. split.
      + intros k v Hk. specialize (HB k v Hk). pose proof (zget_Some_range _ _ _ Hk). destruct (zget_in_range data k ltac:(lia)) as (w & Ew). rewrite Ew in HB. unfold val. rewrite HB. auto.
      + intros n Hn. destruct (G n Hn) as (row1 & mrow1 & A1 & A2 & A3 & A4 & A5). exists row1, mrow1. split; auto. split; auto. split; auto. split; auto. intros ll Hl.
        destruct (inv_range px py nl mt nt Hpx Hpy Hnl Hmt Hnt n ll Hn Hl) as (K0 & _). fold vsize in K0. specialize (A5 ll Hl). destruct (Z.ltb_spec (inv px py nl mt n ll) (0 + vsize)); [|lia]. rewrite andb_true_r in A5. exact A5.
  Qed.

  Definition content {A} (val : Z -> A) (fill : A) (n : Z) : list A :=
    match order n with [] => [fill] | _ => map (fun ll => val (inv px py nl mt n ll)) (order n) end.

  Lemma scatter_ok {A} (data : list A) zero fill : zlen data = zlen idx -> exists val, scatter_slice y vsize idx data zero fill = Ok (map (content val fill) (zseq 0 (px * py)))
    /\ forall k v, zget idx k = Some v -> zget data k = Some (val v).
  Proof.
    intros Ld. unfold scatter_slice. pose proof nf_pos. pose proof vloc_pos. destruct dimlen_ok as (dl & -> & HD). cbn [bind]. destruct (rows_ok data zero Ld) as (b2 & m2 & val & -> & HVal & HR). cbn [bind].
    exists val. split; auto. change (nfiles_out y) with (px * py).
    match goal with |- context [ofor 0 _ ?f ?s] => destruct (ofor_inv (fun i (t : list (list A)) => t = map (content val fill) (zseq 0 i)) f 0 (px * py) s) as (t & ET & ->) end; auto.
    - lia.
    - intros n t Hn ->. cbn beta. rewrite (proj2 (oget_Ok _ _ _) (HD n ltac:(lia))). cbn [bind]. destruct (HR n ltac:(lia)) as (row & mrow & A1 & A2 & A3 & A4 & A5).
      rewrite (proj2 (oget_Ok _ _ _) A1), (proj2 (oget_Ok _ _ _) A2). cbn [bind].
      assert (EP : pack row mrow = map (fun ll => val (inv px py nl mt n ll)) (order n)).
      { unfold order. rewrite <- A3. apply (pack_spec (fun ll => lst (inv px py nl mt n ll)) (fun ll => val (inv px py nl mt n ll)) row mrow 0); [unfold zlen in *; lia| |]; intros p Hp; rewrite Z.add_0_l; apply A5; lia. }
      rewrite EP, zlen_map. pose proof (zlen_nonneg (order n)). destruct (Z.gtb_spec (zlen (order n)) (Z.max (zlen (order n)) 1)); [lia|].
      eexists. split; [reflexivity|]. rewrite zseq_snoc by lia. rewrite map_app. f_equal. cbn [map]. f_equal. replace (0 + n) with n by lia. unfold content. destruct (order n) as [|o os] eqn:Eo; [reflexivity|].
      rewrite zlen_cons. pose proof (zlen_nonneg os). replace (Z.max (1 + zlen os) 1 - (1 + zlen os)) with 0 by lia. cbn. now rewrite app_nil_r.
  Qed.

  Lemma round_trip {A} (data : list A) zero fill fillidx : zlen data = zlen idx -> fillidx < 0 -> exists idxs datas,
    scatter_slice y vsize idx idx 0 fillidx = Ok idxs /\ scatter_slice y vsize idx data zero fill = Ok datas /\ combine_slice idxs idxs = Ok idx /\ combine_slice idxs datas = Ok data.
  Proof.
    intros Ld Hf. destruct (scatter_ok idx 0 fillidx eq_refl) as (vi & E1 & H1). destruct (scatter_ok data zero fill Ld) as (val & E2 & H2).
    assert (Hvi : forall v, In v idx -> vi v = v). { intros v Hv. apply In_zget in Hv. destruct Hv as (k & _ & Hk). pose proof (H1 k v Hk). congruence. }
    eexists _, _. split; [exact E1|]. split; [exact E2|].
    set (idxs := map (content vi fillidx) (zseq 0 (px * py))). set (datas := map (content val fill) (zseq 0 (px * py))).
    assert (HL : map (@length A) datas = map (@length Z) idxs). { unfold idxs, datas. rewrite !map_map. apply map_ext. intros n. unfold content. destruct (order n); auto. rewrite !map_length. auto. }
    destruct (combine_pairs idxs datas HL) as (oidx & out & C1 & C2 & L & S & P). rewrite C1, C2.
    (* the pairs *)
    assert (PP : Permutation (filter (fun p => fst p >=? 0) (combine (concat idxs) (concat datas))) (map (fun v => (v, val v)) idx)).
    { assert (Q : filter (fun p => fst p >=? 0) (combine (concat idxs) (concat datas)) = map (fun v => (v, val v)) (concat (map (fun n => map (inv px py nl mt n) (order n)) (zseq 0 (px * py))))).
      { unfold idxs, datas. clear -Hf Hvi HV. induction (zseq 0 (px * py)) as [|n ns IH]; [reflexivity|]. cbn [map concat]. rewrite map_app, <- IH.
        assert (Hc : forall {B C} (l1 : list B) (m1 : list C) l2 m2, length l1 = length m1 -> combine (l1 ++ l2) (m1 ++ m2) = combine l1 m1 ++ combine l2 m2).
        { clear. intros B C. induction l1; intros [|c m1] l2 m2 H; try discriminate; auto. cbn in *. f_equal. apply IHl1. lia. }
        rewrite Hc by (unfold content; destruct (order n); auto; rewrite !map_length; auto). rewrite filter_app. f_equal.
        unfold content. destruct (order n) as [|o os] eqn:Eo.
        - cbn. destruct (Z.geb_spec fillidx 0); [lia|auto].
        - rewrite <- Eo. rewrite combine_map, filter_map, map_map. rewrite filter_all.
          + apply map_ext_in. intros ll Hl. unfold order in Hl. apply filter_In in Hl. destruct Hl as [_ Hl]. unfold lst in Hl. destruct (in_dec Z.eq_dec _ idx) as [i|]; [|discriminate]. rewrite Hvi by auto. auto.
          + apply Forall_forall. intros ll Hl. unfold order in Hl. apply filter_In in Hl. destruct Hl as [_ Hl]. unfold lst in Hl. destruct (in_dec Z.eq_dec _ idx) as [i|]; [|discriminate]. cbn [fst]. rewrite Hvi by auto. apply HV in i. lia. }
      rewrite Q. apply Permutation_map. apply NoDup_Permutation.
      - assert (HN : NoDup (zseq 0 (px * py))) by apply NoDup_zseq. assert (HR : forall n, In n (zseq 0 (px * py)) -> 0 <= n < px * py) by (intros n Hn; apply In_zseq in Hn; lia). revert HN HR. generalize (zseq 0 (px * py)).
        assert (InF : forall n l, 0 <= n < px * py -> In l (map (inv px py nl mt n) (order n)) -> file_of y l = n).
        { intros n l Hn Hl. apply (Permutation_in _ (points_of_file n Hn)) in Hl. apply filter_In in Hl. destruct Hl as [_ Hl]. lia. }
        induction l as [|n ns IH]; intros HN HR; [constructor|]. cbn [map concat]. inversion HN; subst. apply NoDup_app_intro.
        + eapply Permutation_NoDup; [apply Permutation_sym, points_of_file; apply HR; left; auto|]. apply NoDup_filter, NoDup_zseq.
        + apply IH; auto. intros; apply HR; right; auto.
        + intros z Hz Hz'. apply InF in Hz; [|apply HR; left; auto]. apply in_concat in Hz'. destruct Hz' as (w & Hw & Hzw). apply in_map_iff in Hw. destruct Hw as (m & <- & Hm). apply InF in Hzw; [|apply HR; right; auto]. subst. contradiction.
      - clear -HS. induction HS as [|a l S IH F]; constructor; auto. intros Hi. rewrite Forall_forall in F. apply F in Hi. lia.
      - intros v. rewrite in_concat. split.
        + intros (w & Hw & Hv). apply in_map_iff in Hw. destruct Hw as (n & <- & Hn). apply in_map_iff in Hv. destruct Hv as (ll & <- & Hl). apply filter_In in Hl. destruct Hl as [_ Hl]. unfold lst in Hl. destruct (in_dec Z.eq_dec _ idx) as [i|]; [auto|discriminate].
        + intros Hv. pose proof (HV v Hv) as Hr. destruct (point_range px py nl mt nt Hpx Hpy Hnl Hmt Hnt v Hr) as (K0 & K1 & K2). exists (map (inv px py nl mt (file_of y v)) (order (file_of y v))). split.
          * apply in_map_iff. exists (file_of y v). split; auto. apply In_zseq. fold y in K0. lia.
          * apply in_map_iff. exists (place_of y v). split; auto. apply filter_In. fold y in K0, K1, K2. split; [apply In_zseq; unfold vloc; lia|]. rewrite K2. unfold lst. destruct (in_dec Z.eq_dec v idx); auto. }
    assert (PQ := perm_trans P PP).
    (* sorted keys determine everything *)
    assert (Eo : oidx = idx).
    { assert (Pk : Permutation oidx idx). { pose proof (Permutation_map fst PQ) as PF. rewrite map_map in PF. cbn [fst] in PF. rewrite map_id in PF.
        assert (F1 : map fst (combine oidx out) = oidx). { clear -L. revert out L. induction oidx as [|a l IH]; intros [|b m] L; auto. - rewrite zlen_cons in L. change (zlen (@nil A)) with 0 in L. pose proof (zlen_nonneg l). lia. - rewrite !zlen_cons in L. cbn. f_equal. apply IH. lia. }
        rewrite F1 in PF. auto. }
      clear -S HS Pk. revert oidx S Pk. induction HS as [|a l S' IH F]; intros o So Pk.
      - apply Permutation_sym, Permutation_nil in Pk. auto.
      - destruct o as [|b o]; [apply Permutation_nil in Pk; discriminate|]. inversion So as [|? ? So' Fo]; subst. rewrite Forall_forall in F, Fo.
        assert (a = b). { pose proof (Permutation_in b Pk ltac:(left; auto)) as I1. pose proof (Permutation_in a (Permutation_sym Pk) ltac:(left; auto)) as I2. destruct I1 as [|I1]; auto. destruct I2 as [|I2]; auto. apply F in I1. apply Fo in I2. lia. }
        subst b. f_equal. apply IH; auto. eapply Permutation_cons_inv; eauto. }
    rewrite Eo in *. split; auto. f_equal.
    assert (Hp : forall v w, In (v, w) (combine idx out) -> w = val v). { intros v w Hi. apply (Permutation_in _ PQ) in Hi. apply in_map_iff in Hi. destruct Hi as (u & Eu & _). inversion Eu. subst; auto. }
    apply zget_ext; [lia|]. intros k Hk. destruct (zget_in_range idx k ltac:(lia)) as (v & Ev). rewrite (H2 k v Ev). destruct (zget_in_range out k Hk) as (w & Ew). rewrite Ew. f_equal. apply Hp.
    clear -Ev Ew. revert k out Ev Ew. induction idx as [|a l IH]; intros k out Ev Ew; [rewrite zget_nil in Ev; discriminate|]. destruct out as [|b m]; [rewrite zget_nil in Ew; discriminate|].
    pose proof (zget_Some_range _ _ _ Ev). destruct (Z.eq_dec k 0) as [->|].
    - rewrite zget_cons_0 in Ev; rewrite zget_cons_0 in Ew. left. congruence.
    - rewrite zget_cons_pos in Ev by lia; rewrite zget_cons_pos in Ew by lia. right. eapply IH; eauto.
  Qed.
End Scatter.
