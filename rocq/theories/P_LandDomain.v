From Coq Require Import String Reals Sorted Lra.
From Verif Require Import Base Str Loops Lst Vec M_Interp M_Supergrid M_LandDomain Spec_Interp Spec_Supergrid Spec_LandDomain P_Interp2 P_Supergrid.
Open Scope list_scope. Open Scope Z_scope.

Lemma upto_ind (P : Z -> Prop) n : P 0 -> (forall k, 0 <= k < n -> P k -> P (k + 1)) -> forall k, 0 <= k <= n -> P k.
Proof.
  intros H0 Hs. assert (G : forall m : nat, Z.of_nat m <= n -> P (Z.of_nat m)).
  { induction m as [|m IH]; intros Hm; [exact H0|]. replace (Z.of_nat (S m)) with (Z.of_nat m + 1) by lia. apply Hs; [lia|]. apply IH. lia. }
  intros k Hk. replace k with (Z.of_nat (Z.to_nat k)) by lia. apply G. lia.
Qed.

Section LD.
Context (d : land_input) (owner : str * list lcell -> Z).
Notation npts := (d_nx d * d_ny d).
Notation nf := (d_nfaces d).
Context (Hx : 0 < d_nx d) (Hy : 0 < d_ny d) (Hnames : names_tell d owner) (Hin : cells_inside d).

Definition K : R := (4 * PI * RADIUS * RADIUS)%R.
Lemma K_pos : (0 < K)%R.
Proof. unfold K, RADIUS. pose proof PI_RGT_0. nra. Qed.

Lemma face_area_run face : 0 <= face < nf -> exists a, face_area d face = Ok a /\ vec a npts (fun n => K * land_area d owner face n)%R.
Proof.
  intros Hf. unfold face_area.
  destruct (ofold_inv (fun l a => (forall f, In f l -> In f (d_files d)) -> vec a npts (fun n => K * rsum l_area (filter (fun c => l_j c * d_nx d + l_i c =? n) (flat_map snd (filter (fun f => owner f =? face) l))))%R)
    (fun area f => if negb (strstr (fst f) (face_name (d_mosaic d) face)) then Ok area else
      ofold (fun area c => do v <- oget area (l_j c * d_nx d + l_i c) ; oset area (l_j c * d_nx d + l_i c) (v + l_area c * 4 * PI * RADIUS * RADIUS)%R) (snd f) area)
    (d_files d) (repeat 0%R (Z.to_nat npts))) as (a & E & H).
  - intros _. eapply vec_ext; [|apply vec_repeat; nia]. intros i Hi. cbn. lra.
  - intros l1 f l2 a El Ha.
    assert (Hff : In f (d_files d)) by (rewrite El; apply in_or_app; right; left; auto).
    assert (Hl1 : forall f0, In f0 l1 -> In f0 (d_files d)) by (intros f0 H0; rewrite El; apply in_or_app; left; auto).
    specialize (Ha Hl1). pose proof (Hnames f Hff face Hf) as Hn. fold (face_name (d_mosaic d) face) in Hn.
    destruct (strstr (fst f) (face_name (d_mosaic d) face)) eqn:Es; cbn [negb].
    + assert (Eo : owner f = face) by (apply Hn, strstr_spec, Es).
      destruct (accumulate (fun c => l_j c * d_nx d + l_i c) (fun c => K * l_area c)%R npts (snd f) (fun area c => do v <- oget area (l_j c * d_nx d + l_i c) ; oset area (l_j c * d_nx d + l_i c) (v + l_area c * 4 * PI * RADIUS * RADIUS)%R) a _ Ha) as (a' & E' & V').
      * intros c Hc. destruct (Hin f c Hff Hc). nia.
      * intros a0 c Hc. apply bind_ext. intros v. f_equal. unfold K. ring.
      * exists a'. split; auto. intros _. eapply vec_ext; [|exact V']. intros n Hn'. cbv beta.
        rewrite filter_app. cbn [filter]. rewrite Eo, Z.eqb_refl. rewrite flat_map_app. cbn [flat_map]. rewrite app_nil_r, filter_app, rsum_app.
        rewrite (rsum_scal l_area K). ring.
    + assert (Eo : owner f <> face). { intros Q. apply Hn in Q. apply strstr_spec in Q. congruence. }
      exists a. split; auto. intros _. eapply vec_ext; [|exact Ha]. intros n Hn'. cbv beta. rewrite filter_app. cbn [filter].
      replace (owner f =? face) with false by lia. rewrite app_nil_r. reflexivity.
  - exists a. split; auto.
Qed.

Definition land (face n : Z) : bool := rlt 0 (land_area d owner face n).
Definition cells (face : Z) : list Z := filter (land face) (zseq 0 npts).
Definition mask (face : Z) : list Z := map (fun n => if land face n then 1 else 0) (zseq 0 npts).
Lemma rlt_K v : rlt 0 (K * v) = rlt 0 v.
Proof. unfold rlt. pose proof K_pos. destruct (Rlt_dec 0 (K * v)), (Rlt_dec 0 v); auto; exfalso; [nra|]. apply n. apply Rmult_lt_0_compat; auto. Qed.
Lemma cells_upto face k : 0 <= k -> filter (land face) (zseq 0 (k + 1)) = filter (land face) (zseq 0 k) ++ (if land face k then [k] else []).
Proof. intros Hk. rewrite zseq_snoc by lia. rewrite filter_app. cbn [filter]. rewrite Z.add_0_l. destruct (land face k); reflexivity. Qed.
Lemma flat_upto {A} (f : Z -> list A) k : 0 <= k -> flat_map f (zseq 0 (k + 1)) = flat_map f (zseq 0 k) ++ f k.
Proof. intros Hk. rewrite zseq_snoc by lia. rewrite flat_map_app. cbn [flat_map]. rewrite Z.add_0_l, app_nil_r. reflexivity. Qed.
Lemma map_upto {A} (f : Z -> A) k : 0 <= k -> map f (zseq 0 (k + 1)) = map f (zseq 0 k) ++ [f k].
Proof. intros Hk. rewrite zseq_snoc by lia. rewrite map_app. cbn [map]. rewrite Z.add_0_l. reflexivity. Qed.

Lemma land_masks_run : 0 <= nf -> land_masks d = Ok (map mask (zseq 0 nf), map (fun f => zlen (cells f)) (zseq 0 nf), zlen (flat_map cells (zseq 0 nf))).
Proof.
  intros Hnf. unfold land_masks.
  match goal with |- ofor 0 ?N ?f ?s = _ => destruct (ofor_inv (fun k st => st = (map mask (zseq 0 k), map (fun f0 => zlen (cells f0)) (zseq 0 k), zlen (flat_map cells (zseq 0 k)))) f 0 N s) as (st & E & H) end; auto.
  - intros k st Hk ->. destruct (face_area_run k ltac:(lia)) as (a & -> & Va). cbn [bind].
    match goal with |- context [ofor 0 ?N ?f ?s] => destruct (ofor_inv (fun n st => exists m, st = (m, zlen (filter (land k) (zseq 0 n)), zlen (flat_map cells (zseq 0 k)) + zlen (filter (land k) (zseq 0 n))) /\
        vec m npts (fun i => if (i <? n) && land k i then 1 else 0)) f 0 N s) as (st & E & H) end; [nia| | |].
    + exists (repeat 0 (Z.to_nat npts)). split. { cbn. f_equal. lia. } eapply vec_ext; [|apply vec_repeat; nia]. intros i Hi. cbv beta. replace (i <? 0) with false by lia. reflexivity.
    + intros n st Hn (m & -> & Vm). rewrite (vec_get _ _ _ _ Va) by lia. cbn [bind]. rewrite rlt_K. fold (land k n). rewrite cells_upto by lia.
      destruct (land k n) eqn:El.
      * destruct (vec_set m npts _ (fun i => if (i <? n + 1) && land k i then 1 else 0) n 1 Vm) as (m' & Em & Vm'); [lia| |].
        { intros i Hi. destruct (Z.eqb_spec i n) as [->|Ne]; [replace (n <? n + 1) with true by lia; rewrite El; reflexivity|]. destruct (Z.ltb_spec i (n + 1)), (Z.ltb_spec i n); auto; lia. }
        rewrite Em. cbn [bind]. eexists. split; [reflexivity|]. exists m'. split; auto. rewrite zlen_app. change (zlen [n]) with 1. rewrite Z.add_assoc. reflexivity.
      * eexists. split; [reflexivity|]. exists m. split. { rewrite app_nil_r. reflexivity. } eapply vec_ext; [|exact Vm]. intros i Hi. cbv beta.
        destruct (Z.eq_dec i n) as [->|]; [rewrite El, !andb_false_r; reflexivity|]. destruct (Z.ltb_spec i (n + 1)), (Z.ltb_spec i n); auto; lia.
    + rewrite E. cbn [bind]. destruct H as (m & -> & Vm). rewrite Z.add_0_l in *. eexists. split; [reflexivity|]. rewrite !map_upto, flat_upto by lia. rewrite zlen_app.
      assert (m = mask k) as ->; [|reflexivity]. eapply vec_eq; [exact Vm|]. eapply vec_ext; [|apply vec_map; nia]. intros i Hi. cbv beta. replace (i <? npts) with true by lia. reflexivity.
  - rewrite E, H. reflexivity.
Qed.

Definition restart_ok (face : Z) : Prop := forall idx i, zget (d_restart d) face = Some idx -> In i idx -> 0 <= i.
Definition tcount (face : Z) : list Z := map (ntiles d face) (zseq 0 npts).
Lemma count_run idx : (Forall (fun i => 0 <= i) idx /\ exists c, ofold (fun cnt i => if i <? 0 then Err 1 else if npts =? 0 then UB else
      do v <- oget cnt (Z.rem i npts) ; oset cnt (Z.rem i npts) (v + 1)) idx (repeat 0 (Z.to_nat npts)) = Ok c /\ vec c npts (fun n => zlen (filter (fun i => i mod npts =? n) idx)))
  \/ (Exists (fun i => i < 0) idx /\ ofold (fun cnt i => if i <? 0 then Err 1 else if npts =? 0 then UB else
      do v <- oget cnt (Z.rem i npts) ; oset cnt (Z.rem i npts) (v + 1)) idx (repeat 0 (Z.to_nat npts)) = Err 1).
Proof.
  assert (Hp : 0 < npts) by nia.
  match goal with |- context [ofold ?f idx _] => set (g := f) end.
  assert (Hg : forall c i, g c i = if i <? 0 then Err 1 else if npts =? 0 then UB else do v <- oget c (Z.rem i npts) ; oset c (Z.rem i npts) (v + 1)) by reflexivity. clearbody g.
  assert (G : forall l c F, vec c npts F ->
    (Forall (fun i => 0 <= i) l /\ exists c', ofold g l c = Ok c' /\ vec c' npts (fun n => F n + zlen (filter (fun i => i mod npts =? n) l)))
    \/ (Exists (fun i => i < 0) l /\ ofold g l c = Err 1)).
  { induction l as [|i l IH]; intros c F Vc; cbn [ofold].
    - left. split; auto. exists c. split; auto. eapply vec_ext; [|exact Vc]. intros n Hn. cbn. lia.
    - rewrite Hg. destruct (Z.ltb_spec i 0); [right; split; auto|]. replace (npts =? 0) with false by lia.
      rewrite Z.rem_mod_nonneg by lia. pose proof (Z.mod_pos_bound i npts Hp). rewrite (vec_get _ _ _ _ Vc) by lia. cbn [bind].
      destruct (vec_set c npts F (fun n => if n =? i mod npts then F n + 1 else F n) (i mod npts) (F (i mod npts) + 1) Vc) as (c1 & E1 & V1); [lia| |].
      { intros n Hn. destruct (Z.eqb_spec n (i mod npts)); subst; auto. }
      rewrite E1. cbn [bind]. destruct (IH c1 _ V1) as [(HF & c' & E' & V')|[HE E']].
      + left. split; auto. exists c'. split; auto. eapply vec_ext; [|exact V']. intros n Hn. cbv beta. cbn [filter].
        destruct (Z.eqb_spec n (i mod npts)), (Z.eqb_spec (i mod npts) n); rewrite ?zlen_cons; lia.
      + right. split; auto. }
  destruct (G idx _ _ (vec_repeat 0 npts ltac:(lia))) as [(H1 & c & E & V)|H]; [left|right; auto]. split; auto. exists c. split; auto. 
Qed.
Lemma tile_counts_run : 1 < nf -> zlen (d_restart d) = nf ->
  ((forall f, 0 <= f < nf -> restart_ok f) /\ tile_counts d = Ok (map tcount (zseq 0 nf)))
  \/ ((exists f, 0 <= f < nf /\ ~ restart_ok f) /\ tile_counts d = Err 1).
Proof.
  intros Hnf Hl. unfold tile_counts.
  match goal with |- context [ofor 0 nf ?g []] => set (body := g) end.
  assert (G : forall k, 0 <= k <= nf -> ((forall f, 0 <= f < k -> restart_ok f) /\ ofor 0 k body [] = Ok (map tcount (zseq 0 k)))
     \/ ((exists f, 0 <= f < k /\ ~ restart_ok f) /\ ofor 0 k body [] = Err 1)); [|apply G; lia].
  intros k Hk. pattern k. apply (upto_ind _ nf); [| |lia].
  - left. split; [intros; lia|reflexivity].
  - clear k Hk. intros k Hk IH. rewrite ofor_app by lia. destruct IH as [[Hok E]|[(f & Hf & Hn) E]]; rewrite E; cbn [bind].
    + rewrite Z.add_0_l, ofor_S by lia. unfold body at 1 3. replace (nf =? 1) with false by lia.
      destruct (zget_in_range (d_restart d) k) as (idx & Ei); [lia|]. rewrite (proj2 (oget_Ok _ _ _) Ei). cbn [bind].
      destruct (count_run idx) as [(HF & c & Ec & Vc)|[HE Ec]]; rewrite Ec; cbn [bind].
      * left. split.
        -- intros f Hf. destruct (Z.eq_dec f k) as [->|]; [|apply Hok; lia]. intros idx' i Ei' Hi. rewrite Ei in Ei'. injection Ei' as <-. rewrite Forall_forall in HF. auto.
        -- rewrite ofor_0 by lia. rewrite map_upto by lia. repeat f_equal. eapply vec_eq; [exact Vc|]. eapply vec_ext; [|apply vec_map; nia]. intros n Hn. unfold ntiles. rewrite Ei. reflexivity.
      * right. split; auto. exists k. split; [lia|]. intros Q. apply Exists_exists in HE. destruct HE as (i & Hi & Hneg). specialize (Q idx i Ei Hi). lia.
    + right. split; auto. exists f. split; auto. lia.
Qed.

Definition same (face : Z) : Prop := forall n, 0 <= n < npts -> (land face n = true <-> 0 < ntiles d face n).
Lemma ntiles_nonneg f n : 0 <= ntiles d f n.
Proof. unfold ntiles. destruct (zget (d_restart d) f); [apply zlen_nonneg|lia]. Qed.
Lemma check_run : 0 <= nf ->
  ((forall f, 0 <= f < nf -> same f) /\ check_masks d (map mask (zseq 0 nf)) (map tcount (zseq 0 nf)) = Ok tt)
  \/ ((exists f, 0 <= f < nf /\ ~ same f) /\ exists e, check_masks d (map mask (zseq 0 nf)) (map tcount (zseq 0 nf)) = Err e).
Proof.
  intros Hnf. unfold check_masks. match goal with |- context [ofor 0 nf ?g tt] => set (body := g) end.
  assert (B : forall u f, 0 <= f < nf -> (same f /\ body u f = Ok tt) \/ (~ same f /\ exists e, body u f = Err e)).
  { intros u f Hf. set (inner := fun (_ : unit) n => do a <- oget (mask f) n ; do b <- oget (tcount f) n ;
      if (0 <? a) && (b =? 0) then Err 2 else if (a =? 0) && (0 <? b) then Err 3 else Ok tt).
    assert (Eb : body u f = ofor 0 npts inner tt).
    { unfold body. unfold oget at 1 2. rewrite !zget_map, !zget_zseq by lia. rewrite Z.add_0_l. reflexivity. }
    rewrite Eb.
    assert (G : forall k, 0 <= k <= npts -> ((forall n, 0 <= n < k -> (land f n = true <-> 0 < ntiles d f n)) /\ ofor 0 k inner tt = Ok tt)
       \/ ((exists n, 0 <= n < k /\ ~ (land f n = true <-> 0 < ntiles d f n)) /\ exists e, ofor 0 k inner tt = Err e)).
    { intros k Hk. pattern k. apply (upto_ind _ npts); [| |lia].
      - left. split; [intros; lia|reflexivity].
      - clear k Hk. intros k Hk IH. rewrite ofor_app by lia. destruct IH as [[Hok E]|[(n & Hn & Hne) (e & E)]]; rewrite E; cbn [bind].
        + rewrite Z.add_0_l, ofor_S by lia. unfold inner at 1 3. unfold oget, mask, tcount. rewrite !zget_map, !zget_zseq by lia. rewrite Z.add_0_l. cbn [option_map bind].
          pose proof (ntiles_nonneg f k). destruct (land f k) eqn:El, (Z.eqb_spec (ntiles d f k) 0) as [E0|E0]; cbn [Z.ltb Z.eqb Z.compare andb]; cbn [bind].
          * right. split; [|eauto]. exists k. split; [lia|]. rewrite El, E0. intros [Q _]. specialize (Q eq_refl). lia.
          * left. rewrite ofor_0 by lia. split; auto. intros n Hn. destruct (Z.eq_dec n k) as [->|]; [|apply Hok; lia]. rewrite El. split; auto. lia.
          * rewrite E0. cbn [Z.ltb Z.compare bind]. left. rewrite ofor_0 by lia. split; auto. intros n Hn. destruct (Z.eq_dec n k) as [->|]; [|apply Hok; lia]. rewrite El, E0. split; [discriminate|lia].
          * replace (0 <? ntiles d f k) with true by lia. cbn [bind]. right. split; [|eauto]. exists k. split; [lia|]. rewrite El. intros [_ Q]. specialize (Q ltac:(lia)). discriminate.
        + right. split; [|eauto]. exists n. split; auto. lia. }
    destruct (G npts ltac:(nia)) as [[H1 H2]|[(n & Hn & Hne) (e & E)]]; [left; split; auto|right].
    split; [|eauto]. intros Q. apply Hne, Q, Hn. }
  assert (G : forall k, 0 <= k <= nf -> ((forall f, 0 <= f < k -> same f) /\ ofor 0 k body tt = Ok tt) \/ ((exists f, 0 <= f < k /\ ~ same f) /\ exists e, ofor 0 k body tt = Err e)).
  { intros k Hk. pattern k. apply (upto_ind _ nf); [| |lia].
    - left. split; [intros; lia|reflexivity].
    - clear k Hk. intros k Hk IH. rewrite ofor_app by lia. destruct IH as [[Hok E]|[(f & Hf & Hne) (e & E)]]; rewrite E; cbn [bind].
      + rewrite Z.add_0_l, ofor_S by lia. destruct (B tt k ltac:(lia)) as [[Hs Eb]|[Hs (e & Eb)]]; rewrite Eb; cbn [bind].
        * left. rewrite ofor_0 by lia. split; auto. intros f Hf. destruct (Z.eq_dec f k) as [->|]; [auto|apply Hok; lia].
        * right. split; [|eauto]. exists k. split; auto. lia.
      + right. split; [|eauto]. exists f. split; auto. lia. }
  apply G. lia.
Qed.

Definition tiles_of (f : Z) : list Z := map (ntiles d f) (cells f).
Lemma pack_run : 0 <= nf -> let all := flat_map cells (zseq 0 nf) in
  pack d (map mask (zseq 0 nf)) (map tcount (zseq 0 nf)) (zlen all) = Ok (all, flat_map tiles_of (zseq 0 nf)).
Proof.
  intros Hnf all. unfold pack.
  set (St := fun (idx nt : list Z) => (zlen idx, idx ++ repeat (-1) (Z.to_nat (zlen all - zlen idx)), nt ++ repeat 0 (Z.to_nat (zlen all - zlen idx)))).
  match goal with |- context [ofor 0 ?N ?f ?s] => destruct (ofor_inv (fun k st => st = St (flat_map cells (zseq 0 k)) (flat_map tiles_of (zseq 0 k))) f 0 N s) as (st & E & H) end; auto.
  - unfold St. cbn. rewrite Z.sub_0_r. reflexivity.
  - intros k st Hk ->. unfold oget at 1 2. rewrite !zget_map, !zget_zseq by lia. rewrite Z.add_0_l. cbn [option_map bind].
    match goal with |- context [ofor 0 ?N ?f ?s] => destruct (ofor_inv (fun n st => st = St (flat_map cells (zseq 0 k) ++ filter (land k) (zseq 0 n)) (flat_map tiles_of (zseq 0 k) ++ map (ntiles d k) (filter (land k) (zseq 0 n)))) f 0 N s) as (st & E & H) end; [nia| | |].
    + cbn [zseq zseq_nat Z.to_nat filter map]. rewrite !app_nil_r. reflexivity.
    + intros n st Hn ->. unfold St at 1. unfold oget at 1. unfold mask at 1. rewrite zget_map, zget_zseq by lia. rewrite Z.add_0_l. cbn [option_map bind].
      rewrite cells_upto by lia. destruct (land k n) eqn:El; cbn [Z.ltb Z.compare].
      * set (di := flat_map cells (zseq 0 k) ++ filter (land k) (zseq 0 n)). set (dt := flat_map tiles_of (zseq 0 k) ++ map (ntiles d k) (filter (land k) (zseq 0 n))).
        assert (Ldt : zlen dt = zlen di).
        { unfold dt, di. rewrite !zlen_app, zlen_map. f_equal. clear. generalize (zseq 0 k). induction l as [|f l IH]; auto. cbn [flat_map]. rewrite !zlen_app, IH. unfold tiles_of. rewrite zlen_map. reflexivity. }
        assert (Room : zlen di < zlen all).
        { unfold di, all. replace nf with (k + 1 + (nf - k - 1)) by lia. rewrite zseq_app, flat_map_app, flat_upto by lia. unfold cells at 3. replace npts with (n + 1 + (npts - n - 1)) by lia. rewrite zseq_app by lia. rewrite filter_app, cells_upto, El by lia.
          rewrite !zlen_app. change (zlen [n]) with 1. match goal with |- context [zlen (filter ?a ?b) + 1 + zlen ?c] => pose proof (zlen_nonneg c) end. match goal with |- context [zlen (flat_map cells ?c)] => pose proof (zlen_nonneg (flat_map cells c)) end.
          pose proof (zlen_nonneg (flat_map cells (zseq (0 + (k + 1)) (nf - k - 1)))). lia. }
        assert (Er : forall v : Z, repeat v (Z.to_nat (zlen all - zlen di)) = v :: repeat v (Z.to_nat (zlen all - (zlen di + 1))))
          by (intros v; replace (Z.to_nat (zlen all - zlen di)) with (S (Z.to_nat (zlen all - (zlen di + 1)))) by lia; reflexivity).
        rewrite !Er. rewrite (oset_middle di). cbn [bind]. unfold oget at 1, tcount. rewrite zget_map, zget_zseq by lia. rewrite Z.add_0_l. cbn [option_map bind].
        match goal with |- context [oset (dt ++ ?x :: ?l) ?p ?v] => replace (oset (dt ++ x :: l) p v) with (Ok (dt ++ v :: l)) by (rewrite <- (oset_middle dt x l v), Ldt; reflexivity) end. cbn [bind]. eexists. split; [reflexivity|]. unfold St. rewrite map_app. cbn [map].
        rewrite (app_assoc (flat_map cells _)), (app_assoc (flat_map tiles_of _)). fold di dt. rewrite zlen_app. change (zlen [n]) with 1. rewrite <- !app_assoc. reflexivity.
      * eexists. split; [reflexivity|]. rewrite app_nil_r. reflexivity.
    + exists st. split; auto. rewrite H. rewrite !flat_upto by lia. reflexivity.
  - rewrite E. cbn [bind]. rewrite H. unfold St. rewrite Z.add_0_l. fold all. rewrite Z.sub_diag. cbn [fst snd Z.to_nat repeat]. rewrite !app_nil_r. reflexivity.
Qed.
End LD.
