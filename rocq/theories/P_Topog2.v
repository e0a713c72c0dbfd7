(** * process_topo: what the loops compute *)
From Coq Require Import Lra Lia.
From Verif Require Import Base Loops Grid2 Vec M_Interp M_Runoff M_Topog Spec_Interp Spec_Topog P_Interp P_Runoff P_Topog.
Local Open Scope Z_scope.

(** A pair of arrays that holds the field [F] of pairs. *)
Definition rep (st : hk) (w h : Z) (F : Z -> Z -> R * Z) : Prop :=
  fields (fst st) w h (fun x y => fst (F x y)) /\ fields (snd st) w h (fun x y => snd (F x y)).

Definition upd {A} (F : Z -> Z -> A) (i j : Z) (v : A) (x y : Z) : A := if (x =? i) && (y =? j) then v else F x y.

Lemma rep_ext st w h F F' : (forall x y, 0 <= x < w -> 0 <= y < h -> F x y = F' x y) -> rep st w h F -> rep st w h F'.
Proof. intros E [H1 H2]. split; eapply fields_ext; eauto; intros; cbv beta; now rewrite E. Qed.

Lemma upd_same {A} (F : Z -> Z -> A) i j x y : upd F i j (F i j) x y = F x y.
Proof. unfold upd. destruct (Z.eqb_spec x i), (Z.eqb_spec y j); cbn; subst; auto. Qed.

Lemma rep_hget st w h F a b n : rep st w h F -> 0 <= a < w -> 0 <= b < h -> n = b * w + a -> oget (fst st) n = Ok (fst (F a b)).
Proof. intros [H _] Ha Hb ->. exact (fields_get _ _ _ _ _ _ H Ha Hb). Qed.
Lemma rep_kget st w h F a b n : rep st w h F -> 0 <= a < w -> 0 <= b < h -> n = b * w + a -> oget (snd st) n = Ok (snd (F a b)).
Proof. intros [_ H] Ha Hb ->. exact (fields_get _ _ _ _ _ _ H Ha Hb). Qed.

Lemma rep_hset ht kmt w h F a b n v : rep (ht, kmt) w h F -> 0 <= a < w -> 0 <= b < h -> n = b * w + a ->
  exists ht', oset ht n v = Ok ht' /\ rep (ht', kmt) w h (upd F a b (v, snd (F a b))).
Proof.
  intros [H1 H2] Ha Hb ->. destruct (fields_set _ _ _ _ (fun x y => fst (upd F a b (v, snd (F a b)) x y)) a b v H1 Ha Hb) as (g & E & Hg).
  { intros x y _ _. unfold upd. destruct (_ && _); auto. }
  exists g. split; auto. split; auto. eapply fields_ext; [|exact H2]. intros x y _ _. unfold upd. destruct (Z.eqb_spec x a), (Z.eqb_spec y b); cbn; subst; auto.
Qed.
Lemma rep_kset ht kmt w h F a b n v : rep (ht, kmt) w h F -> 0 <= a < w -> 0 <= b < h -> n = b * w + a ->
  exists kmt', oset kmt n v = Ok kmt' /\ rep (ht, kmt') w h (upd F a b (fst (F a b), v)).
Proof.
  intros [H1 H2] Ha Hb ->. destruct (fields_set _ _ _ _ (fun x y => snd (upd F a b (fst (F a b), v) x y)) a b v H2 Ha Hb) as (g & E & Hg).
  { intros x y _ _. unfold upd. destruct (_ && _); auto. }
  exists g. split; auto. split; auto. eapply fields_ext; [|exact H1]. intros x y _ _. unfold upd. destruct (Z.eqb_spec x a), (Z.eqb_spec y b); cbn; subst; auto.
Qed.

Lemma rep_upd2 st w h F a b u v : rep st w h (upd (upd F a b u) a b v) -> rep st w h (upd F a b v).
Proof. apply rep_ext. intros x y _ _. unfold upd. destruct (_ && _); auto. Qed.

(** Writing both elements. *)
Lemma rep_set2 ht kmt w h F a b n u v : rep (ht, kmt) w h F -> 0 <= a < w -> 0 <= b < h -> n = b * w + a ->
  exists ht' kmt', oset ht n u = Ok ht' /\ oset kmt n v = Ok kmt' /\ rep (ht', kmt') w h (upd F a b (u, v)).
Proof.
  intros H Ha Hb En. destruct (rep_hset _ _ _ _ _ a b n u H Ha Hb En) as (ht' & E1 & H1).
  destruct (rep_kset _ _ _ _ _ a b n v H1 Ha Hb En) as (kmt' & E2 & H2). exists ht', kmt'. split; auto. split; auto.
  apply rep_upd2 in H2. eapply rep_ext; [|exact H2]. intros x y _ _. unfold upd. rewrite !Z.eqb_refl. cbn. auto.
Qed.

(** A sweep over the cells [ilo..ilo+ni) x [jlo..jlo+nj) that stores [T] there. *)
Definition done ilo ni jlo (j i x y : Z) : bool := (ilo <=? x) && (x <? ilo + ni) && (jlo <=? y) && ((y <? j) || ((y =? j) && (x <? i))).
Definition inr ilo ni jlo nj (x y : Z) : bool := (ilo <=? x) && (x <? ilo + ni) && (jlo <=? y) && (y <? jlo + nj).

Lemma done_start ilo ni jlo x y : done ilo ni jlo jlo ilo x y = false.
Proof. unfold done. zc. Qed.
Lemma done_step ilo ni jlo j i x y : ilo <= i < ilo + ni -> jlo <= j -> done ilo ni jlo j (i + 1) x y = (x =? i) && (y =? j) || done ilo ni jlo j i x y.
Proof. intros. unfold done. zc. Qed.
Lemma done_row ilo ni jlo j x y : jlo <= j -> done ilo ni jlo (j + 1) ilo x y = done ilo ni jlo j (ilo + ni) x y.
Proof. intros. unfold done. zc. Qed.
Lemma done_end ilo ni jlo nj x y : done ilo ni jlo (jlo + nj) ilo x y = inr ilo ni jlo nj x y.
Proof. unfold done, inr. zc. Qed.
Lemma done_self ilo ni jlo j i : done ilo ni jlo j i i j = false.
Proof. unfold done. zc. Qed.

Lemma sweep w h ilo ni jlo nj (f : hk -> Z -> Z -> outcome hk) (F T : Z -> Z -> R * Z) st :
  0 <= ni -> 0 <= nj ->
  rep st w h F ->
  (forall st j i, jlo <= j < jlo + nj -> ilo <= i < ilo + ni ->
     rep st w h (fun x y => if done ilo ni jlo j i x y then T x y else F x y) ->
     exists st', f st j i = Ok st' /\ rep st' w h (upd (fun x y => if done ilo ni jlo j i x y then T x y else F x y) i j (T i j))) ->
  exists st', ofor jlo nj (fun st j => ofor ilo ni (fun st i => f st j i) st) st = Ok st'
    /\ rep st' w h (fun x y => if inr ilo ni jlo nj x y then T x y else F x y).
Proof.
  intros Hni Hnj H0 Hs.
  destruct (nest_inv (fun j i st => rep st w h (fun x y => if done ilo ni jlo j i x y then T x y else F x y)) f jlo nj ilo ni st) as (st' & E & H); auto.
  - eapply rep_ext; [|exact H0]. intros x y _ _. cbv beta. now rewrite done_start.
  - intros j i s Rj Ri Hr. destruct (Hs s j i Rj Ri Hr) as (s' & E & H'). exists s'. split; auto. eapply rep_ext; [|exact H'].
    intros x y _ _. unfold upd. rewrite done_step by lia. destruct (Z.eqb_spec x i), (Z.eqb_spec y j); cbn [andb orb]; subst; auto.
  - intros j s Rj. apply rep_ext. intros x y _ _. cbv beta. now rewrite done_row by lia.
  - exists st'. split; auto. eapply rep_ext; [|exact H]. intros x y _ _. cbv beta. now rewrite done_end.
Qed.

(** A sweep whose steps look only at their own cell. *)
Lemma sweep_own w h ilo ni jlo nj (f : hk -> Z -> Z -> outcome hk) (V : R * Z -> R * Z) (Q : R * Z -> Prop) F st :
  0 <= ni -> 0 <= nj -> rep st w h F -> (forall x y, ilo <= x < ilo + ni -> jlo <= y < jlo + nj -> Q (F x y)) ->
  (forall st F j i, jlo <= j < jlo + nj -> ilo <= i < ilo + ni -> rep st w h F -> Q (F i j) ->
     exists st', f st j i = Ok st' /\ rep st' w h (upd F i j (V (F i j)))) ->
  exists st', ofor jlo nj (fun st j => ofor ilo ni (fun st i => f st j i) st) st = Ok st'
    /\ rep st' w h (fun x y => if inr ilo ni jlo nj x y then V (F x y) else F x y).
Proof.
  intros Hni Hnj H0 HQ Hs. apply (sweep w h ilo ni jlo nj f F (fun x y => V (F x y))); auto.
  intros s j i Rj Ri Hr. assert (E : done ilo ni jlo j i i j = false).
  { apply done_self. }
  destruct (Hs s _ j i Rj Ri Hr) as (s' & E' & H'); [rewrite E; auto|]. exists s'. split; auto. now rewrite E in H'.
Qed.

(** ** The steps as functions of a cell *)
Section steps.
Variables (nk : Z) (zw : list R) (o : options).
Hypothesis (Lz : zlen zw = nk).

Definition level_fun (c : R * Z) : R * Z :=
  let h := fst c in
  if rlt 0 h then
    match nearest_index h zw nk with
    | Ok k => if rlt (at_ zw k) h then
                if rlt (h - at_ zw k) (o_min_thickness o) then (at_ zw k, k)
                else if k =? nk - 1 then (at_ zw k, k) else (h, k + 1)
              else (h, k)
    | _ => c
    end
  else c.

Definition full_fun (c : R * Z) : R * Z := if rlt 0 (fst c) then (at_ zw (snd c), snd c) else c.
Definition flat_fun (c : R * Z) : R * Z := if rlt 0 (fst c) then (at_ zw (nk - 1), nk - 1) else c.

Hypothesis (Hnk : 2 <= nk) (Hz : nondecreasing zw).

Lemma nearest_ok h : exists k, nearest_index h zw nk = Ok k /\ 0 <= k < nk.
Proof.
  destruct (nearest_index_cases h zw nk Lz Hnk Hz) as [(_ & E)|[(_ & E)|(k & Rk & _ & _ & E)]]; rewrite E; eexists; split; try reflexivity; try lia.
  destruct (rlt _ _); lia.
Qed.

Lemma level_step w h st F j i : 0 <= i < w -> 0 <= j < h -> rep st w h F ->
  exists st', level_cell w nk zw (o_min_thickness o) st j i = Ok st' /\ rep st' w h (upd F i j (level_fun (F i j))).
Proof.
  intros Hi Hj Hr. destruct st as (ht & kmt). unfold level_cell, level_fun.
  pose proof (rep_hget _ _ _ _ i j _ Hr Hi Hj eq_refl) as E. cbn [fst] in E. rewrite E. cbn [bind].
  destruct (rlt 0 (fst (F i j))).
  2:{ eexists. split; [reflexivity|]. eapply rep_ext; [|exact Hr]. intros. now rewrite upd_same. }
  destruct (nearest_ok (fst (F i j))) as (k & -> & Rk). cbn [bind].
  destruct (rep_kset _ _ _ _ _ i j _ k Hr Hi Hj eq_refl) as (kmt1 & E1 & H1). rewrite E1. cbn [bind].
  rewrite get_at by lia. cbn [bind].
  destruct (rlt (at_ zw k) (fst (F i j))); [|exists (ht, kmt1); split; [reflexivity|exact H1]].
  destruct (rep_hset _ _ _ _ _ i j _ (at_ zw k) H1 Hi Hj eq_refl) as (ht2 & E2 & H2).
  apply rep_upd2 in H2. unfold upd in H2 at 2. rewrite !Z.eqb_refl in H2. cbn [andb snd] in H2.
  destruct (rlt _ (o_min_thickness o)); [rewrite E2; cbn [bind]; eexists; split; [reflexivity|exact H2]|].
  destruct (k =? nk - 1); [rewrite E2; cbn [bind]; eexists; split; [reflexivity|exact H2]|].
  destruct (rep_kset _ _ _ _ _ i j _ (k + 1) H1 Hi Hj eq_refl) as (kmt3 & E3 & H3).
  apply rep_upd2 in H3. unfold upd in H3 at 2. rewrite !Z.eqb_refl in H3. cbn [andb fst] in H3.
  rewrite E3. cbn [bind]. eexists; split; [reflexivity|exact H3].
Qed.

Lemma full_step w h st F j i : 0 <= i < w -> 0 <= j < h -> rep st w h F -> ((0 < fst (F i j))%R -> 0 <= snd (F i j) < nk) ->
  exists st', full_cell_step w zw st j i = Ok st' /\ rep st' w h (upd F i j (full_fun (F i j))).
Proof.
  intros Hi Hj Hr Q. destruct st as (ht & kmt). unfold full_cell_step, full_fun.
  pose proof (rep_hget _ _ _ _ i j _ Hr Hi Hj eq_refl) as E. cbn [fst] in E. rewrite E. cbn [bind].
  destruct (rlt_spec 0 (fst (F i j))) as [P|P].
  2:{ eexists. split; [reflexivity|]. eapply rep_ext; [|exact Hr]. intros. now rewrite upd_same. }
  specialize (Q P). pose proof (rep_kget _ _ _ _ i j _ Hr Hi Hj eq_refl) as E'. cbn [snd] in E'. rewrite E'. cbn [bind]. rewrite get_at by lia. cbn [bind].
  destruct (rep_hset _ _ _ _ _ i j _ (at_ zw (snd (F i j))) Hr Hi Hj eq_refl) as (ht2 & E2 & H2). rewrite E2. cbn [bind]. eexists; split; [reflexivity|exact H2].
Qed.

Lemma flat_step w h st F j i : 0 <= i < w -> 0 <= j < h -> rep st w h F ->
  exists st', flat_bottom_step w nk zw st j i = Ok st' /\ rep st' w h (upd F i j (flat_fun (F i j))).
Proof.
  intros Hi Hj Hr. destruct st as (ht & kmt). unfold flat_bottom_step, flat_fun.
  pose proof (rep_hget _ _ _ _ i j _ Hr Hi Hj eq_refl) as E. cbn [fst] in E. rewrite E. cbn [bind].
  destruct (rlt 0 (fst (F i j))).
  2:{ eexists. split; [reflexivity|]. eapply rep_ext; [|exact Hr]. intros. now rewrite upd_same. }
  rewrite get_at by lia. cbn [bind].
  destruct (rep_set2 _ _ _ _ _ i j _ (at_ zw (nk - 1)) (nk - 1) Hr Hi Hj eq_refl) as (ht2 & kmt2 & E1 & E2 & H2).
  rewrite E1. cbn [bind]. rewrite E2. cbn [bind]. eexists; split; [reflexivity|exact H2].
Qed.

(** ** Restricting partial cells and the minimum depth *)
Definition pmin (k : Z) : R :=
  if Req_EM_T (o_fraction o) 0 then Rmin 50 (at_ zw 0)
  else Rmax (o_fraction o * (at_ zw k - at_ zw (k - 1))) (o_min_thickness o).

Definition restrict_fun (c : R * Z) : R * Z :=
  let '(h, k) := c in
  if 0 <? k then
    let z := at_ zw (k - 1) in
    if rlt (h - z) (pmin k) then
      if o_open_thin o then (z + pmin k, k)%R
      else if rlt (h - z) (z + pmin k - h) then (z, k - 1) else (z + pmin k, k)%R
    else (h, k)
  else (h, k).

Lemma rmin_R a b : rmin a b = Rmin a b.
Proof. unfold rmin, rlt, Rmin. destruct (Rlt_dec a b), (Rle_dec a b); lra. Qed.
Lemma rmax_R a b : rmax a b = Rmax a b.
Proof. unfold rmax, rlt, Rmax. destruct (Rlt_dec b a), (Rle_dec a b); lra. Qed.

Lemma cell_minimum_run : exists p, cell_minimum nk zw (o_min_thickness o) (o_fraction o) = Ok p /\ zlen p = nk /\ forall k, 1 <= k < nk -> zget p k = Some (pmin k).
Proof.
  unfold cell_minimum, pmin.
  assert (V0 : vec (alloc nk) nk (fun _ => 0%R)) by (apply vec_repeat; lia).
  unfold reqb. destruct (Req_EM_T (o_fraction o) 0) as [E|N].
  - destruct (ofor_fill (fun p k => do z <- oget zw 0 ; oset p k (rmin 50 z)) nk 0 nk (fun _ => 0%R) (fun _ => Rmin 50 (at_ zw 0)) (alloc nk)) as (p & Ep & Lp & Hp); auto; try lia.
    + intros i g F Hi _ _ _. rewrite get_at by lia. cbn [bind]. now rewrite rmin_R.
    + exists p. split; auto. split; auto. intros k Hk. rewrite Hp by lia. zc.
  - rewrite get_at by lia. cbn [bind].
    destruct (vec_set (alloc nk) nk _ (fun i => if i =? 0 then (o_fraction o * at_ zw 0)%R else 0%R) 0 (o_fraction o * at_ zw 0)%R V0) as (g1 & E1 & H1); [lia|auto|]. rewrite E1. cbn [bind].
    destruct (ofor_fill (fun p k => do z <- oget zw k ; do z' <- oget zw (k - 1) ; oset p k (rmax (o_fraction o * (z - z')) (o_min_thickness o))) nk 1 (nk - 1)
       (fun i => if i =? 0 then (o_fraction o * at_ zw 0)%R else 0%R) (fun k => Rmax (o_fraction o * (at_ zw k - at_ zw (k - 1))) (o_min_thickness o)) g1) as (p & Ep & Lp & Hp); [lia|lia|lia|exact H1| |].
    + intros i g F Hi _ _ _. rewrite !get_at by lia. cbn [bind]. now rewrite rmax_R.
    + exists p. split; auto. split; auto. intros k Hk. rewrite Hp by lia. zc.
Qed.

Lemma restrict_step w h p st F j i : zlen p = nk -> (forall k, 1 <= k < nk -> zget p k = Some (pmin k)) ->
  0 <= i < w -> 0 <= j < h -> rep st w h F -> snd (F i j) < nk ->
  exists st', restrict_cell w zw p (o_open_thin o) st j i = Ok st' /\ rep st' w h (upd F i j (restrict_fun (F i j))).
Proof.
  intros Lp Hp Hi Hj Hr Q. destruct st as (ht & kmt). unfold restrict_cell, restrict_fun.
  pose proof (rep_kget _ _ _ _ i j _ Hr Hi Hj eq_refl) as Ek. cbn [snd] in Ek. rewrite Ek. cbn [bind].
  pose proof (rep_hget _ _ _ _ i j _ Hr Hi Hj eq_refl) as Eh. cbn [fst] in Eh.
  assert (Same : rep (ht, kmt) w h (upd F i j (F i j))).
  { eapply rep_ext; [|exact Hr]. intros. now rewrite upd_same. }
  destruct (F i j) as (hh, k) eqn:EF. cbn [fst snd] in *. destruct (Z.ltb_spec 0 k) as [P|P]; [|eexists; split; [reflexivity|exact Same]].
  rewrite Eh. cbn [bind]. rewrite get_at by lia. cbn [bind].
  assert (Ep : oget p k = Ok (pmin k)) by (apply oget_Ok; apply Hp; lia). rewrite Ep. cbn [bind].
  destruct (rlt _ (pmin k)); [|eexists; split; [reflexivity|exact Same]].
  destruct (rep_hset _ _ _ _ _ i j _ (at_ zw (k - 1) + pmin k)%R Hr Hi Hj eq_refl) as (ht2 & E2 & H2). rewrite EF in H2. cbn [snd] in H2.
  destruct (o_open_thin o); [rewrite E2; cbn [bind]; eexists; split; [reflexivity|exact H2]|].
  destruct (rlt _ _); [|rewrite E2; cbn [bind]; eexists; split; [reflexivity|exact H2]].
  destruct (rep_set2 _ _ _ _ _ i j _ (at_ zw (k - 1)) (k - 1) Hr Hi Hj eq_refl) as (ht3 & kmt3 & E3 & E4 & H3).
  rewrite E4. cbn [bind]. rewrite E3. cbn [bind]. eexists; split; [reflexivity|exact H3].
Qed.

Definition shallow_fun (c : R * Z) : R * Z :=
  let '(d, k) := c in
  let m := o_kmt_min o - 1 in
  if rlt 0 d && (k <? m) then
    if o_deepen o then (at_ zw m, m)
    else if o_fill o then (0%R, -1)
    else if rlt (at_ zw k) (1/2 * at_ zw m) then (0%R, -1) else (at_ zw m, m)
  else (d, k).

Lemma shallow_step w h st F j i : o_kmt_min o <= nk -> (o_deepen o && o_fill o = false) -> (o_round o && (o_deepen o || o_fill o) = false) ->
  0 <= i < w -> 0 <= j < h -> rep st w h F -> ((0 < fst (F i j))%R -> 0 <= snd (F i j) < nk) ->
  exists st', shallow_cell w zw (o_round o) (o_deepen o) (o_fill o) (o_kmt_min o - 1) st j i = Ok st' /\ rep st' w h (upd F i j (shallow_fun (F i j))).
Proof.
  intros Hm F1 F2 Hi Hj Hr Q. destruct st as (ht & kmt). unfold shallow_cell, shallow_fun.
  pose proof (rep_hget _ _ _ _ i j _ Hr Hi Hj eq_refl) as Eh. cbn [fst] in Eh. rewrite Eh. cbn [bind].
  pose proof (rep_kget _ _ _ _ i j _ Hr Hi Hj eq_refl) as Ek. cbn [snd] in Ek. rewrite Ek. cbn [bind].
  assert (Same : rep (ht, kmt) w h (upd F i j (F i j))).
  { eapply rep_ext; [|exact Hr]. intros. now rewrite upd_same. }
  destruct (F i j) as (d, k) eqn:EF. cbn [fst snd] in *. destruct (rlt_spec 0 d) as [P|P]; cbn [andb]; [|eexists; split; [reflexivity|exact Same]].
  specialize (Q P). destruct (Z.ltb_spec k (o_kmt_min o - 1)) as [P'|P']; [|eexists; split; [reflexivity|exact Same]].
  set (m := o_kmt_min o - 1) in *.
  assert (Set2 : forall u v, exists ht' kmt', oset ht (j * w + i) u = Ok ht' /\ oset kmt (j * w + i) v = Ok kmt' /\ rep (ht', kmt') w h (upd F i j (u, v))).
  { intros u v. exact (rep_set2 _ _ _ _ _ i j _ u v Hr Hi Hj eq_refl). }
  destruct (o_deepen o), (o_fill o), (o_round o); cbn in F1, F2; try discriminate; cbn [orb negb andb bind].
  - destruct (Set2 (at_ zw m) m) as (h' & k' & E1 & E2 & H'). rewrite get_at by lia. cbn [bind]. rewrite E1. cbn [bind]. rewrite E2. cbn [bind]. eexists; split; [reflexivity|exact H'].
  - destruct (Set2 0%R (-1)) as (h' & k' & E1 & E2 & H'). rewrite E1. cbn [bind]. rewrite E2. cbn [bind]. eexists; split; [reflexivity|exact H'].
  - rewrite !get_at by lia. cbn [bind]. destruct (rlt _ _).
    + destruct (Set2 0%R (-1)) as (h' & k' & E1 & E2 & H'). rewrite E1. cbn [bind]. rewrite E2. cbn [bind]. eexists; split; [reflexivity|exact H'].
    + destruct (Set2 (at_ zw m) m) as (h' & k' & E1 & E2 & H'). rewrite E1. cbn [bind]. rewrite E2. cbn [bind]. eexists; split; [reflexivity|exact H'].
  - rewrite !get_at by lia. cbn [bind]. destruct (rlt _ _).
    + destruct (Set2 0%R (-1)) as (h' & k' & E1 & E2 & H'). rewrite E1. cbn [bind]. rewrite E2. cbn [bind]. eexists; split; [reflexivity|exact H'].
    + destruct (Set2 (at_ zw m) m) as (h' & k' & E1 & E2 & H'). rewrite E1. cbn [bind]. rewrite E2. cbn [bind]. eexists; split; [reflexivity|exact H'].
Qed.
End steps.

(** ** The halo *)
Lemma copy_run st w h F a b c e d s : rep st w h F -> 0 <= a < w -> 0 <= b < h -> 0 <= c < w -> 0 <= e < h -> d = b * w + a -> s = e * w + c ->
  exists st', copy_cell st d s = Ok st' /\ rep st' w h (upd F a b (F c e)).
Proof.
  intros Hr Ha Hb Hc He Ed Es. destruct st as (ht & kmt). unfold copy_cell.
  pose proof (rep_kget _ _ _ _ c e _ Hr Hc He Es) as Ek. cbn [snd] in Ek. rewrite Ek. cbn [bind].
  pose proof (rep_hget _ _ _ _ c e _ Hr Hc He Es) as Eh. cbn [fst] in Eh.
  destruct (rep_set2 _ _ _ _ _ a b d (fst (F c e)) (snd (F c e)) Hr Ha Hb Ed) as (h' & k' & E1 & E2 & H').
  rewrite E2. cbn [bind]. rewrite Eh. cbn [bind]. rewrite E1. cbn [bind]. eexists; split; [reflexivity|]. now rewrite <- surjective_pairing in H'.
Qed.

Lemma fill_y_run ni nj tri cy st F : 1 <= ni -> 1 <= nj -> rep st (ni + 2) (nj + 2) F ->
  exists st', fill_y ni nj tri cy st = Ok st' /\ rep st' (ni + 2) (nj + 2) (fun x y =>
    if (1 <=? x) && (x <=? ni) then
      if y =? nj + 1 then (if tri then F (ni - x + 1) nj else if cy then F x 1 else F x y)
      else if y =? 0 then (if negb tri && cy then F x nj else F x y) else F x y
    else F x y).
Proof.
  intros Hi Hj Hr. unfold fill_y. destruct tri; [|destruct cy].
  - destruct (ofor_inv (fun i st => rep st (ni + 2) (nj + 2) (fun x y => if (1 <=? x) && (x <? i) && (y =? nj + 1) then F (ni - x + 1) nj else F x y))
      (fun st i => copy_cell st ((nj + 1) * (ni + 2) + i) (nj * (ni + 2) + (ni - i + 1))) 1 ni st ltac:(lia)) as (st' & E & H).
    + eapply rep_ext; [|exact Hr]. intros x y _ _. zc.
    + intros i s Ri Hs. destruct (copy_run s _ _ _ i (nj + 1) (ni - i + 1) nj _ _ Hs ltac:(lia) ltac:(lia) ltac:(lia) ltac:(lia) eq_refl eq_refl) as (s' & E & H).
      exists s'. split; auto. eapply rep_ext; [|exact H]. intros x y _ _. unfold upd. destruct (Z.eqb_spec x i), (Z.eqb_spec y (nj + 1)); subst; cbn [andb]; zc.
    + exists st'. split; auto. eapply rep_ext; [|exact H]. intros x y Rx Ry. cbn [negb andb]. zc.
  - destruct (ofor_inv (fun i st => rep st (ni + 2) (nj + 2) (fun x y => if (1 <=? x) && (x <? i) then (if y =? nj + 1 then F x 1 else if y =? 0 then F x nj else F x y) else F x y))
      (fun st i => do st <- copy_cell st i (nj * (ni + 2) + i) ; copy_cell st ((nj + 1) * (ni + 2) + i) (ni + 2 + i)) 1 ni st ltac:(lia)) as (st' & E & H).
    + eapply rep_ext; [|exact Hr]. intros x y _ _. zc.
    + intros i s Ri Hs. destruct (copy_run s _ _ _ i 0 i nj i _ Hs ltac:(lia) ltac:(lia) ltac:(lia) ltac:(lia) ltac:(lia) eq_refl) as (s1 & E1 & H1).
      destruct (copy_run s1 _ _ _ i (nj + 1) i 1 _ (ni + 2 + i) H1 ltac:(lia) ltac:(lia) ltac:(lia) ltac:(lia) eq_refl ltac:(lia)) as (s2 & E2 & H2).
      exists s2. rewrite E1. split; auto. eapply rep_ext; [|exact H2]. intros x y _ _. unfold upd. destruct (Z.eqb_spec x i), (Z.eqb_spec y (nj + 1)); subst; cbn [andb]; zc.
    + exists st'. split; auto. eapply rep_ext; [|exact H]. intros x y Rx Ry. cbn [negb andb]. zc.
  - exists st. split; auto. eapply rep_ext; [|exact Hr]. intros x y Rx Ry. cbn [negb andb]. zc.
Qed.

Lemma fill_x_run ni nj cx st F : 1 <= ni -> 1 <= nj -> rep st (ni + 2) (nj + 2) F ->
  exists st', fill_x ni nj cx st = Ok st' /\ rep st' (ni + 2) (nj + 2) (fun x y =>
    if cx then (if x =? ni + 1 then F 1 y else if x =? 0 then F ni y else F x y) else F x y).
Proof.
  intros Hi Hj Hr. unfold fill_x. destruct cx; [|eauto].
  destruct (ofor_inv (fun j st => rep st (ni + 2) (nj + 2) (fun x y => if y <? j then (if x =? ni + 1 then F 1 y else if x =? 0 then F ni y else F x y) else F x y))
    (fun st j => do st <- copy_cell st (j * (ni + 2)) (j * (ni + 2) + ni) ; copy_cell st (j * (ni + 2) + ni + 1) (j * (ni + 2) + 1)) 0 (nj + 2) st ltac:(lia)) as (st' & E & H).
  - eapply rep_ext; [|exact Hr]. intros x y Rx Ry. zc.
  - intros j s Rj Hs. destruct (copy_run s _ _ _ 0 j ni j (j * (ni + 2)) (j * (ni + 2) + ni) Hs ltac:(lia) ltac:(lia) ltac:(lia) ltac:(lia) ltac:(lia) ltac:(lia)) as (s1 & E1 & H1).
    destruct (copy_run s1 _ _ _ (ni + 1) j 1 j (j * (ni + 2) + ni + 1) (j * (ni + 2) + 1) H1 ltac:(lia) ltac:(lia) ltac:(lia) ltac:(lia) ltac:(lia) ltac:(lia)) as (s2 & E2 & H2).
    exists s2. rewrite E1. split; auto. eapply rep_ext; [|exact H2]. intros x y _ _. unfold upd. destruct (Z.eqb_spec x (ni + 1)), (Z.eqb_spec y j); subst; cbn [andb]; zc.
  - exists st'. split; auto. eapply rep_ext; [|exact H]. intros x y Rx Ry. zc.
Qed.
