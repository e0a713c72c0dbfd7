(** * Proofs for the set-up and the remap file of conservative regridding *)
From Coq Require Import Lra Psatz Permutation.
From Verif Require Import Base Loops Vec M_Interp M_Domain2D M_Fregrid M_Remap Spec_Remap P_Interp P_Interp2 P_Fregrid P_Fregrid2 T_Domain2D.
Local Open Scope R_scope.

(** ** Tables: one row per input tile *)
Section Rows.
  Context {A : Type} (T : list tile).
  Definition size (q : Z) : Z := (t_nx (tile_at T q) * t_ny (tile_at T q))%Z.
  Definition rows (cs : list (list A)) (F : Z -> Z -> A) : Prop :=
    zlen cs = zlen T /\ forall q, (0 <= q < zlen T)%Z -> exists e, zget cs q = Some e /\ vec e (size q) (F q).
  Definition put (F : Z -> Z -> A) (q n : Z) (v : A) : Z -> Z -> A := fun q' n' => if ((q' =? q) && (n' =? n))%Z then v else F q' n'.
  Lemma rows_ext cs F G : (forall q n, (0 <= q < zlen T)%Z -> (0 <= n < size q)%Z -> F q n = G q n) -> rows cs F -> rows cs G.
  Proof. intros H (L & R). split; auto. intros q Hq. destruct (R q Hq) as (e & E & V). exists e. split; auto. eapply vec_ext; [|exact V]. auto. Qed.
  Lemma rows_at cs F q n : rows cs F -> (0 <= q < zlen T)%Z -> (0 <= n < size q)%Z ->
    exists row, oget cs q = Ok row /\ oget row n = Ok (F q n)
      /\ forall v, exists row' cs', oset row n v = Ok row' /\ oset cs q row' = Ok cs' /\ rows cs' (put F q n v).
  Proof.
    intros (L & R) Hq Hn. destruct (R q Hq) as (e & E & V). exists e. split; [now apply oget_Ok|]. split; [now apply (vec_get _ _ _ _ V)|].
    intros v. destruct (vec_set e (size q) (F q) (put F q n v q) n v V Hn) as (row' & E1 & V1).
    { intros i Hi. unfold put. rewrite Z.eqb_refl. cbn [andb]. destruct (Z.eqb_spec i n); auto. }
    destruct (oset cs q row') as [cs'| |] eqn:E2.
    - exists row', cs'. split; auto. split; auto. apply oset_Ok in E2. split; [rewrite (zset_len _ _ _ _ E2); auto|].
      intros q' Hq'. destruct (Z.eq_dec q' q) as [->|N].
      + exists row'. split; [now apply (zget_zset_eq _ _ _ _ E2)|]. exact V1.
      + destruct (R q' Hq') as (e' & E' & V'). exists e'. split; [rewrite (zget_zset_ne _ _ _ q' _ E2); auto|]. eapply vec_ext; [|exact V']. intros i Hi. unfold put. destruct (Z.eqb_spec q' q); [lia|]. reflexivity.
    - exfalso. destruct (zset_Some cs q row') as (x & Hx); [lia|]. apply oset_Ok in Hx. congruence.
    - exfalso. destruct (zset_Some cs q row') as (x & Hx); [lia|]. apply oset_Ok in Hx. congruence.
  Qed.
End Rows.
Lemma rows_init {A} (T : list tile) (v : A) : (forall t, In t T -> (0 < t_nx t /\ 0 < t_ny t)%Z) ->
  rows T (map (fun t => repeat v (Z.to_nat (t_nx t * t_ny t))) T) (fun _ _ => v).
Proof.
  intros H. split; [unfold zlen; now rewrite map_length|]. intros q Hq. exists (repeat v (Z.to_nat (size T q))). split.
  - unfold zget. destruct (Z.ltb_spec q 0); [lia|]. unfold size, tile_at. rewrite nth_error_map, (nth_error_nth' T no_tile) by (unfold zlen in Hq; lia). reflexivity.
  - apply vec_repeat. unfold size. destruct (H (tile_at T q)) as (? & ?); [unfold tile_at; apply nth_In; unfold zlen in Hq; lia|]. nia.
Qed.
Lemma tile_get (T : list tile) q : (0 <= q < zlen T)%Z -> oget T q = Ok (tile_at T q) /\ In (tile_at T q) T.
Proof.
  intros Hq. split; [|unfold tile_at; apply nth_In; unfold zlen in Hq; lia]. apply oget_Ok. unfold zget. destruct (Z.ltb_spec q 0); [lia|]. unfold tile_at. apply nth_error_nth'. unfold zlen in Hq; lia.
Qed.

(** ** Adding up the pieces *)
Definition tri (l : list pc) : R * R * R := (rsum c_a l, rsum c_lon l, rsum c_lat l).
Lemma tri_snoc l p : tri (l ++ [p]) = (rsum c_a l + c_a p, rsum c_lon l + c_lon p, rsum c_lat l + c_lat p).
Proof. unfold tri. rewrite !rsum_app, !rsum_cons, !rsum_nil, !Rplus_0_r. reflexivity. Qed.
Section Setup.
  Variables (clip : Z -> Z -> Z -> list pc) (ctr : Z -> Z -> R * R) (npes nout : Z) (T : list tile).
  Hypothesis HW : wf_clip clip npes nout T.
  Definition key (q : Z) (p : pc) : Z := (c_j p * t_nx (tile_at T q) + c_i p)%Z.
  Definition in_tile (q : Z) (p : pc) : Prop := (0 <= c_j p < t_ny (tile_at T q))%Z /\ (0 <= c_i p < t_nx (tile_at T q))%Z /\ 0 < c_a p.
  Lemma key_range q p : in_tile q p -> (0 <= key q p < size T q)%Z.
  Proof. intros (Hj & Hi & _). unfold key, size. nia. Qed.
  Lemma add_fold m g : (0 <= m < zlen T)%Z -> (forall p, In p g -> in_tile m p) -> forall cs P, rows T cs (fun q n => tri (P q n)) ->
    exists cs', ofold (fun cs p => let ii := (c_j p * t_nx (tile_at T m) + c_i p)%Z in
       do row <- oget cs m ; do e <- oget row ii ; let '(a, x, y) := e in do row <- oset row ii (a + c_a p, x + c_lon p, y + c_lat p) ; oset cs m row) g cs = Ok cs'
      /\ rows T cs' (fun q n => tri (P q n ++ if (q =? m)%Z then filter (fun p => (key m p =? n)%Z) g else [])).
  Proof.
    intros Hm. induction g as [|p g IH]; intros Hg cs P HR.
    - exists cs. split; auto. eapply rows_ext; [|exact HR]. intros q n _ _. cbn. destruct (q =? m)%Z; now rewrite app_nil_r.
    - cbn [ofold]. cbv zeta. fold (key m p). assert (Hp : in_tile m p) by (apply Hg; now left). pose proof (key_range m p Hp) as Hk.
      destruct (rows_at T cs _ m (key m p) HR Hm Hk) as (row & E1 & E2 & E3). rewrite E1. cbn [bind]. rewrite E2. cbn [bind]. unfold tri at 1. cbv beta iota.
      destruct (E3 (tri (P m (key m p) ++ [p]))) as (row' & cs1 & E4 & E5 & R1). rewrite tri_snoc in E4. rewrite E4. cbn [bind]. rewrite E5. cbn [bind].
      destruct (IH ltac:(intros; apply Hg; now right) cs1 (fun q n => P q n ++ if (q =? m)%Z && (n =? key m p)%Z then [p] else [])) as (cs' & E & R').
      { eapply rows_ext; [|exact R1]. intros q n _ _. unfold put. cbv beta. destruct ((q =? m)%Z && (n =? key m p)%Z) eqn:B; [|now rewrite app_nil_r].
        apply andb_prop in B. destruct B as (B1 & B2). apply Z.eqb_eq in B1, B2. now subst. }
      exists cs'. split; [exact E|]. eapply rows_ext; [|exact R']. intros q n _ _. cbv beta. f_equal. rewrite <- app_assoc. f_equal. destruct (q =? m)%Z; cbn [andb]; [|reflexivity]. cbn [filter]. destruct (Z.eqb_spec n (key m p)), (Z.eqb_spec (key m p) n); subst; try contradiction; try lia; reflexivity.
  Qed.
  Lemma add_cells_run m n cs P : (0 <= m < zlen T)%Z -> (0 <= n < nout)%Z -> rows T cs (fun q n => tri (P q n)) ->
    exists cs', add_cells T m cs (map (fun r => clip r n m) (zseq 0 npes)) = Ok cs'
      /\ rows T cs' (fun q k => tri (P q k ++ if (q =? m)%Z then filter (fun p => (key m p =? k)%Z) (flat_map (fun r => clip r n m) (zseq 0 npes)) else [])).
  Proof.
    intros Hm Hn HR. unfold add_cells. rewrite C05_gather_field_concat by (unfold zlen; now rewrite repeat_length). cbn [bind].
    destruct (tile_get T m Hm) as (-> & _). cbn [bind]. rewrite flat_map_concat_map. apply add_fold; auto. intros p Hp. rewrite <- flat_map_concat_map in Hp. apply in_flat_map in Hp. destruct Hp as (r & Hr & Hp). apply In_zseq in Hr. destruct HW as (_ & H). apply (H r n m p); auto; lia.
  Qed.
  Definition mk (order2 : bool) (m : Z) (p : pc) : xc := MkXc m (c_i p) (c_j p) (c_io p) (c_jo p) (c_a p) (if order2 then c_lon p / c_a p else 0) (if order2 then c_lat p / c_a p else 0).
  Definition raw (order2 : bool) (me n : Z) : list xc := flat_map (fun m => map (mk order2 m) (clip me n m)) (zseq 0 (zlen T)).
  Definition cut (q n : Z) (k : Z) : list pc := filter (fun p => (key q p =? n)%Z) (flat_map (fun r => clip r k q) (zseq 0 npes)).
  Lemma collect_run order2 me : (0 <= nout)%Z -> exists cs, collect order2 clip npes nout me T = Ok (cs, map (raw order2 me) (zseq 0 nout))
    /\ (order2 = true -> rows T cs (fun q n => tri (flat_map (cut q n) (zseq 0 nout)))).
  Proof.
    intros Hno. unfold collect.
    match goal with |- context [ofor 0 nout ?f ?s] => destruct (ofor_inv (fun k (st : cells * list (list xc)) => snd st = map (raw order2 me) (zseq 0 k) /\ (order2 = true -> rows T (fst st) (fun q n => tri (flat_map (cut q n) (zseq 0 k))))) f 0 nout s) as (st & E & H1 & H2) end.
    - auto.
    - split; auto. intros _. cbn [fst]. apply (rows_init T (0, 0, 0)). intros t Ht. destruct HW as (H & _). destruct (H t Ht) as (? & ? & _). auto.
    - intros n (cs, outs) Hn (H1 & H2). cbn [fst snd] in H1, H2. subst outs.
      match goal with |- context [ofor 0 (zlen T) ?f ?s] => destruct (ofor_inv (fun k (st : cells * list xc) => snd st = flat_map (fun m => map (mk order2 m) (clip me n m)) (zseq 0 k)
         /\ (order2 = true -> rows T (fst st) (fun q i => tri (flat_map (cut q i) (zseq 0 n) ++ if (q <? k)%Z then cut q i n else [])))) f 0 (zlen T) s) as (st & E & H3 & H4) end.
      + apply zlen_nonneg.
      + split; auto. intros Eo. cbn [fst]. eapply rows_ext; [|exact (H2 Eo)]. intros q i Hq Hi. cbv beta. destruct (Z.ltb_spec q 0); [lia|]. now rewrite app_nil_r.
      + intros m (cs1, X) Hm (H3 & H4). cbn [fst snd] in H3, H4. destruct order2.
        * destruct (add_cells_run m n cs1 _ ltac:(lia) ltac:(lia) (H4 eq_refl)) as (cs2 & E2 & R2). rewrite E2. cbn [bind]. eexists. split; [reflexivity|]. cbn [fst snd]. split.
          { unfold append. rewrite H3. rewrite zseq_snoc by lia. rewrite flat_map_app. cbn [flat_map]. rewrite app_nil_r. reflexivity. }
          intros _. eapply rows_ext; [|exact R2]. intros q i Hq Hi. cbv beta. f_equal. rewrite <- app_assoc. f_equal. fold (cut m i n).
          destruct (Z.eqb_spec q m) as [->|N]; [destruct (Z.ltb_spec m m); [lia|]; destruct (Z.ltb_spec m (m + 1)); [|lia]; reflexivity|]. destruct (Z.ltb_spec q m); destruct (Z.ltb_spec q (m + 1)); try lia; now rewrite app_nil_r.
        * cbn [bind]. eexists. split; [reflexivity|]. cbn [fst snd]. split; [|discriminate]. unfold append. rewrite H3. rewrite zseq_snoc by lia. rewrite flat_map_app. cbn [flat_map]. rewrite app_nil_r. reflexivity.
      + rewrite E. cbn [bind]. eexists. split; [reflexivity|]. cbn [fst snd]. split.
        * rewrite zseq_snoc by lia. rewrite map_app. cbn [map]. rewrite H3. reflexivity.
        * intros Eo. eapply rows_ext; [|exact (H4 Eo)]. intros q i Hq Hi. cbv beta. destruct (Z.ltb_spec q (0 + zlen T)); [|lia]. rewrite zseq_snoc by lia. rewrite flat_map_app. cbn [flat_map]. now rewrite app_nil_r.
    - destruct st as (cs, outs). cbn [fst snd] in H1, H2. exists cs. rewrite E. rewrite Z.add_0_l in *. subst outs. auto.
  Qed.

  (** ** Centroids of the input cells *)
  Definition centre_of (F : Z -> Z -> R * R * R) (q n : Z) : R * R * R :=
    let '(a, x, y) := F q n in let ca := at_ (t_cell (tile_at T q)) n in
    if rlt 0 a then (if rlt (Rabs (a - ca) / ca) AREA_RATIO then (a, x / a, y / a) else (a, fst (ctr q n) / ca, snd (ctr q n) / ca)) else (a, x, y).
  Lemma centroids_run cs F : rows T cs F -> exists cs', centroids ctr T cs = Ok cs' /\ rows T cs' (centre_of F).
  Proof.
    intros HR. unfold centroids.
    match goal with |- context [ofor 0 (zlen T) ?f ?s] => destruct (ofor_inv (fun k c => rows T c (fun q n => if (q <? k)%Z then centre_of F q n else F q n)) f 0 (zlen T) s) as (cs' & E & H) end.
    - apply zlen_nonneg.
    - eapply rows_ext; [|exact HR]. intros q n Hq _. cbv beta. destruct (Z.ltb_spec q 0); [lia|reflexivity].
    - intros q c Hq Hc. destruct (tile_get T q ltac:(lia)) as (Et & Hin). rewrite Et. cbn [bind]. set (t := tile_at T q) in *.
      destruct HW as (HT & _). destruct (HT t Hin) as (Hx & Hy & Hcell).
      match goal with |- exists s', ofor 0 (t_ny t) (fun cs0 j => ofor 0 (t_nx t) (fun cs1 i => @?b cs1 j i) cs0) _ = _ /\ _ => rewrite (ofor_nest2 0 (t_ny t) 0 (t_nx t) (fun j cs i => b cs j i)) by lia end.
      match goal with |- exists s', ofor 0 ?N ?f ?s = _ /\ _ => destruct (ofor_inv (fun k c => rows T c (fun q' n => if (q' <? q)%Z || ((q' =? q)%Z && (n <? k)%Z) then centre_of F q' n else F q' n)) f 0 N s) as (c' & E & H) end.
      + nia.
      + eapply rows_ext; [|exact Hc]. intros q' n Hq' Hn. cbv beta. destruct (Z.ltb_spec n 0); [lia|]. rewrite andb_false_r, orb_false_r. reflexivity.
      + intros n c1 Hn HR1. cbv beta. rewrite !Z.add_0_l. assert (En : (n / t_nx t * t_nx t + n mod t_nx t)%Z = n) by (pose proof (Z.div_mod n (t_nx t)); lia). rewrite En.
        destruct (rows_at T c1 _ q n HR1 ltac:(lia) ltac:(unfold size; fold t; lia)) as (row & E1 & E2 & E3). rewrite E1. cbn [bind]. rewrite E2. cbn [bind].
        destruct (Z.ltb_spec q q); [lia|]. destruct (Z.ltb_spec n n); [lia|]. rewrite andb_false_r. cbn [orb].
        assert (UPD : forall v, v = centre_of F q n -> exists row' c2, oset row n v = Ok row' /\ oset c1 q row' = Ok c2 /\ rows T c2 (fun q' n0 => if (q' <? q)%Z || ((q' =? q)%Z && (n0 <? n + 1)%Z) then centre_of F q' n0 else F q' n0)).
        { intros v Ev. destruct (E3 v) as (row' & c2 & A1 & A2 & A3). exists row', c2. split; auto. split; auto. eapply rows_ext; [|exact A3]. intros q' n' Hq' Hn'. unfold put. destruct (Z.eqb_spec q' q) as [->|N]; cbn [andb].
          - destruct (Z.ltb_spec q q); [lia|]. cbn [orb]. destruct (Z.eqb_spec n' n) as [->|N']; [destruct (Z.ltb_spec n (n + 1)); [auto|lia]|]. destruct (Z.ltb_spec n' n), (Z.ltb_spec n' (n + 1)); try lia; reflexivity.
          - reflexivity. }
        unfold centre_of in UPD at 1. destruct (F q n) as ((a, x), y) eqn:EF. destruct (rlt 0 a) eqn:Ea.
        * rewrite get_at by (rewrite Hcell; lia). cbn [bind]. cbv zeta in UPD. fold t in UPD. destruct (UPD _ eq_refl) as (row' & c2 & A1 & A2 & A3). rewrite A1. cbn [bind]. rewrite A2. eauto.
        * exists c1. split; auto. eapply rows_ext; [|exact HR1]. intros q' n' Hq' Hn'. cbv beta. destruct (Z.eqb_spec q' q) as [->|N]; cbn [andb].
          -- destruct (Z.ltb_spec q q); [lia|]. cbn [orb]. destruct (Z.ltb_spec n' n), (Z.ltb_spec n' (n + 1)); try lia; auto. assert (n' = n) by lia. subst n'. unfold centre_of. rewrite EF, Ea. reflexivity.
          -- reflexivity.
      + exists c'. split; [exact E|]. eapply rows_ext; [|exact H]. intros q' n Hq' Hn. cbv beta. destruct (Z.eqb_spec q' q) as [->|N]; cbn [andb].
        * assert (Hs : (n < 0 + t_ny t * t_nx t)%Z) by (unfold size in Hn; fold t in Hn; lia). apply Z.ltb_lt in Hs. rewrite Hs, orb_true_r. destruct (Z.ltb_spec q (q + 1)); [reflexivity|lia].
        * rewrite orb_false_r. destruct (Z.ltb_spec q' q), (Z.ltb_spec q' (q + 1)); try lia; reflexivity.
    - exists cs'. split; auto. eapply rows_ext; [|exact H]. intros q n Hq _. cbv beta. destruct (Z.ltb_spec q (0 + zlen T)); [reflexivity|lia].
  Qed.
  Definition shifted (G : Z -> Z -> R * R * R) (c : xc) : xc :=
    let e := G (x_t c) (x_j c * t_nx (tile_at T (x_t c)) + x_i c)%Z in
    MkXc (x_t c) (x_i c) (x_j c) (x_io c) (x_jo c) (x_a c) (x_di c - snd (fst e)) (x_dj c - snd e).
  Lemma subtract_run cs G X : rows T cs G -> (forall c, In c X -> input_cell T (x_t c) (x_j c) (x_i c)) -> subtract T cs X = Ok (map (shifted G) X).
  Proof.
    intros HR. unfold subtract.
    match goal with |- _ -> ofold ?f X [] = _ => enough (L : forall X acc, (forall c, In c X -> input_cell T (x_t c) (x_j c) (x_i c)) -> ofold f X acc = Ok (acc ++ map (shifted G) X)) by (intros HX; exact (L X [] HX)) end.
    clear X. induction X as [|c X IH]; intros acc HX; cbn [ofold map]; [now rewrite app_nil_r|].
    destruct (HX c (or_introl eq_refl)) as (Hq & Hj & Hi). destruct (tile_get T (x_t c) Hq) as (Et & _). rewrite Et. cbn [bind].
    destruct (rows_at T cs G (x_t c) (x_j c * t_nx (tile_at T (x_t c)) + x_i c)%Z HR Hq ltac:(unfold size; nia)) as (row & E1 & E2 & _). rewrite E1. cbn [bind]. rewrite E2. cbn [bind].
    rewrite IH by (intros; apply HX; now right). rewrite <- app_assoc. reflexivity.
  Qed.
  Lemma raw_input order2 me n c : (0 <= me < npes)%Z -> (0 <= n < nout)%Z -> In c (raw order2 me n) -> input_cell T (x_t c) (x_j c) (x_i c).
  Proof.
    intros Hme Hn Hc. unfold raw in Hc. apply in_flat_map in Hc. destruct Hc as (m & Hm & Hc). apply In_zseq in Hm. apply in_map_iff in Hc. destruct Hc as (p & <- & Hp). destruct HW as (_ & H). destruct (H me n m p ltac:(lia) ltac:(lia) ltac:(lia) Hp) as (? & ? & _). repeat split; cbn; lia.
  Qed.
  Definition G2 : Z -> Z -> R * R * R := centre_of (fun q n => tri (flat_map (cut q n) (zseq 0 nout))).
  Lemma setup_run order2 me : (0 <= nout)%Z -> (0 <= me < npes)%Z ->
    setup order2 clip ctr npes nout me T = Ok (map (fun n => if order2 then map (shifted G2) (raw true me n) else raw false me n) (zseq 0 nout)).
  Proof.
    intros Hno Hme. unfold setup. destruct (collect_run order2 me Hno) as (cs & E & HR). rewrite E. cbn [bind]. destruct order2; [|reflexivity].
    destruct (centroids_run cs _ (HR eq_refl)) as (cs' & E2 & R2). rewrite E2. cbn [bind]. fold G2 in R2.
    assert (L : forall l acc, (forall n, In n l -> (0 <= n < nout)%Z) -> ofold (fun l X => do X <- subtract T cs' X ; Ok (l ++ [X])) (map (raw true me) l) acc = Ok (acc ++ map (fun n => map (shifted G2) (raw true me n)) l)).
    { induction l as [|n l IH]; intros acc Hl; cbn [ofold map]; [now rewrite app_nil_r|]. rewrite (subtract_run cs' G2) by (auto; intros c Hc; apply (raw_input true me n); auto; apply Hl; now left). cbn [bind]. rewrite IH by (intros; apply Hl; now right). rewrite <- app_assoc. reflexivity. }
    rewrite L; [reflexivity|]. intros n Hn. apply In_zseq in Hn. lia.
  Qed.
End Setup.

(** ** Sums over the pieces of a cell *)
Lemma flat_map_ext_in {A B} (f g : A -> list B) l : (forall x, In x l -> f x = g x) -> flat_map f l = flat_map g l.
Proof. induction l as [|a l IH]; intros H; [reflexivity|]. cbn [flat_map]. rewrite (H a (or_introl eq_refl)), IH; auto. intros; apply H; now right. Qed.
Lemma rsum_swap {A B} (f : A -> B -> R) la lb : rsum (fun a => rsum (f a) lb) la = rsum (fun b => rsum (fun a => f a b) la) lb.
Proof.
  induction la as [|a la IH]; [rewrite rsum_nil; rewrite (rsum_ext _ (fun _ => 0)) by reflexivity; now rewrite rsum_zero|].
  rewrite rsum_cons, IH, <- rsum_plus. apply rsum_ext. intros b _. now rewrite rsum_cons.
Qed.
Lemma rsum_concat {A} (f : A -> R) ll : rsum f (concat ll) = rsum (rsum f) ll.
Proof. induction ll as [|l ll IH]; [reflexivity|]. cbn [concat]. now rewrite rsum_app, IH, rsum_cons. Qed.
Lemma rsum_pick (f : Z -> R) q N : (0 <= q < N)%Z -> rsum (fun m => if (m =? q)%Z then f m else 0) (zseq 0 N) = f q.
Proof.
  intros Hq. replace N with (q + (1 + (N - q - 1)))%Z by lia. rewrite zseq_app by lia. rewrite rsum_app. rewrite (zseq_app _ 1) by lia. rewrite rsum_app.
  rewrite (rsum_ext _ (fun _ => 0) (zseq 0 q)). 2:{ intros m Hm. apply In_zseq in Hm. destruct (Z.eqb_spec m q); auto; lia. }
  rewrite (rsum_ext _ (fun _ => 0) (zseq (0 + q + 1) _)). 2:{ intros m Hm. apply In_zseq in Hm. destruct (Z.eqb_spec m q); auto; lia. }
  rewrite !rsum_zero. change (zseq (0 + q) 1) with [(0 + q)%Z]. rewrite rsum_cons, rsum_nil. rewrite Z.add_0_l, Z.eqb_refl. lra.
Qed.
Lemma pieces_sum clip npes nout (T : list tile) O (outs : Z -> list (list xc)) (K : Z -> pc -> xc) (g : xc -> R) (h : pc -> R) q j i :
  (forall r, (0 <= r < npes)%Z -> outs r = map (fun n => flat_map (fun m => map (K m) (clip r n m)) (zseq 0 (zlen T))) (zseq 0 nout)) ->
  all_cells O = flat_map (fun r => concat (outs r)) (zseq 0 npes) ->
  (forall m p, x_t (K m p) = m /\ x_j (K m p) = c_j p /\ x_i (K m p) = c_i p) -> (0 <= q < zlen T)%Z ->
  (forall r n p, (0 <= r < npes)%Z -> (0 <= n < nout)%Z -> In p (clip r n q) -> c_j p = j -> c_i p = i -> g (K q p) = h p) ->
  rsum g (from O q j i) = rsum h (pieces clip npes nout q j i).
Proof.
  intros Ho HO HK Hq Hg. unfold from, pieces. rewrite HO, rsum_filter, !rsum_flat_map.
  rewrite (rsum_ext (fun n => rsum h (flat_map _ (zseq 0 npes))) (fun n => rsum (fun r => rsum h (filter (fun p => (c_j p =? j)%Z && (c_i p =? i)%Z) (clip r n q))) (zseq 0 npes))) by (intros; apply rsum_flat_map).
  rewrite rsum_swap. apply rsum_ext. intros r Hr. apply In_zseq in Hr. rewrite rsum_concat, Ho by lia. rewrite rsum_map. apply rsum_ext. intros n Hn. apply In_zseq in Hn. cbv beta.
  rewrite rsum_flat_map. rewrite (rsum_ext _ (fun m => if (m =? q)%Z then rsum h (filter (fun p => (c_j p =? j)%Z && (c_i p =? i)%Z) (clip r n m)) else 0)).
  - apply rsum_pick; auto.
  - intros m Hm. rewrite rsum_map. destruct (Z.eqb_spec m q) as [->|N].
    + rewrite rsum_filter. apply rsum_ext. intros p Hp. destruct (HK q p) as (-> & -> & ->). rewrite Z.eqb_refl. cbn [andb]. destruct ((c_j p =? j)%Z && (c_i p =? i)%Z) eqn:B; auto. apply andb_prop in B. destruct B as (B1 & B2). apply Z.eqb_eq in B1, B2. apply (Hg r n p); auto; lia.
    + rewrite (rsum_ext _ (fun _ => 0)); [apply rsum_zero|]. intros p _. destruct (HK m p) as (-> & _). destruct (Z.eqb_spec m q); [contradiction|]. reflexivity.
Qed.
Lemma cut_pieces clip npes nout T q j i : wf_clip clip npes nout T -> input_cell T q j i ->
  flat_map (cut clip npes T q (j * t_nx (tile_at T q) + i)) (zseq 0 nout) = pieces clip npes nout q j i.
Proof.
  intros (_ & HW) (Hq & Hj & Hi). unfold pieces. apply flat_map_ext_in. intros n Hn. apply In_zseq in Hn. unfold cut. rewrite filter_flat_map. apply flat_map_ext_in. intros r Hr. apply In_zseq in Hr.
  apply filter_ext_in. intros p Hp. destruct (HW r n q p ltac:(lia) ltac:(lia) Hq Hp) as (Hpj & Hpi & _). unfold key.
  destruct (Z.eqb_spec (c_j p * t_nx (tile_at T q) + c_i p) (j * t_nx (tile_at T q) + i)) as [E|N].
  - apply rowmajor_inj in E; auto. destruct E as (-> & ->). now rewrite !Z.eqb_refl.
  - destruct (Z.eqb_spec (c_j p) j) as [Ej|]; auto. destruct (Z.eqb_spec (c_i p) i) as [Ei|]; auto. exfalso. apply N. now rewrite Ej, Ei.
Qed.
Lemma nth_map_zseq {A} (F : Z -> A) N d n : (0 <= n < N)%Z -> nth (Z.to_nat n) (map F (zseq 0 N)) d = F n.
Proof.
  intros Hn. destruct (vec_map F N ltac:(lia)) as (L & H). specialize (H n Hn). unfold zget in H. destruct (Z.ltb_spec n 0); [lia|]. now apply nth_error_nth with (d := d) in H.
Qed.
Lemma Forall2_map_r {A B C} (P : A -> C -> Prop) (f : A -> B) (g : B -> C) (l : list A) : (forall a, In a l -> P a (g (f a))) -> Forall2 P l (map g (map f l)).
Proof. induction l as [|a l IH]; intros H; cbn; constructor; [apply H; now left|]. apply IH. intros; apply H; now right. Qed.

(** ** Remap files *)
Definition no_xc : xc := MkXc 0 0 0 0 0 0 0 0.
Definition cell_no (w : list xc) (k : Z) : xc := nth (Z.to_nat k) w no_xc.
Lemma get_map {A} (g : xc -> A) w k : (0 <= k < zlen w)%Z -> oget (map g w) k = Ok (g (cell_no w k)).
Proof.
  intros Hk. apply oget_Ok. unfold zget. destruct (Z.ltb_spec k 0); [lia|]. rewrite nth_error_map, (nth_error_nth' w no_xc) by (unfold zlen in Hk; lia). reflexivity.
Qed.
Lemma put_column_run {A} s (g : xc -> A) w var : (s = 0 \/ s = 1)%Z -> zlen var = (2 * zlen w)%Z ->
  exists var', put_column s (map g w) var = Ok var' /\ zlen var' = (2 * zlen w)%Z
    /\ (forall k, (0 <= k < zlen w)%Z -> oget var' (2 * k + s) = Ok (g (cell_no w k)))
    /\ (forall k, (0 <= k < zlen w)%Z -> oget var' (2 * k + (1 - s)) = oget var (2 * k + (1 - s))).
Proof.
  intros Hs HL. unfold put_column. replace (zlen (map g w)) with (zlen w) by (unfold zlen; now rewrite map_length).
  match goal with |- context [ofor 0 (zlen w) ?f ?st] => destruct (ofor_inv (fun m v => zlen v = (2 * zlen w)%Z
    /\ (forall k, (0 <= k < m)%Z -> oget v (2 * k + s) = Ok (g (cell_no w k))) /\ (forall k, (0 <= k < zlen w)%Z -> oget v (2 * k + (1 - s)) = oget var (2 * k + (1 - s)))) f 0 (zlen w) st) as (v & E & H1 & H2 & H3) end.
  - apply zlen_nonneg.
  - split; auto. split; auto. intros; lia.
  - intros n v Hn (H1 & H2 & H3). rewrite get_map by lia. cbn [bind]. destruct (zset_Some v (2 * n + s) (g (cell_no w n))) as (v' & Ev); [lia|]. exists v'. split; [now apply oset_Ok|].
    split; [now rewrite (zset_len _ _ _ _ Ev)|]. split.
    + intros k Hk. destruct (Z.eq_dec k n) as [->|N]; [apply oget_Ok; exact (zget_zset_eq _ _ _ _ Ev)|]. specialize (H2 k ltac:(lia)). apply oget_Ok in H2. apply oget_Ok. rewrite (zget_zset_ne _ _ _ (2 * k + s)%Z _ Ev) by lia. auto.
    + intros k Hk. rewrite <- H3 by auto. unfold oget. rewrite (zget_zset_ne _ _ _ (2 * k + (1 - s))%Z _ Ev) by lia. reflexivity.
  - exists v. rewrite Z.add_0_l in H2. auto.
Qed.
Lemma gather_whole {A} (f : part -> xc -> A) (g : xc -> A) ranks d : (forall r c, f r c = g (placed (s_isc r) (s_jsc r) c)) ->
  gather_field (map (fun r => map (f r) (s_cells r)) ranks) (repeat d (length (concat (map s_cells ranks)))) = Ok (map g (whole ranks)).
Proof.
  intros H. assert (E : concat (map (fun r => map (f r) (s_cells r)) ranks) = map g (whole ranks)).
  { unfold whole. induction ranks as [|r ranks IH]; [reflexivity|]. cbn [map concat flat_map]. rewrite IH, map_app, map_map. f_equal. apply map_ext. auto. }
  rewrite C05_gather_field_concat; [now rewrite E|]. unfold zlen. rewrite repeat_length. f_equal. clear E H. induction ranks as [|r ranks IH]; [reflexivity|]. cbn [map concat]. rewrite !app_length, IH, map_length. reflexivity.
Qed.
Lemma whole_length ranks : length (whole ranks) = length (concat (map s_cells ranks)).
Proof. unfold whole. induction ranks as [|r ranks IH]; [reflexivity|]. cbn [map concat flat_map]. rewrite !app_length, IH, map_length. reflexivity. Qed.
(** What the file holds. *)
Definition saved (order2 : bool) (w : list xc) (f : rfile) : Prop :=
  f_tile1 f = map (fun c => x_t c + 1)%Z w /\ f_area f = map x_a w
  /\ (forall k, (0 <= k < zlen w)%Z -> oget (f_cell1 f) (k * 2) = Ok (x_i (cell_no w k) + 1)%Z /\ oget (f_cell1 f) (k * 2 + 1) = Ok (x_j (cell_no w k) + 1)%Z
       /\ oget (f_cell2 f) (k * 2) = Ok (x_io (cell_no w k) + 1)%Z /\ oget (f_cell2 f) (k * 2 + 1) = Ok (x_jo (cell_no w k) + 1)%Z)
  /\ if order2 then exists d, f_dist f = Some d /\ forall k, (0 <= k < zlen w)%Z -> oget d (k * 2) = Ok (x_di (cell_no w k)) /\ oget d (k * 2 + 1) = Ok (x_dj (cell_no w k))
     else f_dist f = None.
Lemma two_columns {A} (g0 g1 : xc -> A) w d : exists v v', put_column 0 (map g0 w) (repeat d (2 * length w)) = Ok v /\ put_column 1 (map g1 w) v = Ok v'
  /\ forall k, (0 <= k < zlen w)%Z -> oget v' (k * 2) = Ok (g0 (cell_no w k)) /\ oget v' (k * 2 + 1) = Ok (g1 (cell_no w k)).
Proof.
  destruct (put_column_run 0 g0 w (repeat d (2 * length w))) as (v & E & L & H1 & _); [auto|unfold zlen; rewrite repeat_length; lia|].
  destruct (put_column_run 1 g1 w v) as (v' & E' & L' & H1' & H2'); auto. exists v, v'. split; auto. split; auto. intros k Hk. rewrite Z.mul_comm. specialize (H1 k Hk). specialize (H2' k Hk). rewrite Z.add_0_r in *. replace (2 * k)%Z with (2 * k + (1 - 1))%Z at 1 by lia. rewrite ?Z.sub_diag, ?Z.add_0_r in *. rewrite H2'. auto.
Qed.
Lemma write_run order2 fi fd ranks : (whole ranks = [] -> write_file order2 fi fd ranks = Ok None)
  /\ (whole ranks <> [] -> exists f, write_file order2 fi fd ranks = Ok (Some f) /\ saved order2 (whole ranks) f).
Proof.
  unfold write_file. cbv zeta. split.
  - intros E. rewrite <- whole_length, E. reflexivity.
  - intros N. destruct (Z.leb_spec (Z.of_nat (length (concat (map s_cells ranks)))) 0) as [C|C].
    { exfalso. apply N. apply length_zero_iff_nil. rewrite whole_length. lia. }
    rewrite !(gather_whole _ x_t) by reflexivity. cbn [bind]. rewrite (gather_whole _ x_i) by reflexivity. cbn [bind]. rewrite map_map.
    set (w := whole ranks) in *. rewrite <- (whole_length ranks). fold w.
    destruct (two_columns (fun c => x_i c + 1)%Z (fun c => x_j c + 1)%Z w fi) as (a1 & a2 & E1 & E2 & H1). rewrite E1. cbn [bind].
    rewrite <- (whole_length ranks) in *. 
    assert (GW : forall {A} (f : part -> xc -> A) (g : xc -> A) (d : A), (forall r c, f r c = g (placed (s_isc r) (s_jsc r) c)) -> gather_field (map (fun r => map (f r) (s_cells r)) ranks) (repeat d (length w)) = Ok (map g w)).
    { intros A f g d H. unfold w. rewrite whole_length. now apply gather_whole. }
    rewrite (GW _ _ (fun c => x_io c + 1)%Z) by reflexivity. cbn [bind].
    destruct (two_columns (fun c => x_io c + 1)%Z (fun c => x_jo c + 1)%Z w fi) as (b1 & b2 & F1 & F2 & H2). rewrite F1. cbn [bind].
    rewrite (GW _ _ x_j) by reflexivity. cbn [bind]. rewrite map_map, E2. cbn [bind]. rewrite (GW _ _ (fun c => x_jo c + 1)%Z) by reflexivity. cbn [bind]. rewrite F2. cbn [bind].
    rewrite (GW _ (fun _ => x_a) x_a) by reflexivity. cbn [bind]. destruct order2.
    + rewrite (GW _ (fun _ => x_di) x_di) by reflexivity. cbn [bind]. destruct (two_columns x_di x_dj w fd) as (d1 & d2 & G1 & G2 & H3). rewrite G1. cbn [bind]. rewrite (GW _ (fun _ => x_dj) x_dj) by reflexivity. cbn [bind]. rewrite G2. cbn [bind].
      eexists. split; [reflexivity|]. split; [rewrite map_map; reflexivity|]. split; [reflexivity|]. split.
      * intros k Hk. cbn [f_cell1 f_cell2]. destruct (H1 k Hk). destruct (H2 k Hk). auto.
      * exists d2. split; [reflexivity|]. auto.
    + cbn [bind]. eexists. split; [reflexivity|]. split; [rewrite map_map; reflexivity|]. split; [reflexivity|]. split.
      * intros k Hk. cbn [f_cell1 f_cell2]. destruct (H1 k Hk). destruct (H2 k Hk). auto.
      * reflexivity.
Qed.

Lemma firstn_plus1 {A} (l : list A) d n : (n < length l)%nat -> firstn (n + 1) l = firstn n l ++ [nth n l d].
Proof.
  revert n. induction l as [|a l IH]; intros n Hn; cbn in Hn; [lia|]. destruct n as [|n]; [reflexivity|]. cbn [Nat.add firstn nth app]. f_equal. apply IH. lia.
Qed.
Lemma garea_pos : GAREA <> 0.
Proof. unfold GAREA. pose proof PI_RGT_0. apply Rgt_not_eq. nra. Qed.
Lemma read_run order2 w f isc iec jsc jec : saved order2 w f -> (order2 = false -> forall c, In c w -> x_di c = 0 /\ x_dj c = 0) ->
  read_file order2 isc iec jsc jec (Some f) = Ok (map (placed (- isc) (- jsc)) (filter (inside isc iec jsc jec) w)).
Proof.
  intros (Ht & Ha & HC & HD) H0. unfold read_file.
  assert (ED : forall {A} (x y : outcome A), match f_dist f, order2 with None, true => x | _, _ => y end = y).
  { intros A x y. destruct order2; [destruct HD as (d & -> & _); reflexivity|rewrite HD; reflexivity]. }
  rewrite ED. clear ED. rewrite Ha. replace (zlen (map x_a w)) with (zlen w) by (unfold zlen; now rewrite map_length).
  match goal with |- ofor 0 (zlen w) ?g [] = _ => destruct (ofor_inv (fun m l => l = map (placed (- isc) (- jsc)) (filter (inside isc iec jsc jec) (firstn (Z.to_nat m) w))) g 0 (zlen w) []) as (l & E & HL) end.
  - apply zlen_nonneg.
  - reflexivity.
  - intros n l Hn ->. destruct (HC n ltac:(lia)) as (-> & -> & -> & ->). cbn [bind]. rewrite get_map by lia. cbn [bind]. rewrite Ht, get_map by lia. cbn [bind]. set (c := cell_no w n).
    assert (Hc : In c w) by (unfold c, cell_no; apply nth_In; unfold zlen in Hn; lia).
    assert (EF : (do d <- (match f_dist f with Some d => if order2 then do x <- oget d (n * 2) ; do y <- oget d (n * 2 + 1) ; Ok (x, y) else Ok (0, 0) | None => Ok (0, 0) end) ; Ok d) = Ok (x_di c, x_dj c)).
    { destruct order2; [destruct HD as (d & -> & HD); destruct (HD n ltac:(lia)) as (-> & ->); reflexivity|]. destruct (H0 eq_refl c Hc) as (-> & ->). destruct (f_dist f); reflexivity. }
    assert (E2 : forall {B} (F : R * R -> outcome B) o, (do d <- o ; Ok d) = Ok (x_di c, x_dj c) -> bind o F = F (x_di c, x_dj c)). { intros B F o. destruct o; cbn; intros X; try discriminate. now injection X as ->. }
    rewrite (E2 _ _ _ EF). clear E2 EF. cbn [fst snd].
    replace (Z.to_nat (n + 1)) with (Z.to_nat n + 1)%nat by lia. rewrite (firstn_plus1 w no_xc) by (unfold zlen in Hn; lia). rewrite filter_app, map_app. cbn [filter]. fold (cell_no w n). fold c.
    replace (x_io c + 1 - 1)%Z with (x_io c) by lia. replace (x_jo c + 1 - 1)%Z with (x_jo c) by lia.
    replace ((x_io c <=? iec) && (isc <=? x_io c) && (x_jo c <=? jec) && (jsc <=? x_jo c))%Z with (inside isc iec jsc jec c).
    2:{ unfold inside. destruct (isc <=? x_io c)%Z, (x_io c <=? iec)%Z, (jsc <=? x_jo c)%Z, (x_jo c <=? jec)%Z; reflexivity. }
    destruct (inside isc iec jsc jec c); (eexists; split; [reflexivity|]); [|cbn [map filter]; rewrite ?app_nil_r; reflexivity].
    cbn [map]. do 2 f_equal. unfold placed. replace (x_a c / GAREA * GAREA) with (x_a c) by (field; apply garea_pos). f_equal; lia.
  - rewrite E, HL, Z.add_0_l. unfold zlen. rewrite Nat2Z.id, firstn_all. reflexivity.
Qed.
