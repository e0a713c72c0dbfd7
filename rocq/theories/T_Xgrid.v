(** * Properties C28, C29: threads and array bounds of the exchange grid search *)
From Coq Require Import Permutation.
From Verif Require Import Base Loops Lst P_Ncc3 M_Xgrid Spec_Xgrid P_Xgrid.

Section Cells.
Variable V : Type.
Variables (mask : Z -> bool) (overlap : Z -> Z -> option V).
Notation hits := (hits V mask overlap).
Notation HH n1 n2 nb := (map (hits n1) (blocks (Z.to_nat nb) n2 0)).

Lemma perm_swap {A B C} (f : A -> B -> list C) la lb : Permutation (flat_map (fun a => flat_map (f a) lb) la) (flat_map (fun b => flat_map (fun a => f a b) la) lb).
Proof.
  induction la as [|a la IH]; cbn [flat_map]. { induction lb; cbn; auto. }
  etransitivity; [apply Permutation_app_head, IH|]. clear IH. induction lb as [|b lb IH]; cbn [flat_map]; auto.
  rewrite <- app_assoc, <- (app_assoc (f a b)). apply Permutation_app_head. etransitivity; [apply Permutation_app_swap_app|]. apply Permutation_app_head. exact IH.
Qed.
Lemma flat_map_flat {A B C} (f : B -> list C) (g : A -> list B) l : flat_map f (flat_map g l) = flat_map (fun a => flat_map f (g a)) l.
Proof. induction l; cbn; auto. rewrite flat_map_app. now f_equal. Qed.

Lemma blocks_perm n1 n2 nb : 1 <= nb -> 0 <= n2 -> Permutation (concat (HH n1 n2 nb)) (hits n1 (0, n2 - 1)).
Proof.
  intros Hb Hn. rewrite <- flat_map_concat_map. unfold hits at 1. etransitivity; [apply perm_swap|]. unfold M_Xgrid.hits.
  match goal with |- Permutation ?a ?b => replace a with b; [reflexivity|] end. apply flat_map_ext. intros n. unfold found. destruct (mask n).
  - cbn [fst snd]. replace (zseq 0 (n2 - 1 - 0 + 1)) with (zseq 0 n2) by (f_equal; lia). rewrite <- (blocks_tile (Z.to_nat nb) n2 0) by lia. apply flat_map_flat.
  - induction (blocks (Z.to_nat nb) n2 0); auto.
Qed.

Lemma hits_spec n1 n2 : 0 <= n2 -> exchange_cells mask overlap n1 n2 (hits n1 (0, n2 - 1)).
Proof.
  intros Hn. assert (I : forall c, In c (hits n1 (0, n2 - 1)) <-> 0 <= c_in V c < n1 /\ 0 <= c_out V c < n2 /\ mask (c_in V c) = true /\ overlap (c_in V c) (c_out V c) = Some (c_area V c)).
  { intros c. unfold M_Xgrid.hits. rewrite in_flat_map. split.
    - intros (a & Ha & Hc). apply In_zseq in Ha. unfold found in Hc. destruct (mask a) eqn:M; [|contradiction]. apply in_flat_map in Hc. destruct Hc as (b & Hb & Hc). cbn [fst snd] in Hb. apply In_zseq in Hb. unfold cell_of in Hc. destruct (overlap a b) eqn:O; [|contradiction]. destruct Hc as [<-|[]]. cbn [c_in c_out c_area]. repeat split; auto; lia.
    - intros (H1 & H2 & H3 & H4). exists (c_in V c). split; [apply In_zseq; lia|]. unfold found. rewrite H3. apply in_flat_map. exists (c_out V c). cbn [fst snd]. split; [apply In_zseq; lia|]. unfold cell_of. rewrite H4. left. now destruct c. }
  split; auto. clear I. unfold M_Xgrid.hits.
  assert (G : forall (A : Type) (f : A -> list (cell V)) l (key : A -> cell V -> Prop), NoDup l -> (forall a, In a l -> NoDup (map (fun c => (c_in V c, c_out V c)) (f a))) -> (forall a b x y, In a l -> In b l -> In x (f a) -> In y (f b) -> c_in V x = c_in V y -> c_out V x = c_out V y -> a = b) -> NoDup (map (fun c => (c_in V c, c_out V c)) (flat_map f l))).
  { intros A f l _ ND. induction ND as [|a l Ha ND IH]; intros HF HK; cbn [flat_map map]; [constructor|]. rewrite map_app. apply NoDup_app_intro; [apply HF; now left| |].
    - apply IH. + intros b Hb. apply HF. now right. + intros b b' x y Hb Hb'. apply HK; now right.
    - intros k Hk Hk'. apply in_map_iff in Hk. apply in_map_iff in Hk'. destruct Hk as (x & <- & Hx). destruct Hk' as (y & E & Hy). apply in_flat_map in Hy. destruct Hy as (b & Hb & Hy). inversion E. assert (a = b) by (eapply HK; eauto; [now left|now right]). subst. contradiction. }
  assert (FI : forall a c, In c (found V mask overlap a (0, n2 - 1)) -> c_in V c = a).
  { intros a c Hc. unfold found in Hc. destruct (mask a); [|contradiction]. apply in_flat_map in Hc. destruct Hc as (b & _ & Hc). unfold cell_of in Hc. destruct (overlap a b); [|contradiction]. destruct Hc as [<-|[]]. reflexivity. }
  apply G; [exact (fun _ _ => True)|apply NoDup_zseq| |].
  - intros a _. unfold found. destruct (mask a); [|constructor]. apply G; [exact (fun _ _ => True)|apply NoDup_zseq| |].
    + intros b _. unfold cell_of. destruct (overlap a b); cbn; [constructor; [intros []|constructor]|constructor].
    + intros b b' x y _ _ Hx Hy _ E. unfold cell_of in *. destruct (overlap a b); [|contradiction]. destruct (overlap a b'); [|contradiction]. destruct Hx as [<-|[]]. destruct Hy as [<-|[]]. exact E.
  - intros a b x y _ _ Hx Hy E _. apply FI in Hx. apply FI in Hy. congruence.
Qed.

(** What a run of the threads gives. *)
Lemma run_2d maxx nb n1 n2 sched : 1 <= nb -> 0 <= maxx -> 0 <= n2 -> schedule nb sched ->
  let H := HH n1 n2 nb in
  (create_2dx2d V mask overlap maxx nb n1 n2 sched = Ok None)
  \/ (create_2dx2d V mask overlap maxx nb n1 n2 sched = Ok (Some (map Some (concat H))) /\ forall m l, zget H m = Some l -> zlen l = 0 \/ zlen l < maxx / nb)
  \/ (create_2dx2d V mask overlap maxx nb n1 n2 sched = Err 1 /\ exists m l, zget H m = Some l /\ maxx / nb <= zlen l /\ 0 < zlen l).
Proof.
  intros Hb Hm Hn HS H. assert (HL : zlen H = nb). { unfold H. rewrite zlen_map. unfold zlen. rewrite blocks_len. lia. }
  assert (B0 : 0 <= maxx / nb) by (apply Z.div_pos; lia). assert (BM : nb * (maxx / nb) <= maxx) by (apply Z.mul_div_le; lia).
  unfold create_2dx2d. replace (map (fun b => flat_map (ops_of V) (hits n1 b)) (blocks (Z.to_nat nb) n2 0)) with (map (fun l => flat_map (ops_of V) l) H) by (unfold H; now rewrite map_map). clearbody H.
  destruct (run_ok V nb (maxx / nb) maxx H B0 BM sched HS _ (start_good V nb (maxx / nb) maxx H HL B0 BM)) as [((ts & s) & E & G)|(E & K)].
  - unfold run. rewrite E. cbn [bind]. destruct (finished V ts) eqn:F; cbn [negb]; [|now left]. right. left. pose proof (finished_good V nb (maxx / nb) maxx H HL BM _ G F) as FG. split.
    + destruct (Z.eqb_spec nb 1) as [->|N].
      * destruct (FG 0 ltac:(lia)) as (l & El & En & Hl & Hx). cbn [snd] in *. rewrite (proj2 (oget_Ok _ _ _) En). cbn [bind]. do 2 f_equal.
        destruct H as [|l0 [|l1 H']]. { change (zlen (@nil (list (cell V)))) with 0 in HL. lia. } 2: { rewrite !zlen_cons in HL. pose proof (zlen_nonneg H'). lia. }
        inversion El; subst l0. cbn [concat]. rewrite app_nil_r. destruct G as (_ & _ & G3 & _). cbn [snd] in G3. pose proof (zlen_nonneg l). rewrite Z.div_1_r in *.
        apply zget_ext. { rewrite zlen_map. unfold zlen in *. rewrite firstn_length. lia. }
        intros i Hi. assert (Hi2 : 0 <= i < zlen l). { unfold zlen in Hi. rewrite firstn_length in Hi. unfold zlen. lia. }
        rewrite zget_map, <- (Hx i Hi2). rewrite Z.add_0_l. unfold zget. destruct (Z.ltb_spec i 0); [lia|]. apply nth_error_firstn_lt. lia.
      * pose proof (copy_ok V nb (maxx / nb) maxx H HL B0 BM _ G F) as C. cbn [snd] in C. rewrite C. reflexivity.
    + intros m l El. destruct (FG m) as (l' & E' & _ & K & _). { rewrite <- HL. eapply zget_Some_range; eauto. } rewrite E' in El. inversion El. subst. auto.
  - right. right. unfold run. rewrite E. split; auto.
Qed.
End Cells.

(** C28, schedules: for a given number of threads, all schedules that let the threads
    finish give the same output, and when one succeeds no other one fails. *)
Theorem C28_schedule_independent : forall V mask overlap maxx nthreads n1 n2 sched sched' (out : list (option (cell V))),
  1 <= nthreads -> 0 <= maxx -> 0 <= n2 -> schedule nthreads sched -> schedule nthreads sched' ->
  create_2dx2d V mask overlap maxx nthreads n1 n2 sched = Ok (Some out) ->
  create_2dx2d V mask overlap maxx nthreads n1 n2 sched' = Ok (Some out) \/ create_2dx2d V mask overlap maxx nthreads n1 n2 sched' = Ok None.
Proof.
  intros V mask overlap maxx nb n1 n2 sched sched' out Hb Hm Hn HS HS' E.
  destruct (run_2d V mask overlap maxx nb n1 n2 sched Hb Hm Hn HS) as [K|[(K & KB)|(K & _)]]; rewrite K in E; try discriminate. inversion E; subst out.
  destruct (run_2d V mask overlap maxx nb n1 n2 sched' Hb Hm Hn HS') as [K'|[(K' & _)|(K' & m & l & El & Hl)]]; auto.
  exfalso. specialize (KB m l El). lia.
Qed.
Print Assumptions C28_schedule_independent.

(** C28, numbers of threads: the output lists exactly the exchange cells, each once; so
    outputs for different numbers of threads are equal up to order. *)
Theorem C28_thread_count_partial : forall V mask overlap maxx nthreads n1 n2 sched (out : list (option (cell V))),
  1 <= nthreads -> 0 <= maxx -> 0 <= n2 -> schedule nthreads sched ->
  create_2dx2d V mask overlap maxx nthreads n1 n2 sched = Ok (Some out) ->
  exists l, out = map Some l /\ exchange_cells mask overlap n1 n2 l.
Proof.
  intros V mask overlap maxx nb n1 n2 sched out Hb Hm Hn HS E.
  destruct (run_2d V mask overlap maxx nb n1 n2 sched Hb Hm Hn HS) as [K|[(K & KB)|(K & _)]]; rewrite K in E; try discriminate. inversion E; subst out.
  eexists. split; [reflexivity|]. destruct (hits_spec V mask overlap n1 n2 Hn) as [S1 S2]. pose proof (blocks_perm V mask overlap n1 n2 nb Hb Hn) as P. split.
  - eapply Permutation_NoDup; [|exact S1]. apply Permutation_map. now symmetry.
  - intros c. rewrite <- S2. split; apply Permutation_in; auto. now symmetry.
Qed.
Print Assumptions C28_thread_count_partial.
Theorem C28_thread_counts_agree_partial : forall V mask overlap maxx nthreads maxx' nthreads' n1 n2 sched sched' (out out' : list (option (cell V))),
  1 <= nthreads -> 1 <= nthreads' -> 0 <= maxx -> 0 <= maxx' -> 0 <= n2 -> schedule nthreads sched -> schedule nthreads' sched' ->
  create_2dx2d V mask overlap maxx nthreads n1 n2 sched = Ok (Some out) -> create_2dx2d V mask overlap maxx' nthreads' n1 n2 sched' = Ok (Some out') ->
  Permutation out out'.
Proof.
  intros V mask overlap maxx nb maxx' nb' n1 n2 sched sched' out out' Hb Hb' Hm Hm' Hn HS HS' E E'.
  destruct (run_2d V mask overlap maxx nb n1 n2 sched Hb Hm Hn HS) as [K|[(K & KB)|(K & _)]]; rewrite K in E; try discriminate. inversion E; subst out.
  destruct (run_2d V mask overlap maxx' nb' n1 n2 sched' Hb' Hm' Hn HS') as [K'|[(K' & KB')|(K' & _)]]; rewrite K' in E'; try discriminate. inversion E'; subst out'.
  apply Permutation_map. etransitivity; [apply blocks_perm; auto|]. symmetry. apply blocks_perm; auto.
Qed.
Print Assumptions C28_thread_counts_agree_partial.

(** Two source cells, two target cells, all overlapping: one thread, then two threads
    under two different schedules. *)
Definition ov4 (a b : Z) : option Z := Some (10 * a + b).
Definition all (_ : Z) : bool := true.
Definition seq1 : list Z := repeat 0 12.
Definition seq2 : list Z := repeat 0 6 ++ repeat 1 6.
Definition mix2 : list Z := [0; 1; 1; 0; 1; 0; 1; 0; 0; 1; 0; 1].
Example C28_example : create_2dx2d Z all ov4 20 2 2 2 seq2 = create_2dx2d Z all ov4 20 2 2 2 mix2
  /\ create_2dx2d Z all ov4 20 2 2 2 mix2 = Ok (Some [Some (MkCell Z 0 0 0); Some (MkCell Z 1 0 10); Some (MkCell Z 0 1 1); Some (MkCell Z 1 1 11)]).
Proof. split; vm_compute; reflexivity. Qed.

(** As a list, in order, the output does depend on the number of threads. *)
Theorem C28_order_refuted : exists out1 out2, create_2dx2d Z all ov4 20 1 2 2 seq1 = Ok (Some out1) /\ create_2dx2d Z all ov4 20 2 2 2 seq2 = Ok (Some out2) /\ out1 <> out2.
Proof. eexists. eexists. split; [vm_compute; reflexivity|]. split; [vm_compute; reflexivity|]. discriminate. Qed.
Print Assumptions C28_order_refuted.
(** Nor is success: the limit is MAXXGRID divided by the number of threads. *)
Theorem C28_limit_refuted : (exists out, create_2dx2d Z all ov4 5 1 2 2 seq1 = Ok (Some out)) /\ create_2dx2d Z all ov4 5 2 2 2 seq2 = Err 1.
Proof. split; [eexists|]; vm_compute; reflexivity. Qed.
Print Assumptions C28_limit_refuted.

(** C29: the threaded search never stores outside its arrays, whatever the grids, the
    number of threads and the schedule. *)
Theorem C29_2dx2d_in_bounds : forall V mask overlap maxx nthreads n1 n2 sched,
  1 <= nthreads -> 0 <= maxx -> 0 <= n2 -> schedule nthreads sched -> create_2dx2d V mask overlap maxx nthreads n1 n2 sched <> UB.
Proof.
  intros V mask overlap maxx nb n1 n2 sched Hb Hm Hn HS. destruct (run_2d V mask overlap maxx nb n1 n2 sched Hb Hm Hn HS) as [K|[(K & KB)|(K & _)]]; rewrite K; discriminate.
Qed.
Print Assumptions C29_2dx2d_in_bounds.

(** The search for a regular source grid stores before it tests: it is correct when the
    cells fit, and overruns its arrays in every other case, before any message. *)
Theorem C29_1dx2d_partial : forall V mask overlap maxx n1 n2, 0 <= maxx -> 0 <= n2 ->
  exists l, exchange_cells mask overlap n1 n2 l /\ (zlen l <= maxx -> create_1dx2d V mask overlap maxx n1 n2 = Ok (map Some l))
            /\ (maxx < zlen l -> create_1dx2d V mask overlap maxx n1 n2 = UB).
Proof.
  intros V mask overlap maxx n1 n2 Hm Hn. exists (hits V mask overlap n1 (0, n2 - 1)). split; [now apply hits_spec|]. set (L := hits V mask overlap n1 (0, n2 - 1)). unfold create_1dx2d. fold L.
  set (f := fun '(out, n) c => do out <- oset out n (Some c); if n + 1 >? maxx then Err 1 else Ok (out, n + 1)).
  assert (K : forall l out n pre, zlen out = maxx -> n = zlen pre -> n <= maxx -> firstn (Z.to_nat n) out = map Some pre ->
     (n + zlen l <= maxx -> exists out', ofold f l (out, n) = Ok (out', n + zlen l) /\ zlen out' = maxx /\ firstn (Z.to_nat (n + zlen l)) out' = map Some (pre ++ l)) /\ (maxx < n + zlen l -> ofold f l (out, n) = UB)).
  { induction l as [|c l IH]; intros out n pre H1 H2 H3 H4.
    - change (zlen (@nil (cell V))) with 0. split; [|lia]. intros _. exists out. rewrite Z.add_0_r, app_nil_r. auto.
    - rewrite zlen_cons. pose proof (zlen_nonneg l). pose proof (zlen_nonneg pre). cbn [ofold]. unfold f at 1 3. destruct (Z.ltb_spec n maxx) as [Hlt|Hge].
      + destruct (zset_Some out n (Some c) ltac:(lia)) as (out' & E). rewrite (proj2 (oset_Ok _ _ _ _) E). cbn [bind]. destruct (Z.gtb_spec (n + 1) maxx); [lia|]. cbn [bind].
        destruct (IH out' (n + 1) (pre ++ [c])) as [I1 I2].
        * now rewrite (zset_len _ _ _ _ E). * rewrite zlen_app. change (zlen [c]) with 1. lia. * lia.
        * rewrite map_app, <- H4. cbn [map]. apply zget_ext.
          { rewrite zlen_app. change (zlen [Some c]) with 1. pose proof (zset_len _ _ _ _ E). unfold zlen in *. rewrite !firstn_length. lia. }
          intros i Hi. assert (Hi2 : 0 <= i < n + 1). { unfold zlen in Hi. rewrite firstn_length in Hi. lia. }
          assert (LF : zlen (firstn (Z.to_nat n) out) = n) by (unfold zlen in *; rewrite firstn_length; lia).
          assert (GF : forall (o : list (option (cell V))) k j, 0 <= j < k -> zget (firstn (Z.to_nat k) o) j = zget o j). { intros o k j Hj. unfold zget. destruct (Z.ltb_spec j 0); [lia|]. apply nth_error_firstn_lt. lia. }
          rewrite GF by lia. destruct (Z.eq_dec i n) as [->|Ni].
          -- rewrite zget_app_r by lia. rewrite LF, Z.sub_diag. rewrite (zget_zset_eq _ _ _ _ E). reflexivity.
          -- rewrite zget_app_l by lia. rewrite GF by lia. eapply zget_zset_ne; eauto.
        * split.
          -- intros K. destruct I1 as (o & O1 & O2 & O3); [lia|]. exists o. rewrite <- app_assoc in O3. replace (n + (1 + zlen l)) with (n + 1 + zlen l) by lia. auto.
          -- intros K. apply I2. lia.
      + split; [lia|]. intros _. assert (E : oset out n (Some c) = UB). { unfold oset, zset. destruct (Z.leb_spec 0 n); [|auto]. destruct (Z.ltb_spec n (zlen out)); [lia|reflexivity]. } rewrite E. reflexivity. }
  destruct (K L (repeat None (Z.to_nat maxx)) 0 []) as [K1 K2].
  - rewrite zlen_repeat, Z2Nat.id; lia.
  - reflexivity.
  - lia.
  - reflexivity.
  - rewrite Z.add_0_l in *. split.
    + intros H. destruct (K1 H) as (o & O1 & O2 & O3). rewrite O1. cbn [bind fst snd]. now rewrite O3.
    + intros H. rewrite (K2 H). reflexivity.
Qed.
Print Assumptions C29_1dx2d_partial.
Theorem C29_1dx2d_refuted : create_1dx2d Z all ov4 3 2 2 = UB /\ exists l, create_1dx2d Z all ov4 4 2 2 = Ok l.
Proof. split; [vm_compute; reflexivity|]. eexists. vm_compute. reflexivity. Qed.
Print Assumptions C29_1dx2d_refuted.
