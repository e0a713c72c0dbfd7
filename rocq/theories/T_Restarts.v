(** * C50: combine_restarts *)
From Coq Require Import String.
From Verif Require Import Base Str M_Restarts.
Open Scope string_scope. Open Scope list_scope. Open Scope Z_scope.

Section C50.
Context {C : Type}.
Implicit Types (d : @dir C) (T : @tools C).

(** A program changes no file but its output. *)
Definition only_output T : Prop := forall k d ins out n, n <> out -> look (fst (run_tool T k d ins out)) n = look d n.
(** An event that changes the directory *)
Definition changes (e : event) : bool := match e with Ran _ _ _ _ | Removed _ | Deleted _ => true | _ => false end.

Lemma look_rm d n m : look (rm d n) m = if str_eqb n m then None else look d m.
Proof.
  unfold rm. induction d as [|[a c] d IH]; cbn; [destruct (str_eqb n m); reflexivity|]. destruct (str_eqb a n) eqn:E1; cbn.
  - apply str_eqb_spec in E1. subst. rewrite IH. destruct (str_eqb n m); reflexivity.
  - rewrite IH. destruct (str_eqb a m) eqn:E2; auto. apply str_eqb_spec in E2. subst. destruct (str_eqb n m) eqn:E3; auto. apply str_eqb_spec in E3. subst. rewrite str_eqb_refl in E1. discriminate.
Qed.
Lemma look_rms l : forall d m, ~ In m l -> look (fold_left rm l d) m = look d m.
Proof. induction l as [|a l IH]; intros d m H; cbn; auto. rewrite IH by (intros X; apply H; right; auto). rewrite look_rm. destruct (str_eqb a m) eqn:E; auto. apply str_eqb_spec in E. elim H. left; auto. Qed.

(** What happened to a file that is not as it was *)
Definition accounted remove (tr : list event) (n : str) : Prop :=
  (remove = true /\ exists k ins f, In (Ran k ins f true) tr /\ In n ins) \/ (exists k ins ok, In (Ran k ins n ok) tr).
Lemma accounted_l remove a b n : accounted remove a n -> accounted remove (a ++ b) n.
Proof. intros [[? (k & ins & f & H & ?)]|(k & ins & ok & H)]; [left; split; auto; exists k, ins, f; split; auto; apply in_or_app; auto|right; exists k, ins, ok; apply in_or_app; auto]. Qed.
Lemma accounted_r remove a b n : accounted remove b n -> accounted remove (a ++ b) n.
Proof. intros [[? (k & ins & f & H & ?)]|(k & ins & ok & H)]; [left; split; auto; exists k, ins, f; split; auto; apply in_or_app; auto|right; exists k, ins, ok; apply in_or_app; auto]. Qed.

Lemma finish_keeps T remove k d ins f d' tr ok n : only_output T -> finish T false remove k d ins f = (d', tr, ok) ->
  look d' n = look d n \/ accounted remove tr n.
Proof.
  intros Ho. unfold finish. pose proof (Ho k d ins f n) as H. destruct (run_tool T k d ins f) as [d1 ok1]. cbn [fst] in H.
  assert (N : n = f \/ n <> f) by (destruct (str_eqb n f) eqn:E; [left; now apply str_eqb_spec|right; now apply str_eqb_false]).
  destruct N as [->|N].
  - destruct ok1; cbn; [destruct remove|]; intros Q; injection Q as <- <- <-; right; right; exists k, ins; eexists; left; reflexivity.
  - specialize (H N). destruct ok1; cbn; [destruct remove|]; intros Q; injection Q as <- <- <-; auto.
    destruct (in_dec (list_eq_dec Z.eq_dec) n ins) as [Hi|Hi].
    + right. left. split; auto. exists k, ins, f. split; [left; auto|auto].
    + left. rewrite look_rms; auto.
Qed.
Lemma one_keeps T remove d f d' tr ok n : only_output T -> one_set T false remove d f = (d', tr, ok) ->
  look d' n = look d n \/ accounted remove tr n.
Proof.
  intros Ho. unfold one_set. destruct (input_files d f) as [|i0 ins] eqn:Ei; [intros Q; inversion Q; subst; auto|].
  destruct (is_compressed T d i0); [apply finish_keeps; auto|]. destruct (is_iceberg T d i0); [apply finish_keeps; auto|].
  set (d1 := match look d f with Some _ => rm d f | None => d end).
  set (e1 := match look d f with Some _ => [Deleted f] | None => [] end).
  replace (match look d f with Some _ => (rm d f, [Deleted f]) | None => (d, []) end) with (d1, e1) by (unfold d1, e1; destruct (look d f); reflexivity).
  destruct (finish T false remove Mpp d1 (i0 :: ins) f) as [[d2 e2] ok2] eqn:E. intros Q. injection Q as <- <- <-.
  destruct (str_eqb n f) eqn:En.
  - apply str_eqb_spec in En. subst n. right. apply accounted_r. right. unfold finish in E. destruct (run_tool T Mpp d1 (i0 :: ins) f) as [d3 ok3].
    exists Mpp, (i0 :: ins), ok3. destruct ok3; cbn in E; [destruct remove|]; injection E as <- <- <-; left; reflexivity.
  - destruct (finish_keeps T remove Mpp d1 (i0 :: ins) f d2 e2 ok2 n Ho E) as [H|H]; [|right; apply accounted_r; auto].
    left. rewrite H. unfold d1. destruct (look d f); auto. rewrite look_rm. destruct (str_eqb f n) eqn:E2; auto. apply str_eqb_spec in E2. subst. rewrite str_eqb_refl in En. discriminate.
Qed.

(** C50: a file differs at the end only if it is the output of a program that was run, or —
    with -r — an input of a program that succeeded. *)
Theorem C50_kept T remove d d' tr ok n : only_output T -> combine_restarts T false remove d = (d', tr, ok) ->
  look d' n = look d n \/
  (remove = true /\ exists k ins f, In (Ran k ins f true) tr /\ In n ins) \/
  (exists k ins ok, In (Ran k ins n ok) tr).
Proof.
  intros Ho. unfold combine_restarts. generalize (restart_files T d) as fs. intros fs. revert d d' tr ok.
  induction fs as [|f fs IH]; intros d d' tr ok; cbn [all_sets]; [intros Q; inversion Q; subst; auto|].
  destruct (one_set T false remove d f) as [[d1 e1] ok1] eqn:E1. pose proof (one_keeps T remove d f d1 e1 ok1 n Ho E1) as H1. destruct ok1.
  - destruct (all_sets T false remove d1 fs) as [[d2 e2] ok2] eqn:E2. intros Q. injection Q as <- <- <-.
    destruct (IH d1 d2 e2 ok2 E2) as [H2|H2]; [|right; apply accounted_r; exact H2].
    destruct H1 as [H1|H1]; [left; congruence|right; apply accounted_l; exact H1].
  - intros Q. injection Q as <- <- <-. destruct H1 as [H1|H1]; [left; auto|right; exact H1].
Qed.

(** Inputs are removed only right after a successful run on exactly these inputs, and only with -r. *)
Definition safe_order remove (tr : list event) : Prop :=
  forall t1 ins t2, tr = t1 ++ Removed ins :: t2 -> remove = true /\ exists t0 k f, t1 = t0 ++ [Ran k ins f true].
Lemma safe_nil remove : safe_order remove [].
Proof. intros t1 ins t2 H. destruct t1; discriminate. Qed.
Lemma app_split {A} (l : list A) : forall a b t1 x t2, a ++ b = t1 ++ x :: t2 -> l = t1 -> (exists u, a = t1 ++ x :: u) \/ (exists u, t1 = a ++ u /\ b = u ++ x :: t2).
Proof.
  intros a. induction a as [|y a IH] in l |- *; intros b t1 x t2 E <-.
  - right. exists l. auto.
  - destruct l as [|z l]; cbn in E; injection E as -> E; [left; exists a; reflexivity|].
    destruct (IH l b l x t2 E eq_refl) as [(u & ->)|(u & -> & ->)]; [left; exists u; auto|right; exists u; auto].
Qed.
Lemma safe_app remove a b : safe_order remove a -> safe_order remove b -> safe_order remove (a ++ b).
Proof.
  intros Ha Hb t1 ins t2 E. destruct (app_split t1 a b t1 _ t2 E eq_refl) as [(u & Eu)|(u & E1 & E2)].
  - apply (Ha t1 ins u Eu).
  - destruct (Hb u ins t2 E2) as (Hr & t0 & k & f & ->). split; auto. exists (a ++ t0), k, f. rewrite E1. apply app_assoc.
Qed.
Lemma safe_one remove e : (forall ins, e <> Removed ins) -> safe_order remove [e].
Proof. intros H t1 ins t2 E. destruct t1 as [|? [|? ?]]; cbn in E; inversion E. elim (H ins); auto. Qed.
Lemma safe_finish T dry remove k d ins f : safe_order remove (snd (fst (finish T dry remove k d ins f))).
Proof.
  unfold finish. destruct dry.
  - cbn. destruct remove; cbn; [apply (safe_app true [_] [_])|]; apply safe_one; discriminate.
  - destruct (run_tool T k d ins f) as [d1 ok]. destruct ok; cbn; [|apply safe_one; discriminate].
    destruct remove; cbn; [|apply safe_one; discriminate]. intros t1 ins' t2 E. split; auto.
    destruct t1 as [|a [|b t1]]; cbn in E; [discriminate| |].
    + inversion E; subst. exists [], k, f. reflexivity.
    + inversion E. destruct t1; discriminate.
Qed.
Theorem C50_order T dry remove d d' tr ok : combine_restarts T dry remove d = (d', tr, ok) ->
  forall t1 ins t2, tr = t1 ++ Removed ins :: t2 -> remove = true /\ exists t0 k f, t1 = t0 ++ [Ran k ins f true].
Proof.
  unfold combine_restarts. generalize (restart_files T d) as fs. intros fs H. change (safe_order remove tr). revert d d' tr ok H.
  assert (S1 : forall d f, safe_order remove (snd (fst (one_set T dry remove d f)))).
  { intros d f. unfold one_set. destruct (input_files d f) as [|i0 ins]; [apply safe_nil|]. destruct (is_compressed T d i0); [apply safe_finish|]. destruct (is_iceberg T d i0); [apply safe_finish|].
    destruct (look d f); cbn.
    - pose proof (safe_finish T dry remove Mpp (rm d f) (i0 :: ins) f) as S. destruct (finish T dry remove Mpp (rm d f) (i0 :: ins) f) as [[? ?] ?]. cbn in *.
      apply (safe_app remove [Deleted f]); auto. apply safe_one. discriminate.
    - pose proof (safe_finish T dry remove Mpp d (i0 :: ins) f) as S. destruct (finish T dry remove Mpp d (i0 :: ins) f) as [[? ?] ?]. exact S. }
  induction fs as [|f fs IH]; intros d d' tr ok; cbn [all_sets]; [intros Q; inversion Q; subst; apply safe_nil|].
  pose proof (S1 d f) as S. destruct (one_set T dry remove d f) as [[d1 e1] ok1]. cbn in S. destruct ok1; [|intros Q; injection Q as <- <- <-; auto].
  destruct (all_sets T dry remove d1 fs) as [[d2 e2] ok2] eqn:E2. intros Q. injection Q as <- <- <-. apply safe_app; eauto.
Qed.

Lemma one_ran T remove d f d' tr ok : one_set T false remove d f = (d', tr, ok) ->
  (forall k ins g o, In (Ran k ins g o) tr -> g = f) /\
  (input_files d f <> [] -> ok = true -> exists k, In (Ran k (input_files d f) f true) tr).
Proof.
  assert (F : forall k d ins d' tr ok, finish T false remove k d ins f = (d', tr, ok) ->
    (forall k ins g o, In (Ran k ins g o) tr -> g = f) /\ (ok = true -> In (Ran k ins f true) tr)).
  { clear. intros k d ins d' tr ok. unfold finish. destruct (run_tool T k d ins f) as [d1 o1]. destruct o1; cbn; [destruct remove|]; intros Q; inversion Q; subst; cbn; split; intros; intuition congruence. }
  unfold one_set. destruct (input_files d f) as [|i0 ins] eqn:Ei; [intros Q; inversion Q; subst; split; [intros ? ? ? ? []|easy]|].
  destruct (is_compressed T d i0); [intros Q; destruct (F _ _ _ _ _ _ Q); split; eauto|]. destruct (is_iceberg T d i0); [intros Q; destruct (F _ _ _ _ _ _ Q); split; eauto|].
  destruct (look d f).
  - destruct (finish T false remove Mpp (rm d f) (i0 :: ins) f) as [[d2 e2] ok2] eqn:E. intros Q. inversion Q; subst. destruct (F _ _ _ _ _ _ E) as [F1 F2]. split.
    + intros k i g o [H|H]; [discriminate|eauto].
    + intros _ H. exists Mpp. right. auto.
  - destruct (finish T false remove Mpp d (i0 :: ins) f) as [[d2 e2] ok2] eqn:E. intros Q. inversion Q; subst. destruct (F _ _ _ _ _ _ E) as [F1 F2]. split; eauto.
Qed.
Lemma like_refl s : like s s = true.
Proof. induction s as [|a s IH]; cbn; auto. rewrite Z.eqb_refl, orb_true_r. auto. Qed.
Lemma look_names d n : look d n <> None -> In n (names d).
Proof. induction d as [|[m c] d IH]; cbn; [easy|]. destruct (str_eqb m n) eqn:E; [left; now apply str_eqb_spec|right; auto]. Qed.
(** Every numbered restart file takes part in a successful run, if the exit status is 0 and no
    set is named like one of the files. *)
Theorem C50_complete T remove d d' tr n :
  (forall l x, In x (sort_u T l) <-> In x l) -> only_output T -> combine_restarts T false remove d = (d', tr, true) ->
  look d n <> None -> is_tail n = true -> candidate n = true -> ~ In n (restart_files T d) ->
  exists k ins f, In (Ran k ins f true) tr /\ In n ins.
Proof.
  intros Hs Ho E Hd Ht Hc Hn.
  assert (Hf : In (strip_tail n) (restart_files T d)) by (apply Hs, in_map, filter_In; split; auto using look_names).
  unfold combine_restarts in E. revert Hn Hf E Hd. generalize (restart_files T d) as fs. intros fs. revert d d' tr.
  induction fs as [|f fs IH]; intros d d' tr Hn Hf E Hd; [destruct Hf|]. cbn [all_sets] in E. destruct (one_set T false remove d f) as [[d1 e1] ok1] eqn:E1.
  destruct ok1; [|discriminate]. destruct (all_sets T false remove d1 fs) as [[d2 e2] ok2] eqn:E2. inversion E; subst. destruct (one_ran _ _ _ _ _ _ _ E1) as [R1 R2].
  assert (Hit : input_files d f <> [] -> In n (input_files d f) -> exists k ins f, In (Ran k ins f true) (e1 ++ e2) /\ In n ins).
  { intros Hne Hin. destruct (R2 Hne eq_refl) as (k & Hk). exists k, (input_files d f), f. split; auto. apply in_or_app; auto. }
  assert (Hm : f = strip_tail n -> In n (input_files d f)).
  { intros ->. apply filter_In. split; [apply look_names; auto|]. unfold matches, strip_tail. rewrite Ht. cbn. apply like_refl. }
  destruct (list_eq_dec Z.eq_dec f (strip_tail n)) as [Ef|Nf]; [apply Hit; [intros X; specialize (Hm Ef); rewrite X in Hm; destruct Hm|auto]|].
  assert (Hkeep : look d1 n <> None \/ exists k ins f, In (Ran k ins f true) (e1 ++ e2) /\ In n ins).
  { destruct (one_keeps T remove d f d1 e1 true n Ho E1) as [H|[[_ (k & ins & g & H & Hi)]|(k & ins & o & H)]].
    - left. congruence.
    - right. exists k, ins, g. split; auto. apply in_or_app; auto.
    - apply R1 in H. elim Hn. left. auto. }
  destruct Hkeep as [Hk|(k & ins & g & H & Hi)]; [|exists k, ins, g; auto].
  destruct Hf as [|Hf]; [easy|]. destruct (IH d1 d' e2) as (k & ins & g & H & Hi); auto. { intros X. apply Hn. right. auto. }
  exists k, ins, g. split; auto. apply in_or_app; auto.
Qed.

(** C50, dry run: nothing is run or removed and the directory stays as it is, if no set that
    goes to mppnccombine has an old output. *)
Theorem C50_dry_run_partial T remove d :
  (forall f first, In f (restart_files T d) -> hd_error (input_files d f) = Some first ->
     is_compressed T d first = false -> is_iceberg T d first = false -> look d f = None) ->
  exists tr, combine_restarts T true remove d = (d, tr, true) /\ forall e, In e tr -> changes e = false.
Proof.
  unfold combine_restarts. generalize (restart_files T d) as fs. induction fs as [|f fs IH]; intros H; cbn [all_sets].
  - exists []. split; auto. intros e [].
  - destruct IH as (tr & Etr & Htr). { intros; eapply H; eauto. right; auto. }
    assert (F : forall k ins, exists tr1, finish T true remove k d ins f = (d, tr1, true) /\ forall e, In e tr1 -> changes e = false).
    { intros k ins. unfold finish. cbn. destruct remove; eexists; (split; [reflexivity|]); cbn; intuition; subst; reflexivity. }
    assert (O : exists tr1, one_set T true remove d f = (d, tr1, true) /\ forall e, In e tr1 -> changes e = false).
    { unfold one_set. destruct (input_files d f) as [|i0 ins] eqn:Ei; [exists []; split; [auto|intros e []]|].
      destruct (is_compressed T d i0) eqn:Ec; [apply F|]. destruct (is_iceberg T d i0) eqn:Eb; [apply F|].
      rewrite (H f i0 (or_introl eq_refl)); auto; [|rewrite Ei; reflexivity]. destruct (F Mpp (i0 :: ins)) as (tr1 & -> & Ht). exists tr1. auto. }
    destruct O as (tr1 & -> & Ht1). rewrite Etr. exists (tr1 ++ tr). split; auto. intros e He. apply in_app_or in He. destruct He; auto.
Qed.
(** ** Which program gets a set *)
Lemma look_rm_or d n m : look (rm d n) m = look d m \/ look (rm d n) m = None.
Proof. rewrite look_rm. destruct (str_eqb n m); auto. Qed.
Lemma look_rms_or l : forall d m, look (fold_left rm l d) m = look d m \/ look (fold_left rm l d) m = None.
Proof. induction l as [|a l IH]; intros d m; cbn; auto. destruct (IH (rm d a) m) as [H|H]; [|auto]. rewrite H. apply look_rm_or. Qed.

(** What a run on a set does: the program and its inputs in the directory [d] before it *)
Definition asks (e : event) (k : kind) (ins : list str) (f : str) : Prop := (exists ok, e = Ran k ins f ok) \/ e = Printed k ins f.

Lemma finish_asks T dry remove k d ins f e k' ins' f' : In e (snd (fst (finish T dry remove k d ins f))) -> asks e k' ins' f' -> k' = k /\ ins' = ins /\ f' = f.
Proof.
  intros Hin Ha. unfold finish in Hin. destruct dry; [|destruct (run_tool T k d ins f) as [d1 [|]]]; cbn in Hin; destruct remove; cbn in Hin;
    repeat (destruct Hin as [<-|Hin]); try contradiction; destruct Ha as [(ok & Q)|Q]; inversion Q; auto.
Qed.
Lemma finish_look T dry remove k d ins f n : only_output T -> n <> f ->
  look (fst (fst (finish T dry remove k d ins f))) n = look d n \/ look (fst (fst (finish T dry remove k d ins f))) n = None.
Proof.
  intros Ho Hn. unfold finish. destruct dry; [cbn; destruct remove; auto|]. pose proof (Ho k d ins f n Hn) as H. destruct (run_tool T k d ins f) as [d1 ok]. cbn [fst] in H.
  destruct ok; cbn; [destruct remove; cbn|]; auto. rewrite <- H. apply look_rms_or.
Qed.

(** C50: the program that is run, or shown with -n, for a set is chosen by the kind of its first file:
    combine-ncc for compressed files, iceberg_comb.sh for iceberg files, mppnccombine for all others; and the
    set consists of numbered files of that name.  [comp], [ice]: what is-compressed and iceberg_comb.sh -c answer
    for a file with the given contents. *)
Theorem C50_program T dry remove d d' tr ok comp ice k first ins f e :
  only_output T -> (forall d n c, look d n = Some c -> is_compressed T d n = comp c) -> (forall d n c, look d n = Some c -> is_iceberg T d n = ice c) ->
  combine_restarts T dry remove d = (d', tr, ok) -> In e tr -> (exists o, e = Ran k (first :: ins) f o) \/ e = Printed k (first :: ins) f ->
  In f (restart_files T d) /\ (forall n, In n (first :: ins) -> is_tail n = true) /\
  (~ In first (restart_files T d) ->
   exists c, look d first = Some c /\ k = if comp c then Ncc else if ice c then Ice else Mpp).
Proof.
  intros Ho Hc Hi E Hin Ha. change (asks e k (first :: ins) f) in Ha. unfold combine_restarts in E. revert E. generalize (restart_files T d) as fs. intros fs. revert d d' tr ok Hin.
  induction fs as [|g fs IH]; intros d d' tr ok Hin E; cbn [all_sets] in E; [inversion E; subst; destruct Hin|].
  destruct (one_set T dry remove d g) as [[d1 e1] ok1] eqn:E1.
  assert (L1 : forall n, n <> g -> look d1 n = look d n \/ look d1 n = None).
  { intros n Hn. unfold one_set in E1. destruct (input_files d g) as [|i0 l]; [inversion E1; auto|].
    destruct (is_compressed T d i0); [pose proof (finish_look T dry remove Ncc d (i0 :: l) g n Ho Hn) as Q; rewrite E1 in Q; exact Q|].
    destruct (is_iceberg T d i0); [pose proof (finish_look T dry remove Ice d (i0 :: l) g n Ho Hn) as Q; rewrite E1 in Q; exact Q|].
    destruct (look d g).
    - destruct (finish T dry remove Mpp (rm d g) (i0 :: l) g) as [[d2 e2] ok2] eqn:E2. inversion E1; subst. pose proof (finish_look T dry remove Mpp (rm d g) (i0 :: l) g n Ho Hn) as Q. rewrite E2 in Q. cbn [fst] in Q.
      destruct Q as [Q|Q]; auto. rewrite Q. apply look_rm_or.
    - destruct (finish T dry remove Mpp d (i0 :: l) g) as [[d2 e2] ok2] eqn:E2. inversion E1; subst. pose proof (finish_look T dry remove Mpp d (i0 :: l) g n Ho Hn) as Q. rewrite E2 in Q. exact Q. }
  assert (H1 : In e e1 -> In f (g :: fs) /\ (forall n, In n (first :: ins) -> is_tail n = true) /\ (~ In first (g :: fs) -> exists c, look d first = Some c /\ k = if comp c then Ncc else if ice c then Ice else Mpp)).
  { intros He. unfold one_set in E1. destruct (input_files d g) as [|i0 l] eqn:Ei; [inversion E1; subst; destruct He|].
    assert (Tl : forall n, In n (i0 :: l) -> In n (names d) /\ is_tail n = true).
    { intros n Hn. rewrite <- Ei in Hn. apply filter_In in Hn as (Hn & Hm). split; auto. unfold matches in Hm. apply andb_true_iff in Hm. tauto. }
    assert (Lk : exists c, look d i0 = Some c).
    { destruct (Tl i0 (or_introl eq_refl)) as (Hn & _). clear - Hn. induction d as [|[m c] d IH]; [destruct Hn|]. cbn in *. destruct (str_eqb m i0) eqn:Em; [eauto|]. destruct Hn as [->|Hn]; [rewrite str_eqb_refl in Em; discriminate|auto]. }
    destruct Lk as (c & Lk). pose proof (Hc d i0 c Lk) as Cc. pose proof (Hi d i0 c Lk) as Ci. rewrite Cc, Ci in E1.
    assert (Fin : forall kk dd, In e (snd (fst (finish T dry remove kk dd (i0 :: l) g))) -> k = kk /\ first :: ins = i0 :: l /\ f = g) by (intros kk dd Hf; apply (finish_asks _ _ _ _ _ _ _ _ _ _ _ Hf Ha)).
    assert (Q : k = (if comp c then Ncc else if ice c then Ice else Mpp) /\ first :: ins = i0 :: l /\ f = g).
    { destruct (comp c); [apply (Fin Ncc d); rewrite E1; exact He|]. destruct (ice c); [apply (Fin Ice d); rewrite E1; exact He|].
      destruct (look d g).
      - destruct (finish T dry remove Mpp (rm d g) (i0 :: l) g) as [[d2 e2] ok2] eqn:E2. inversion E1; subst. destruct He as [<-|He]; [destruct Ha as [(? & Q)|Q]; discriminate|]. apply (Fin Mpp (rm d g)). rewrite E2. exact He.
      - destruct (finish T dry remove Mpp d (i0 :: l) g) as [[d2 e2] ok2] eqn:E2. inversion E1; subst. apply (Fin Mpp d). rewrite E2. exact He. }
    destruct Q as (Qk & Qi & ->). split; [left; auto|]. split; [rewrite Qi; intros n Hn; apply Tl; auto|]. intros _. injection Qi as -> ->. eauto. }
  destruct ok1.
  - destruct (all_sets T dry remove d1 fs) as [[d2 e2] ok2] eqn:E2. inversion E; subst. apply in_app_or in Hin as [He|He]; [auto|].
    destruct (IH d1 _ _ _ He E2) as (A & B & Cx). split; [right; auto|]. split; auto. intros Hn. destruct Cx as (c & Lc & Kc); [intros X; apply Hn; right; auto|].
    exists c. split; auto. destruct (L1 first) as [Q|Q]; try congruence. intros ->. apply Hn. left. auto.
  - inversion E; subst. auto.
Qed.
End C50.

(** Finding: with -n an existing output of mppnccombine is deleted all the same. *)
Definition demo_tools : @tools Z := {| is_compressed := fun _ _ => false; is_iceberg := fun _ _ => false;
  run_tool := fun _ d _ out => ((out, 7) :: rm d out, true); sort_u := nodup (list_eq_dec Z.eq_dec) |}.
Theorem C50_dry_run_refuted : exists tr,
  combine_restarts demo_tools true false [(chars "a.nc", 1); (chars "a.nc.0000", 2)] = ([(chars "a.nc.0000", 2)], tr, true).
Proof. eexists. vm_compute. reflexivity. Qed.

(** Finding: the dots of a set's name match any character when its inputs are looked up: the
    parts of ocean_res.nc go into ocean.res.nc as well, and with -r they are then gone. *)
Theorem C50_wrong_set_refuted : exists tr1 tr2 d',
  combine_restarts demo_tools false true [(chars "ocean.res.nc.0000", 1); (chars "ocean_res.nc.0000", 2)] = (d', tr1 ++ tr2, true) /\
  In (Ran Mpp [chars "ocean.res.nc.0000"; chars "ocean_res.nc.0000"] (chars "ocean.res.nc") true) tr1 /\
  look d' (chars "ocean_res.nc") = None /\ look d' (chars "ocean_res.nc.0000") = None.
Proof.
  exists [Ran Mpp [chars "ocean.res.nc.0000"; chars "ocean_res.nc.0000"] (chars "ocean.res.nc") true]. do 2 eexists. split; [vm_compute; reflexivity|].
  split; [left; reflexivity|]. split; vm_compute; reflexivity.
Qed.

(** Hypotheses met: programs that write only their output; a directory with two sets, one input of each *)
Example C50_example : only_output demo_tools /\
  exists tr d', combine_restarts demo_tools false true [(chars "a.res.0000", 1); (chars "a.res.0001", 2); (chars "b.nc.0000", 3); (chars "notes", 4)] = (d', tr, true) /\
    look d' (chars "a.res") = Some 7 /\ look d' (chars "b.nc") = Some 7 /\ look d' (chars "a.res.0001") = None /\ look d' (chars "notes") = Some 4.
Proof.
  split.
  - intros k d ins out n N. cbn. destruct (str_eqb out n) eqn:E; [apply str_eqb_spec in E; congruence|]. rewrite look_rm, E. reflexivity.
  - do 2 eexists. split; [vm_compute; reflexivity|]. repeat split; vm_compute; reflexivity.
Qed.
Print Assumptions C50_kept.
Print Assumptions C50_order.
Print Assumptions C50_complete.
Print Assumptions C50_program.
Print Assumptions C50_dry_run_partial.
Print Assumptions C50_dry_run_refuted.
Print Assumptions C50_wrong_set_refuted.
