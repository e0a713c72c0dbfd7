(** * Property C17: the name lists of mppncscatter are sets *)
From Verif Require Import Base Loops Lst Str M_StrList.
From Coq Require Import Permutation String.
Open Scope list_scope.

(** The names stored in a list. *)
Definition stored (l : slist) (s : str) : Prop := In (Some s) l.
(** Free slots. *)
Definition free (l : slist) : Z := zlen (filter (fun x : option str => match x with None => true | _ => false end) l).
(** The stored names, in order. *)
Definition names (l : slist) : list str := flat_map (fun x : option str => match x with None => [] | Some s => [s] end) l.

Lemma in_names l s : In s (names l) <-> stored l s.
Proof.
  unfold names, stored. rewrite in_flat_map. split.
  - intros (x & Hx & H). destruct x as [t|]; [|destruct H]. destruct H as [->|[]]. auto.
  - intros H. exists (Some s). split; auto. left. auto.
Qed.
Lemma free_cons x l : free (x :: l) = (match x with None => 1 | _ => 0 end) + free l.
Proof. unfold free. cbn [filter]. destruct x; [|rewrite zlen_cons]; lia. Qed.
Lemma free_nonneg l : 0 <= free l.
Proof. unfold free. apply zlen_nonneg. Qed.

Lemma zget_cons_S {B} (x : B) l i : 0 <= i -> zget (x :: l) (1 + i) = zget l i.
Proof. intros H. rewrite zget_cons_pos by lia. f_equal. lia. Qed.

(** Membership. *)
Lemma instringlist_ok l s : exists b, instringlist l (Some s) (zlen l) = Ok b /\ (b = true <-> stored l s).
Proof.
  unfold instringlist.
  match goal with |- context [ofor 0 _ ?f _] =>
    destruct (ofor_inv (fun i (b : bool) => b = true <-> exists j, 0 <= j < i /\ zget l j = Some (Some s)) f 0 (zlen l) false) as (b & E & H) end.
  - apply zlen_nonneg.
  - split; [discriminate|]. intros (j & Hj & _). lia.
  - intros i b Hi H. destruct b.
    + exists true. split; auto. split; auto. intros _. destruct (proj1 H eq_refl) as (j & Hj & Ej). exists j. split; [lia|auto].
    + destruct (zget_in_range l i ltac:(lia)) as (x & Ex). rewrite (proj2 (oget_Ok _ _ _) Ex). cbn [bind].
      assert (Hno : ~ exists j, 0 <= j < i /\ zget l j = Some (Some s)) by (intros X; apply H in X; discriminate).
      destruct x as [t|].
      * exists (str_eqb t s). split; auto. rewrite str_eqb_spec. split.
        -- intros ->. exists i. split; [lia|auto].
        -- intros (j & Hj & Ej). destruct (Z.eq_dec j i) as [->|]; [congruence|]. exfalso. apply Hno. exists j. split; [lia|auto].
      * exists false. split; auto. split; [discriminate|]. intros (j & Hj & Ej). destruct (Z.eq_dec j i) as [->|]; [congruence|]. exfalso. apply Hno. exists j. split; [lia|auto].
  - exists b. split; auto. rewrite H. unfold stored. split.
    + intros (j & _ & Ej). eapply zget_In; eauto.
    + intros Hin. apply In_zget in Hin. destruct Hin as (j & Hj & Ej). exists j. split; auto.
Qed.

(** Insertion: the first free slot. *)
Fixpoint put_first (l : slist) (s : str) : slist :=
  match l with [] => [] | None :: l => Some s :: l | Some t :: l => Some t :: put_first l s end.

Lemma put_first_app l1 l2 s : Forall (fun x => x <> None) l1 -> put_first (l1 ++ l2) s = l1 ++ put_first l2 s.
Proof. induction 1 as [|x l Hx _ IH]; cbn; auto. destruct x; [|congruence]. now rewrite IH. Qed.

Lemma ofor_add_done lo n s (l : slist) :
  ofor lo n (fun '(st, l) i => if st =? 0 then Ok (0, l) else
      do x <- oget l i ;
      match x with None => do l <- oset l i (Some s) ; Ok (0, l) | Some _ => Ok (1, l) end) (0, l) = Ok (0, l).
Proof. unfold ofor. induction (zseq lo n); cbn; auto. Qed.

Lemma addstringtolist_ok l s : addstringtolist l (Some s) (zlen l) = Ok (if free l =? 0 then 1 else 0, put_first l s).
Proof.
  unfold addstringtolist.
  assert (K : forall pre l, Forall (fun x => x <> None) pre ->
    ofor (zlen pre) (zlen l) (fun '(st, l) i => if st =? 0 then Ok (0, l) else
      do x <- oget l i ;
      match x with None => do l <- oset l i (Some s) ; Ok (0, l) | Some _ => Ok (1, l) end) (1, pre ++ l)
    = Ok (if free l =? 0 then 1 else 0, pre ++ put_first l s)).
  { intros pre l0. revert pre. induction l0 as [|x l0 IH]; intros pre Hp.
    - rewrite zlen_nil, ofor_0 by lia. reflexivity.
    - rewrite zlen_cons. pose proof (zlen_nonneg l0) as Hl. rewrite ofor_S by lia. cbn [Z.eqb].
      assert (Eg : zget (pre ++ x :: l0) (zlen pre) = Some x).
      { rewrite zget_app_r by lia. rewrite Z.sub_diag. apply zget_cons_0. }
      rewrite (proj2 (oget_Ok _ _ _) Eg). cbn [bind]. replace (1 + zlen l0 - 1) with (zlen l0) by lia.
      destruct x as [t|].
      + cbn [bind put_first]. specialize (IH (pre ++ [Some t])). rewrite zlen_app, zlen_cons, zlen_nil in IH.
        replace (zlen pre + (1 + 0)) with (zlen pre + 1) in IH by lia. rewrite <- !app_assoc in IH. cbn [app] in IH.
        rewrite free_cons. cbn [Z.add]. rewrite IH; auto. apply Forall_app. split; auto. constructor; [congruence|constructor].
      + rewrite oset_middle. cbn [bind put_first]. rewrite ofor_add_done. rewrite free_cons. pose proof (free_nonneg l0).
        destruct (Z.eqb_spec (1 + free l0) 0); [lia|]. reflexivity. }
  apply (K [] l). constructor.
Qed.

Lemma put_first_stored l s t : stored (put_first l s) t <-> stored l t \/ (0 < free l /\ t = s).
Proof.
  unfold stored. induction l as [|x l IH]; cbn [put_first].
  - cbn. split; [intros []|intros [[]|[H _]]]. unfold free in H. cbn in H. lia.
  - destruct x as [u|]; rewrite free_cons; cbn [In].
    + rewrite IH. cbn [Z.add]. tauto.
    + pose proof (free_nonneg l). split.
      * intros [H1|H1]; [right; split; [lia|congruence]|auto].
      * intros [[H1|H1]|[_ ->]]; auto. discriminate.
Qed.
Lemma put_first_len l s : zlen (put_first l s) = zlen l.
Proof. induction l as [|[|] l IH]; cbn [put_first]; rewrite ?zlen_cons; auto. lia. Qed.
Lemma put_first_free l s : free (put_first l s) = Z.max 0 (free l - 1).
Proof.
  induction l as [|[t|] l IH]; cbn [put_first]; [reflexivity| |]; rewrite ?free_cons.
  - rewrite IH. lia.
  - pose proof (free_nonneg l). lia.
Qed.
Lemma put_first_names l s : exists a b, names l = a ++ b /\ names (put_first l s) = a ++ (if free l =? 0 then [] else [s]) ++ b.
Proof.
  induction l as [|[t|] l IH].
  - exists [], []. auto.
  - destruct IH as (a & b & E1 & E2). exists (t :: a), b. rewrite free_cons. cbn [put_first names flat_map app Z.add] in *. unfold names in *. rewrite E1, E2. auto.
  - exists [], (names l). rewrite free_cons. pose proof (free_nonneg l). destruct (Z.eqb_spec (1 + free l) 0); [lia|]. auto.
Qed.

(** C17: membership is exact. *)
Theorem C17_membership : forall l s,
  exists b, instringlist l (Some s) (zlen l) = Ok b /\ (b = true <-> stored l s).
Proof. exact instringlist_ok. Qed.
Print Assumptions C17_membership.

(** C17: insertion succeeds iff there is a free slot; it stores the name, keeps every
    stored name (in order) and uses one slot.  Without a free slot nothing changes. *)
Theorem C17_insertion : forall l s, exists st l', addstringtolist l (Some s) (zlen l) = Ok (st, l') /\ zlen l' = zlen l
  /\ (0 < free l -> st = 0 /\ free l' = free l - 1 /\ (forall t, stored l' t <-> stored l t \/ t = s)
        /\ exists a b, names l = a ++ b /\ names l' = a ++ [s] ++ b)
  /\ (free l = 0 -> st = 1 /\ l' = l).
Proof.
  intros l s. rewrite addstringtolist_ok. do 2 eexists. split; [reflexivity|]. split; [apply put_first_len|]. pose proof (free_nonneg l). split.
  - intros H1. destruct (Z.eqb_spec (free l) 0) as [|Hne]; [lia|]. split; auto. split; [rewrite put_first_free; lia|]. split.
    + intros t. rewrite put_first_stored. intuition.
    + destruct (put_first_names l s) as (a & b & E1 & E2). exists a, b. destruct (Z.eqb_spec (free l) 0); [lia|]. auto.
  - intros H1. rewrite H1. split; auto. clear -H1. induction l as [|[t|] l IH]; cbn [put_first]; auto; rewrite free_cons in H1; pose proof (free_nonneg l); [|lia].
    f_equal. apply IH. lia.
Qed.
Print Assumptions C17_insertion.

(** The names of a list not yet in another. *)
Definition missing_from (u : list str) (l : list str) : Z :=
  zlen (filter (fun s => negb (existsb (str_eqb s) u)) (nodup (list_eq_dec Z.eq_dec) l)).

Lemma add_new_ok u x : (match x with Some s => stored u s \/ 0 < free u | None => True end) ->
  exists u', add_new (zlen u) u x = Ok u' /\ zlen u' = zlen u
  /\ (forall t, stored u' t <-> stored u t \/ x = Some t)
  /\ (NoDup (names u) -> NoDup (names u'))
  /\ free u' = free u - (match x with Some s => if existsb (str_eqb s) (names u) then 0 else 1 | None => 0 end).
Proof.
  intros H. destruct x as [s|]; cbn [add_new].
  2: { exists u. split; auto. split; auto. split; [intuition congruence|]. split; auto. lia. }
  destruct (instringlist_ok u s) as (b & -> & Hb). cbn [bind].
  assert (He : existsb (str_eqb s) (names u) = true <-> stored u s).
  { rewrite existsb_exists. split.
    - intros (t & Ht & E). apply str_eqb_spec in E. subst. now apply in_names.
    - intros Hs. exists s. split; [now apply in_names|apply str_eqb_refl]. }
  destruct b.
  - exists u. split; auto. split; auto. assert (stored u s) by (apply Hb; auto). split.
    + intros t. split; [auto|]. intros [?|E]; [auto|injection E as <-; auto].
    + split; auto. rewrite (proj2 He) by auto. lia.
  - assert (Hns : ~ stored u s) by (intros X; apply Hb in X; discriminate).
    destruct H as [H|H]; [contradiction|]. rewrite addstringtolist_ok. cbn [bind]. eexists. split; [reflexivity|]. split; [apply put_first_len|]. split; [|split].
    + intros t. rewrite put_first_stored. split; [intros [?|[_ ->]]; auto|intros [?|E]; [auto|injection E as <-; auto]].
    + intros HN. destruct (put_first_names u s) as (p & q & E1 & E2). rewrite E2. destruct (Z.eqb_spec (free u) 0); [lia|].
      rewrite E1 in HN. cbn [app]. apply (Permutation_NoDup (Permutation_middle p q s)). constructor; auto. rewrite <- E1, in_names. auto.
    + rewrite put_first_free. destruct (existsb (str_eqb s) (names u)); [exfalso; apply Hns, He; auto|]. lia.
Qed.

(** Folding add_new over a list of names. *)
Fixpoint needed (u : list str) (l : slist) : Z :=
  match l with
  | [] => 0
  | None :: l => needed u l
  | Some s :: l => if existsb (str_eqb s) u then needed u l else 1 + needed (s :: u) l
  end.
Lemma needed_ext l : forall u u', (forall s, In s u <-> In s u') -> needed u l = needed u' l.
Proof.
  induction l as [|[s|] l IH]; intros u u' H; cbn [needed]; auto.
  assert (E : existsb (str_eqb s) u = existsb (str_eqb s) u').
  { apply eq_iff_eq_true. rewrite !existsb_exists. split; intros (t & Ht & Et); exists t; split; auto; apply H; auto. }
  rewrite E. destruct (existsb (str_eqb s) u'); [apply IH; auto|]. f_equal. apply IH. intros t. cbn. rewrite H. tauto.
Qed.
Lemma needed_nonneg l : forall u, 0 <= needed u l.
Proof. induction l as [|[s|] l IH]; intros u; cbn [needed]; try lia; auto. destruct (existsb _ _); auto. specialize (IH (s :: u)). lia. Qed.
Lemma needed_bound l : forall u, needed u l <= zlen (names l).
Proof.
  induction l as [|[s|] l IH]; intros u; cbn [needed].
  - cbn. lia.
  - cbn [names flat_map app]. change (flat_map _ l) with (names l). rewrite zlen_cons. destruct (existsb _ _); [specialize (IH u)|specialize (IH (s :: u))]; lia.
  - apply (IH u).
Qed.

Lemma fold_add l : forall u, needed (names u) l <= free u ->
  exists u', ofold (add_new (zlen u)) l u = Ok u' /\ zlen u' = zlen u
    /\ (forall t, stored u' t <-> stored u t \/ stored l t) /\ (NoDup (names u) -> NoDup (names u')) /\ free u' = free u - needed (names u) l.
Proof.
  induction l as [|x l IH]; intros u H.
  - exists u. cbn. split; auto. split; auto. split; [unfold stored; cbn; tauto|]. split; auto. lia.
  - cbn [ofold].
    assert (Hx : match x with Some s => stored u s \/ 0 < free u | None => True end).
    { destruct x as [s|]; auto. cbn [needed] in H. destruct (existsb (str_eqb s) (names u)) eqn:Ee.
      - left. apply existsb_exists in Ee. destruct Ee as (t & Ht & Et). apply str_eqb_spec in Et. subst. now apply in_names.
      - right. pose proof (needed_nonneg l (s :: names u)). lia. }
    destruct (add_new_ok u x Hx) as (u1 & E1 & L1 & S1 & N1 & F1). rewrite E1. cbn [bind].
    assert (Hn : needed (names u) (x :: l) = (match x with Some s => if existsb (str_eqb s) (names u) then 0 else 1 | None => 0 end) + needed (names u1) l).
    { destruct x as [s|]; cbn [needed].
      - destruct (existsb (str_eqb s) (names u)) eqn:Ee.
        + rewrite Z.add_0_l. apply needed_ext. intros t. rewrite !in_names, S1. split; [auto|]. intros [?|E]; auto. injection E as <-.
          apply existsb_exists in Ee. destruct Ee as (t & Ht & Et). apply str_eqb_spec in Et. subst. now apply in_names.
        + f_equal. apply needed_ext. intros t. cbn [In]. rewrite !in_names, S1. split; [intros [->|?]; auto|intros [?|E]; [auto|injection E as <-; auto]].
      - rewrite Z.add_0_l. apply needed_ext. intros t. rewrite !in_names, S1. split; [auto|]. intros [?|E]; [auto|discriminate]. }
    destruct (IH u1) as (u2 & E2 & L2 & S2 & N2 & F2); [lia|]. rewrite L1 in E2. exists u2. split; auto. split; [lia|]. split; [|split].
    + intros t. rewrite S2, S1. unfold stored. cbn [In]. tauto.
    + auto.
    + lia.
Qed.

(** C17: union.  With enough free slots (one for every name of the two lists is always
    enough) the result has exactly the names that were there or are in one of the
    lists, and no name twice if there was none. *)
Theorem C17_union : forall l1 l2 u, zlen (names l1) + zlen (names l2) <= free u ->
  exists u', strlistu l1 l2 u (zlen l1) (zlen l2) (zlen u) = Ok u' /\ zlen u' = zlen u
    /\ (forall t, stored u' t <-> stored u t \/ stored l1 t \/ stored l2 t)
    /\ (NoDup (names u) -> NoDup (names u')).
Proof.
  intros l1 l2 u H. unfold strlistu. rewrite (ofor_over l1). pose proof (needed_bound l1 (names u)) as B1.
  pose proof (zlen_nonneg (names l2)). destruct (fold_add l1 u) as (u1 & E1 & L1 & S1 & N1 & F1); [lia|]. rewrite E1. cbn [bind]. rewrite (ofor_over l2), <- L1.
  pose proof (needed_bound l2 (names u1)) as B2. destruct (fold_add l2 u1) as (u2 & E2 & L2 & S2 & N2 & F2); [lia|]. exists u2. rewrite E2. split; auto. split; [lia|].
  split; [|auto]. intros t. rewrite S2, S1. tauto.
Qed.
Print Assumptions C17_union.

(** C17: difference.  With enough free slots the result has exactly the names that were
    there or are in the first list but not in the second. *)
Theorem C17_difference : forall l1 l2 d, zlen (names l1) <= free d ->
  exists d', strlistsd l1 l2 d (zlen l1) (zlen l2) (zlen d) = Ok d' /\ zlen d' = zlen d
    /\ forall t, stored d' t <-> stored d t \/ (stored l1 t /\ ~ stored l2 t).
Proof.
  intros l1 l2 d H. unfold strlistsd. destruct (Z.eqb_spec (zlen l1) 0) as [E0|E0].
  { exists d. split; auto. split; auto. destruct l1; [|rewrite zlen_cons in E0; pose proof (zlen_nonneg l1); lia]. unfold stored. cbn. tauto. }
  assert (K : forall g, (forall d x, free d > 0 \/ x = None -> exists d', g d x = Ok d' /\ zlen d' = zlen d /\ free d' >= free d - (match x with None => 0 | _ => 1 end)
        /\ forall t, stored d' t <-> stored d t \/ (x = Some t /\ ~ stored l2 t)) ->
     forall l d, zlen (names l) <= free d -> exists d', ofold g l d = Ok d' /\ zlen d' = zlen d /\ forall t, stored d' t <-> stored d t \/ (stored l t /\ ~ stored l2 t)).
  { intros g Hg. induction l as [|x l IH]; intros d0 H0; cbn [ofold].
    - exists d0. split; auto. split; auto. unfold stored. cbn. tauto.
    - destruct (Hg d0 x) as (d1 & E1 & L1 & F1 & S1).
      { destruct x; [left|auto]. cbn [names flat_map app] in H0. change (flat_map _ l) with (names l) in H0. rewrite zlen_cons in H0. pose proof (zlen_nonneg (names l)). lia. }
      rewrite E1. cbn [bind]. destruct (IH d1) as (d2 & E2 & L2 & S2).
      { destruct x; cbn [names flat_map app] in H0; change (flat_map _ l) with (names l) in H0; rewrite ?zlen_cons in H0; lia. }
      exists d2. split; auto. split; [lia|]. intros t. rewrite S2, S1. unfold stored. cbn [In]. tauto. }
  assert (Hadd : forall (d : slist) x, free d > 0 \/ x = None -> exists st d', addstringtolist d x (zlen d) = Ok (st, d') /\ zlen d' = zlen d
      /\ free d' >= free d - (match x with None => 0 | _ => 1 end) /\ forall t, stored d' t <-> stored d t \/ x = Some t).
  { intros d0 x Hx. destruct x as [s|].
    - rewrite addstringtolist_ok. do 2 eexists. split; [reflexivity|]. split; [apply put_first_len|]. split; [rewrite put_first_free; lia|].
      intros t. rewrite put_first_stored. split; [intros [?|[_ ->]]; auto|]. intros [?|E]; [auto|injection E as <-; right; split; [destruct Hx; [lia|discriminate]|auto]].
    - exists 1, d0. cbn. split; auto. split; auto. split; [lia|]. intros t. split; [auto|]. intros [?|E]; [auto|discriminate]. }
  assert (Hlen : forall (g g' : slist -> option str -> outcome slist) l d, (forall d' x, zlen d' = zlen d -> g d' x = g' d' x) ->
      (forall d' x d'', zlen d' = zlen d -> g' d' x = Ok d'' -> zlen d'' = zlen d) -> ofold g l d = ofold g' l d).
  { intros g g' l. intros d0 Hg Hl. assert (X : forall d1, zlen d1 = zlen d0 -> ofold g l d1 = ofold g' l d1); [|apply X; auto].
    induction l as [|x l IH]; intros d1 H1; cbn [ofold]; auto. rewrite Hg by auto. destruct (g' d1 x) eqn:E; cbn [bind]; auto. apply IH. eauto. }
  assert (Hal : forall (d' : slist) x st d'', addstringtolist d' x (zlen d') = Ok (st, d'') -> zlen d'' = zlen d').
  { intros d' [s|] st d'' E; [rewrite addstringtolist_ok in E; injection E as _ <-; apply put_first_len|cbn in E; congruence]. }
  destruct (Z.eqb_spec (zlen l2) 0) as [E2|E2].
  - assert (Hl2 : forall t, ~ stored l2 t) by (destruct l2; [intros t []|rewrite zlen_cons in E2; pose proof (zlen_nonneg l2); lia]).
    rewrite (ofor_over l1 (fun d x => do '(_, d) <- addstringtolist d x (zlen _) ; Ok d)).
    rewrite (Hlen _ (fun d x => do '(_, d') <- addstringtolist d x (zlen d) ; Ok d')).
    + apply K; auto. intros d0 x Hx. destruct (Hadd d0 x Hx) as (st & d' & E & L & F & S). rewrite E. cbn [bind]. exists d'. split; auto. split; auto. split; auto.
      intros t. rewrite S. specialize (Hl2 t). tauto.
    + intros d' x El. now rewrite El.
    + intros d' x d'' El E. destruct (addstringtolist d' x (zlen d')) as [[st d3]| |] eqn:Ea; cbn in E; try discriminate. injection E as <-. rewrite (Hal _ _ _ _ Ea). auto.
  - rewrite (ofor_over l1 (fun d x => do b <- instringlist l2 x (zlen l2) ; if (b : bool) then Ok d else do '(_, d) <- addstringtolist d x (zlen _) ; Ok d)).
    rewrite (Hlen _ (fun d x => do b <- instringlist l2 x (zlen l2) ; if (b : bool) then Ok d else do '(_, d') <- addstringtolist d x (zlen d) ; Ok d')).
    + apply K; auto. intros d0 x Hx. destruct (Hadd d0 x Hx) as (st & d' & E & L & F & S). rewrite E. destruct x as [s|].
      * destruct (instringlist_ok l2 s) as (b & -> & Hb). cbn [bind]. destruct b.
        -- exists d0. split; auto. split; auto. split; [lia|]. intros t. split; [auto|]. intros [?|[Es Hn]]; auto. injection Es as <-. exfalso. apply Hn, Hb. auto.
        -- cbn [bind]. exists d'. split; auto. split; auto. split; auto. intros t. rewrite S. split; [intros [?|Es]; auto|tauto]. right. split; auto. injection Es as <-.
           intros X. apply Hb in X. discriminate.
      * cbn [instringlist bind]. exists d'. split; auto. split; auto. split; auto. intros t. rewrite S. split; [intros [?|Es]; [auto|discriminate]|tauto].
    + intros d' x El. now rewrite El.
    + intros d' x d'' El E. destruct (instringlist l2 x (zlen l2)) as [[|]| |]; cbn in E; try discriminate; [congruence|].
      destruct (addstringtolist d' x (zlen d')) as [[st d3]| |] eqn:Ea; cbn in E; try discriminate. injection E as <-. rewrite (Hal _ _ _ _ Ea). auto.
Qed.
Print Assumptions C17_difference.

(** C17: appending never loses a stored name. *)
Theorem C17_append : forall l s, appendstringtolist l s = Ok (l ++ [Some s]).
Proof.
  intros l s. unfold appendstringtolist, copystrlist, newstringlist. pose proof (zlen_nonneg l) as Hl.
  rewrite zlen_repeat, repeat_length.
  assert (K : forall (pre l : slist) k, ofor (zlen pre) (zlen l) (fun (d : slist) i => do x <- oget (pre ++ l) i ; match x with None => Ok d | Some s => oset d i (Some s) end)
     (pre ++ repeat None (List.length l + k)) = Ok (pre ++ l ++ repeat None k)).
  { intros pre l0. revert pre. induction l0 as [|x l0 IH]; intros pre k.
    - rewrite zlen_nil, ofor_0 by lia. reflexivity.
    - rewrite zlen_cons. pose proof (zlen_nonneg l0). rewrite ofor_S by lia.
      assert (Eg : zget (pre ++ x :: l0) (zlen pre) = Some x). { rewrite zget_app_r by lia. rewrite Z.sub_diag. apply zget_cons_0. }
      rewrite (proj2 (oget_Ok _ _ _) Eg). cbn [bind length Nat.add repeat]. replace (1 + zlen l0 - 1) with (zlen l0) by lia.
      assert (Es : match x with None => Ok (pre ++ None :: repeat None (List.length l0 + k)) | Some s0 => oset (pre ++ None :: repeat None (List.length l0 + k)) (zlen pre) (Some s0) end
                   = Ok ((pre ++ [x]) ++ repeat None (List.length l0 + k))).
      { rewrite <- app_assoc. cbn [app]. destruct x; [apply oset_middle|reflexivity]. }
      match goal with |- bind ?e ?f = _ => transitivity (bind (Ok ((pre ++ [x]) ++ repeat None (List.length l0 + k))) f); [f_equal; exact Es|] end.
      cbn [bind]. specialize (IH (pre ++ [x]) k). rewrite zlen_app, zlen_cons, zlen_nil in IH. replace (zlen pre + (1 + 0)) with (zlen pre + 1) in IH by lia.
      rewrite <- !app_assoc in IH. cbn [app] in *. rewrite <- app_assoc. cbn [app]. rewrite <- IH. apply ofor_ext. intros; auto. }
  specialize (K [] l 1%nat). cbn [app] in K. change (zlen (@nil (option str))) with 0 in K.
  replace (Z.to_nat (zlen l + 1)) with (List.length l + 1)%nat by (unfold zlen; lia).
  match goal with |- context [ofor ?a ?b ?f ?s] => replace (ofor a b f s) with (Ok (l ++ repeat (@None str) 1)) by (symmetry; exact K) end. cbn [bind].
  destruct (Z.gtb_spec (zlen l) (Z.of_nat (List.length l + 1))) as [X|_]; [unfold zlen in X; lia|]. cbn [bind]. apply oset_middle.
Qed.
Print Assumptions C17_append.

(** A concrete case with empty slots, a common name and a repeated name. *)
Example C17_example :
  let l1 := [Some (chars "lon"%string); None; Some (chars "x"%string)] in
  let l2 := [Some (chars "y"%string); Some (chars "lon"%string); Some (chars "y"%string)] in
  strlistu l1 l2 (newstringlist 5) 3 3 5 = Ok [Some (chars "lon"%string); Some (chars "x"%string); Some (chars "y"%string); None; None]
  /\ strlistsd l1 l2 (newstringlist 2) 3 3 2 = Ok [Some (chars "x"%string); None].
Proof. split; vm_compute; reflexivity. Qed.
