(** * Loops: flattening nested counted loops and array-store loops
    Generic facts about the loop combinators of [Base]; models no code itself. *)
From Verif Require Import Base.

Lemma ofor_0 {S} lo n (f : S -> Z -> outcome S) s : n <= 0 -> ofor lo n f s = Ok s.
Proof. intros H. unfold ofor. now rewrite zseq_nonpos. Qed.

Lemma ofor_S {S} lo n (f : S -> Z -> outcome S) s : 0 < n ->
  ofor lo n f s = (do s' <- f s lo ; ofor (lo + 1) (n - 1) f s').
Proof. intros H. unfold ofor. now rewrite zseq_S. Qed.

Lemma ofor_app {S} lo n m (f : S -> Z -> outcome S) s : 0 <= n -> 0 <= m ->
  ofor lo (n + m) f s = (do s' <- ofor lo n f s ; ofor (lo + n) m f s').
Proof. intros Hn Hm. unfold ofor. now rewrite zseq_app, ofold_app. Qed.

Lemma bind_ext {A B} (x : outcome A) (f g : A -> outcome B) : (forall a, f a = g a) -> bind x f = bind x g.
Proof. intros H. destruct x; simpl; auto. Qed.

Lemma bind_ret {A} (x : outcome A) (f : A -> outcome A) : (forall a, f a = Ok a) -> bind x f = x.
Proof. intros H. destruct x; simpl; auto. Qed.

Lemma ofold_ext {A S} (f g : S -> A -> outcome S) l s :
  (forall s x, In x l -> f s x = g s x) -> ofold f l s = ofold g l s.
Proof.
  revert s; induction l as [|x l IH]; intros s H; simpl; auto.
  rewrite H by (simpl; auto). apply bind_ext. intros s'. apply IH. intros; apply H; simpl; auto.
Qed.

Lemma ofor_ext {S} lo n (f g : S -> Z -> outcome S) s :
  (forall s i, lo <= i < lo + n -> f s i = g s i) -> ofor lo n f s = ofor lo n g s.
Proof. intros H. apply ofold_ext. intros s' i Hi. apply In_zseq in Hi. auto. Qed.

Lemma ofor_shift {S} lo lo' n (f : S -> Z -> outcome S) s :
  ofor lo n f s = ofor lo' n (fun s i => f s (i - lo' + lo)) s.
Proof.
  unfold ofor, zseq. generalize (Z.to_nat n) as k. intros k. revert lo lo' s f.
  induction k as [|k IH]; intros lo lo' s f; simpl; auto.
  replace (lo' - lo' + lo) with lo by lia. apply bind_ext. intros s'.
  rewrite (IH (lo + 1) (lo' + 1)). apply ofold_ext. intros s0 x _. f_equal. lia.
Qed.

Lemma ofor_from0 {S} lo n (f : S -> Z -> outcome S) s :
  ofor lo n f s = ofor 0 n (fun s i => f s (lo + i)) s.
Proof. rewrite (ofor_shift lo 0). apply ofor_ext. intros s' i _. f_equal. lia. Qed.

(** for j < nj, for i < ni: body j i  ==  for n < nj*ni: body (n/ni) (n mod ni) *)
Lemma ofor_nest {S} nj ni (body : S -> Z -> Z -> outcome S) s : 0 <= nj -> 0 <= ni ->
  ofor 0 nj (fun s j => ofor 0 ni (fun s i => body s j i) s) s
  = ofor 0 (nj * ni) (fun s n => body s (n / ni) (n mod ni)) s.
Proof.
  intros Hnj Hni. destruct (Z.eq_dec ni 0) as [->|Hne].
  - rewrite Z.mul_0_r. rewrite (ofor_0 0 0) by lia.
    unfold ofor. rewrite (zseq_nonpos 0 0) by lia. simpl.
    generalize (zseq 0 nj). intros l. revert s. induction l; intros; simpl; auto.
  - revert s. remember (Z.to_nat nj) as k eqn:Hk. revert nj Hnj Hk.
    induction k as [|k IH]; intros nj Hnj Hk s.
    + rewrite !ofor_0 by nia. reflexivity.
    + replace nj with ((nj - 1) + 1) by lia.
      rewrite ofor_app by lia. rewrite IH by lia.
      replace ((nj - 1 + 1) * ni) with ((nj - 1) * ni + ni) by lia.
      rewrite ofor_app by nia. apply bind_ext. intros s'.
      replace (0 + (nj - 1)) with (nj - 1) by lia.
      rewrite ofor_S by lia. rewrite (ofor_from0 (0 + (nj - 1) * ni)).
      assert (E : ofor 0 ni (fun s0 i => body s0 (nj - 1) i) s'
        = ofor 0 ni (fun s0 i => body s0 ((0 + (nj - 1) * ni + i) / ni) ((0 + (nj - 1) * ni + i) mod ni)) s').
      { apply ofor_ext. intros s0 i Hi.
        replace (0 + (nj - 1) * ni + i) with (i + (nj - 1) * ni) by lia.
        rewrite Z.div_add by lia. rewrite Z.mod_add by lia.
        rewrite Z.div_small, Z.mod_small by lia. f_equal. }
      rewrite E. apply bind_ret. intros a. apply ofor_0. lia.
Qed.

(** A loop storing G at scattered places: afterwards every stored place holds G,
    all others are unchanged. *)
Lemma ofor_store {A} (N : Z) (idx : Z -> Z) (val : Z -> outcome A) (G : Z -> A) (g : list A) :
  0 <= N ->
  (forall n, 0 <= n < N -> val n = Ok (G (idx n)) /\ 0 <= idx n < zlen g) ->
  exists g', ofor 0 N (fun g n => do v <- val n ; oset g (idx n) v) g = Ok g'
    /\ zlen g' = zlen g
    /\ (forall n, 0 <= n < N -> zget g' (idx n) = Some (G (idx n)))
    /\ (forall x, (forall n, 0 <= n < N -> idx n <> x) -> zget g' x = zget g x).
Proof.
  intros HN H.
  destruct (ofor_inv (fun k g' => zlen g' = zlen g
      /\ (forall n, 0 <= n < k -> zget g' (idx n) = Some (G (idx n)))
      /\ (forall x, (forall n, 0 <= n < k -> idx n <> x) -> zget g' x = zget g x))
      (fun g n => do v <- val n ; oset g (idx n) v) 0 N g) as (g' & E & Hg'); auto.
  - repeat split; auto. intros; lia.
  - intros k g1 Hk (L & H1 & H2). destruct (H k ltac:(lia)) as [-> Hr]. cbn [bind].
    destruct (zset_Some g1 (idx k) (G (idx k)) ltac:(lia)) as [g2 Hg2].
    exists g2. unfold oset. rewrite Hg2. split; auto. split; [|split].
    + rewrite (zset_len _ _ _ _ Hg2). auto.
    + intros n Hn. destruct (Z.eq_dec (idx n) (idx k)) as [->|Hne].
      * apply (zget_zset_eq _ _ _ _ Hg2).
      * rewrite (zget_zset_ne _ _ _ _ _ Hg2) by auto. apply H1.
        assert (n <> k) by (intros ->; auto). lia.
    + intros x Hx. rewrite (zget_zset_ne _ _ _ _ _ Hg2) by (apply Hx; lia). apply H2. intros; apply Hx; lia.
  - exists g'. replace (0 + N) with N in Hg' by lia. auto.
Qed.

(** The same with an explicit running counter in the state
    ([... dst[idx] = src[n++]]). *)
Lemma ofor_counter {A} (N : Z) (body : list A -> Z -> Z -> outcome (list A)) (g : list A) c0 :
  ofor 0 N (fun '(g, c) i => do g' <- body g c i ; Ok (g', c + 1)) (g, c0)
  = (do g' <- ofor 0 N (fun g i => body g (c0 + i) i) g ; Ok (g', c0 + Z.max 0 N)).
Proof.
  unfold ofor.
  assert (forall k lo c g, ofold (fun '(g, c) i => do g' <- body g c i ; Ok (g', c + 1)) (zseq_nat lo k) (g, c)
    = (do g' <- ofold (fun g i => body g (c + (i - lo)) i) (zseq_nat lo k) g ; Ok (g', c + Z.of_nat k))) as H.
  { induction k as [|k IH]; intros lo c g1; simpl.
    - do 2 f_equal. lia.
    - replace (c + (lo - lo)) with c by lia. destruct (body g1 c lo) as [g2|e|]; simpl; auto.
      rewrite IH.
      replace (ofold (fun g0 i => body g0 (c + 1 + (i - (lo + 1))) i) (zseq_nat (lo + 1) k) g2)
        with (ofold (fun g0 i => body g0 (c + (i - lo)) i) (zseq_nat (lo + 1) k) g2).
      + apply bind_ext. intros a. do 2 f_equal. lia.
      + apply ofold_ext. intros s x _. f_equal. lia. }
  unfold zseq. rewrite H. replace (Z.of_nat (Z.to_nat N)) with (Z.max 0 N) by lia.
  f_equal. apply ofold_ext. intros s x _. f_equal. lia.
Qed.

(** Row-major index arithmetic. *)
Lemma rowmajor_div ni j i : 0 <= i < ni -> (j * ni + i) / ni = j.
Proof. intros. rewrite Z.div_add_l by lia. rewrite Z.div_small by lia. lia. Qed.
Lemma rowmajor_mod ni j i : 0 <= i < ni -> (j * ni + i) mod ni = i.
Proof. intros. rewrite Z.add_comm, Z.mod_add by lia. apply Z.mod_small; lia. Qed.
Lemma rowmajor_inj ni j i j' i' : 0 <= i < ni -> 0 <= i' < ni -> j * ni + i = j' * ni + i' -> j = j' /\ i = i'.
Proof.
  intros H H' E. rewrite <- (rowmajor_div ni j i) by auto. rewrite <- (rowmajor_div ni j' i') at 1 by auto.
  split; [congruence|]. rewrite <- (rowmajor_mod ni j i) by auto. rewrite E. apply rowmajor_mod; auto.
Qed.
Lemma divmod_range nj ni n : 0 <= ni -> 0 <= n < nj * ni -> 0 < ni /\ 0 <= n / ni < nj /\ 0 <= n mod ni < ni /\ n = n / ni * ni + n mod ni.
Proof.
  intros Hni H. assert (0 < ni) by (destruct (Z.eq_dec ni 0); subst; lia).
  pose proof (Z.div_mod n ni ltac:(lia)). pose proof (Z.mod_pos_bound n ni ltac:(lia)). nia.
Qed.
Lemma rowmajor_range nj ni j i : 0 <= j < nj -> 0 <= i < ni -> 0 <= j * ni + i < nj * ni.
Proof. intros. nia. Qed.

(** Nested loops whose inner body is given as a function of the outer indices. *)
Lemma ofor_nest2 {S} jlo nj ilo ni (body : Z -> S -> Z -> outcome S) s : 0 <= nj -> 0 <= ni ->
  ofor jlo nj (fun s j => ofor ilo ni (body j) s) s
  = ofor 0 (nj * ni) (fun s n => body (jlo + n / ni) s (ilo + n mod ni)) s.
Proof.
  intros Hj Hi. rewrite ofor_from0.
  rewrite <- (ofor_nest nj ni (fun s j i => body (jlo + j) s (ilo + i))) by auto.
  apply ofor_ext. intros s' j _. now rewrite ofor_from0.
Qed.

Lemma ofor_nest3 {S} klo nk jlo nj ilo ni (body : Z -> Z -> S -> Z -> outcome S) s :
  0 <= nk -> 0 <= nj -> 0 <= ni ->
  ofor klo nk (fun s k => ofor jlo nj (fun s j => ofor ilo ni (body k j) s) s) s
  = ofor 0 (nk * (nj * ni)) (fun s n => body (klo + n / (nj * ni)) (jlo + n mod (nj * ni) / ni) s
                                             (ilo + (n mod (nj * ni)) mod ni)) s.
Proof.
  intros Hk Hj Hi.
  rewrite <- (ofor_nest2 klo nk 0 (nj * ni) (fun k s m => body k (jlo + m / ni) s (ilo + m mod ni))) by nia.
  apply ofor_ext. intros s' k _. now rewrite ofor_nest2 by auto.
Qed.

(** [dst[idx n] = src[n]] with the running counter in the state. *)
Lemma ofor_place {A} (N : Z) (step : list A * Z -> Z -> outcome (list A * Z))
    (idx : Z -> Z) (val : Z -> outcome A) (G : Z -> A) (g : list A) :
  0 <= N ->
  (forall g n, 0 <= n < N -> step (g, n) n = (do g <- (do v <- val n ; oset g (idx n) v) ; Ok (g, n + 1))) ->
  (forall n, 0 <= n < N -> val n = Ok (G (idx n)) /\ 0 <= idx n < zlen g) ->
  exists g', ofor 0 N step (g, 0) = Ok (g', N)
    /\ zlen g' = zlen g
    /\ (forall n, 0 <= n < N -> zget g' (idx n) = Some (G (idx n)))
    /\ (forall x, (forall n, 0 <= n < N -> idx n <> x) -> zget g' x = zget g x).
Proof.
  intros HN Hs H. destruct (ofor_store N idx val G g HN H) as (g' & E & Hg').
  exists g'. split; auto.
  pose proof (ofor_counter N (fun g _ i => do v <- val i ; oset g (idx i) v) g 0) as C.
  cbv beta in C. rewrite E in C. simpl in C. rewrite Z.max_r in C by lia. rewrite <- C.
  unfold ofor in *. clear C E Hg' H g'.
  assert (forall k lo (g : list A), 0 <= lo -> lo + Z.of_nat k <= N ->
    ofold step (zseq_nat lo k) (g, lo)
    = ofold (fun '(g, c) i => do g' <- (do v <- val i ; oset g (idx i) v) ; Ok (g', c + 1)) (zseq_nat lo k) (g, lo)) as K.
  { induction k as [|k IH]; intros lo g1 H0 H1; simpl; auto.
    rewrite Hs by lia. destruct (do v <- val lo; oset g1 (idx lo) v); simpl; auto. apply IH; lia. }
  unfold zseq. apply K; lia.
Qed.

(** Copying a buffer element by element onto a growing list. *)
Lemma ofor_grow {A} (N : Z) (step : list A -> Z -> outcome (list A)) (val : Z -> A) :
  0 <= N -> (forall b n, 0 <= n < N -> step b n = Ok (b ++ [val n])) ->
  ofor 0 N step [] = Ok (map val (zseq 0 N)).
Proof.
  intros HN H.
  destruct (ofor_inv (fun k b => b = map val (zseq 0 k)) step 0 N []) as (b & E & Hb); auto.
  - intros i b Hi ->. rewrite H by lia. eexists; split; eauto.
    rewrite (zseq_snoc 0 i) by lia. rewrite map_app. reflexivity.
  - rewrite E, Hb. f_equal.
Qed.
