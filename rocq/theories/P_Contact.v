(** * Proofs about tokenize and the contact strings *)
From Coq Require Import String.
Open Scope list_scope.
From Verif Require Import Base Str M_ScatterName M_Contact Spec_Contact.

Definition keep (ps : list (list Z)) : list (list Z) := filter nonempty (removelast ps) ++ [last ps []].
Definition clean (s : list Z) := filter (fun c => negb (blank c)) s.
Lemma fields_keep seps s : fields_of seps s = keep (pieces (is_one_of seps) (clean s)).
Proof. reflexivity. Qed.
Lemma pieces_ne sep s : pieces sep s <> [].
Proof. destruct s as [|c s]; cbn; [congruence|]. destruct (sep c); [congruence|]. destruct (pieces sep s); congruence. Qed.

(** pieces of the rest of the string, glued to the field under construction *)
Definition glue (cur : list Z) (ps : list (list Z)) := match ps with [] => [cur] | h :: t => (cur ++ h) :: t end.
Lemma keep_glue_sep cur ps : ps <> [] ->
  keep (glue cur ([] :: ps)) = (if nonempty cur then [cur] else []) ++ keep ps.
Proof.
  intros H. unfold glue, keep. rewrite app_nil_r. destruct ps as [|h t]; [congruence|].
  change (removelast (cur :: h :: t)) with (cur :: removelast (h :: t)).
  change (last (cur :: h :: t) []) with (last (h :: t) []). cbn [filter]. destruct cur; reflexivity.
Qed.
Lemma glue_nil ps : ps <> [] -> glue [] ps = ps.
Proof. destruct ps; [congruence|reflexivity]. Qed.

Definition seg (p : list Z) (off : Z) (l : list Z) := forall k, 0 <= k < zlen l -> zget p (off + k) = zget l k.

Section tok.
Variables (tokens : list Z) (varlen maxvar : Z).
Hypothesis Hv : 0 < varlen.

Definition mem_ok (p : list Z) (fs : list (list Z)) (cur : list Z) : Prop :=
  zlen p = maxvar * varlen /\
  (forall r f, zget fs r = Some f -> seg p (r * varlen) (f ++ [0]) /\ zlen f < varlen) /\
  seg p (zlen fs * varlen) cur.

Lemma seg_snoc p off l c p' : seg p off l -> zset p (off + zlen l) c = Some p' -> seg p' off (l ++ [c]).
Proof.
  intros H E k Hk. rewrite zlen_app in Hk. change (zlen [c]) with 1 in Hk.
  destruct (Z.eq_dec k (zlen l)) as [->|].
  - rewrite (zget_zset_eq _ _ _ _ E), zget_app_r by lia. now rewrite Z.sub_diag.
  - rewrite (zget_zset_ne _ _ _ _ _ E) by lia. rewrite zget_app_l by lia. apply H. lia.
Qed.
Lemma seg_other p off l i c p' : seg p off l -> zset p i c = Some p' -> (forall k, 0 <= k < zlen l -> off + k <> i) -> seg p' off l.
Proof. intros H E Hi k Hk. rewrite (zget_zset_ne _ _ _ _ _ E); [now apply H|]. intros X. apply (Hi k Hk). lia. Qed.

Lemma mem_store p fs cur c : mem_ok p fs cur -> zlen fs < maxvar -> zlen cur < varlen ->
  exists p', zset p (zlen fs * varlen + zlen cur) c = Some p' /\ mem_ok p' fs (cur ++ [c]).
Proof.
  intros (L & F & S) H1 H2. pose proof (zlen_nonneg fs). pose proof (zlen_nonneg cur).
  destruct (zset_Some p (zlen fs * varlen + zlen cur) c) as [p' E].
  { rewrite L. nia. }
  exists p'. split; auto. split; [|split].
  - rewrite (zset_len _ _ _ _ E). auto.
  - intros r f Hf. destruct (F r f Hf) as [F1 F2]. split; auto. eapply seg_other; eauto.
    intros k Hk. rewrite zlen_app in Hk. change (zlen [0]) with 1 in Hk.
    pose proof (zget_Some_range _ _ _ Hf). nia.
  - eapply seg_snoc; eauto.
Qed.
Lemma mem_close p fs cur : mem_ok p fs (cur ++ [0]) -> zlen cur < varlen -> mem_ok p (fs ++ [cur]) [].
Proof.
  intros (L & F & S) Hc. split; auto. split.
  - intros r f Hf. pose proof (zget_Some_range _ _ _ Hf) as R. rewrite zlen_app in R. change (zlen [cur]) with 1 in R.
    destruct (Z.eq_dec r (zlen fs)) as [->|].
    + rewrite zget_app_r in Hf by lia. rewrite Z.sub_diag in Hf. rewrite zget_cons_0 in Hf. injection Hf as <-. auto.
    + rewrite zget_app_l in Hf by lia. auto.
  - intros k Hk. change (zlen []) with 0 in Hk. lia.
Qed.

Definition fits (fs : list (list Z)) : bool := forallb (fun f => zlen f <? varlen) fs && (zlen fs <=? maxvar).

Lemma zlen_snoc {A} (l : list A) x : zlen (l ++ [x]) = zlen l + 1.
Proof. rewrite zlen_app. reflexivity. Qed.

Lemma keep_has_prefix cur ps f : exists t, keep (glue cur ps) = t /\ forall h, 
   (ps = [] \/ exists q, ps = h :: q) -> f = cur ++ (match ps with [] => [] | _ => h end) -> nonempty cur = true -> In f t.
Proof.
  eexists. split; [reflexivity|]. intros h [-> |(q & ->)] -> Hc; cbn [glue].
  - unfold keep. cbn. rewrite app_nil_r. auto.
  - unfold keep. destruct q as [|h2 q].
    + cbn. auto.
    + change (removelast ((cur ++ h) :: h2 :: q)) with ((cur ++ h) :: removelast (h2 :: q)).
      cbn [filter]. destruct cur; [discriminate|]. cbn. auto.
Qed.

(** if the current field is already too long, the result does not fit *)
Lemma too_long cur ps : varlen <= zlen cur -> forallb (fun f => zlen f <? varlen) (keep (glue cur ps)) = false.
Proof.
  intros H. destruct (forallb _ _) eqn:E; auto. exfalso. rewrite forallb_forall in E.
  assert (nonempty cur = true) as Hn. { destruct cur; auto. change (zlen []) with 0 in H. lia. }
  destruct ps as [|h q].
  - destruct (keep_has_prefix cur [] (cur ++ [])) as (t & <- & K). specialize (E _ (K [] (or_introl eq_refl) eq_refl Hn)).
    rewrite app_nil_r in E. lia.
  - destruct (keep_has_prefix cur (h :: q) (cur ++ h)) as (t & <- & K). specialize (E _ (K h (or_intror (ex_intro _ q eq_refl)) eq_refl Hn)).
    rewrite zlen_app in E. pose proof (zlen_nonneg h). lia.
Qed.
Lemma keep_pos ps : 1 <= zlen (keep ps).
Proof. unfold keep. rewrite zlen_snoc. pose proof (zlen_nonneg (filter nonempty (removelast ps))). lia. Qed.

Definition finish (st : Z * Z * list Z) : outcome (list Z * Z) :=
  let '(nvar, j, p) := st in do p <- oset p (nvar * varlen + j) 0 ; Ok (p, nvar + 1).

Lemma tok_run s : forall fs cur p, mem_ok p fs cur -> zlen fs < maxvar -> zlen cur < varlen ->
  forallb (fun f => zlen f <? varlen) fs = true ->
  let fs' := fs ++ keep (glue cur (pieces (is_one_of tokens) (clean s))) in
  if fits fs' then
    exists p', (do st <- ofold (tok_char tokens varlen maxvar) s (zlen fs, zlen cur, p) ; finish st) = Ok (p', zlen fs')
      /\ mem_ok p' fs' []
  else exists e, (do st <- ofold (tok_char tokens varlen maxvar) s (zlen fs, zlen cur, p) ; finish st) = Err e.
Proof.
  induction s as [|c s IH]; intros fs cur p M H1 H2 HF; cbv zeta.
  - cbn [clean filter pieces glue ofold bind finish]. rewrite app_nil_r. unfold keep. cbn [removelast filter last app].
    unfold fits. rewrite forallb_app, HF, zlen_snoc. cbn [forallb].
    destruct (Z.ltb_spec (zlen cur) varlen); [|lia]. destruct (Z.leb_spec (zlen fs + 1) maxvar); [|lia]. cbn [andb].
    destruct (mem_store p fs cur 0 M H1 H2) as (p' & E & M'). rewrite (proj2 (oset_Ok _ _ _ _) E). cbn [bind].
    exists p'. split; auto. now apply mem_close.
  - cbn [ofold]. assert (Eb : negb (c =? 32) && negb (c =? 9) = negb (blank c)).
    { unfold blank. destruct (c =? 32), (c =? 9); reflexivity. }
    assert (Es : existsb (Z.eqb c) tokens = is_one_of tokens c) by reflexivity.
    set (st0 := (zlen fs, zlen cur, p)) in *.
    assert (ES : tok_char tokens varlen maxvar st0 c =
      if negb (blank c) then
        if is_one_of tokens c then
          if negb (zlen cur =? 0) then
            do p <- oset p (zlen fs * varlen + zlen cur) 0 ;
            if zlen fs + 1 >=? maxvar then Err 2 else Ok (zlen fs + 1, 0, p)
          else Ok st0
        else
          do p <- oset p (zlen fs * varlen + zlen cur) c ;
          if zlen cur + 1 >=? varlen then Err 3 else Ok (zlen fs, zlen cur + 1, p)
      else Ok st0).
    { unfold tok_char, st0. rewrite Eb, Es. reflexivity. }
    rewrite ES. clear ES Eb Es. subst st0. unfold clean. cbn [filter]. destruct (blank c) eqn:B; cbn [negb].
    + cbn [bind]. apply (IH fs cur p M H1 H2 HF).
    + cbn [pieces]. fold (clean s). destruct (is_one_of tokens c) eqn:T.
      * rewrite keep_glue_sep by apply pieces_ne.
        destruct (Z.eqb_spec (zlen cur) 0) as [Q|Q]; cbn [negb].
        -- assert (cur = []) as -> by (destruct cur; auto; rewrite zlen_cons in Q; pose proof (zlen_nonneg cur); lia).
           cbn [nonempty app bind]. rewrite <- (glue_nil (pieces (is_one_of tokens) (clean s))) by apply pieces_ne.
           apply (IH fs [] p M H1 H2 HF).
        -- assert (nonempty cur = true) as -> by (destruct cur; auto).
           destruct (mem_store p fs cur 0 M H1 H2) as (p' & E & M'). rewrite (proj2 (oset_Ok _ _ _ _) E). cbn [bind].
           rewrite app_assoc. destruct (zlen fs + 1 >=? maxvar) eqn:G; cbn [bind].
           ++ assert (fits ((fs ++ [cur]) ++ keep (pieces (is_one_of tokens) (clean s))) = false) as ->.
              { unfold fits. rewrite zlen_app, zlen_snoc. pose proof (keep_pos (pieces (is_one_of tokens) (clean s))).
                destruct (Z.leb_spec (zlen fs + 1 + zlen (keep (pieces (is_one_of tokens) (clean s)))) maxvar); [lia|].
                apply andb_false_r. }
              eauto.
           ++ pose proof (IH (fs ++ [cur]) [] p') as R. rewrite zlen_snoc in R. change (zlen []) with 0 in R.
              rewrite glue_nil in R by apply pieces_ne. apply R; try lia.
              ** now apply mem_close.
              ** rewrite forallb_app, HF. cbn. destruct (Z.ltb_spec (zlen cur) varlen); auto; lia.
      * destruct (mem_store p fs cur c M H1 H2) as (p' & E & M'). rewrite (proj2 (oset_Ok _ _ _ _) E). cbn [bind].
        assert (EG : glue cur (match pieces (is_one_of tokens) (clean s) with [] => [[c]] | h :: t => (c :: h) :: t end)
                  = glue (cur ++ [c]) (pieces (is_one_of tokens) (clean s))).
        { destruct (pieces _ _) eqn:P; [exfalso; eapply pieces_ne; eauto|]. cbn. now rewrite <- app_assoc. }
        rewrite EG. destruct (zlen cur + 1 >=? varlen) eqn:G; cbn [bind].
        -- assert (fits (fs ++ keep (glue (cur ++ [c]) (pieces (is_one_of tokens) (clean s)))) = false) as ->.
           { unfold fits. rewrite forallb_app, too_long; [now rewrite andb_false_r|]. rewrite zlen_snoc. lia. }
           eauto.
        -- rewrite <- zlen_snoc with (x := c). apply IH; auto. rewrite zlen_snoc. lia.
Qed.

Lemma pieces_In sep s c f : In f (pieces sep s) -> In c f -> In c s.
Proof.
  revert f. induction s as [|d s IH]; cbn [pieces]; intros f Hf Hc.
  - destruct Hf as [<-|[]]. destruct Hc.
  - destruct (sep d).
    + destruct Hf as [<-|Hf]; [destruct Hc|]. right. eauto.
    + destruct (pieces sep s) eqn:P; [exfalso; eapply pieces_ne; eauto|].
      destruct Hf as [<-|Hf].
      * destruct Hc as [->|Hc]; [left; auto|]. right. apply (IH l); auto. left; auto.
      * right. apply (IH f); auto. right; auto.
Qed.
Lemma last_In (ps : list (list Z)) : ps <> [] -> In (last ps []) ps.
Proof.
  induction ps as [|a ps IH]; [congruence|]. intros _. destruct ps as [|b ps]; [left; auto|].
  right. change (last (a :: b :: ps) []) with (last (b :: ps) []). apply IH. congruence.
Qed.
Lemma removelast_In (ps : list (list Z)) x : In x (removelast ps) -> In x ps.
Proof.
  induction ps as [|a ps IH]; [auto|]. destruct ps as [|b ps]; [intros []|].
  change (removelast (a :: b :: ps)) with (a :: removelast (b :: ps)). intros [->|H]; [left; auto|right; auto].
Qed.
Lemma keep_In ps f : ps <> [] -> In f (keep ps) -> In f ps.
Proof.
  intros H. unfold keep. rewrite in_app_iff. intros [I|[<-|[]]].
  - apply filter_In in I. apply removelast_In, I.
  - now apply last_In.
Qed.
Lemma fields_In seps s f c : In f (fields_of seps s) -> In c f -> In c s.
Proof.
  rewrite fields_keep. intros H Hc. apply keep_In in H; [|apply pieces_ne].
  pose proof (pieces_In _ _ _ _ H Hc) as K. unfold clean in K. apply filter_In in K. apply K.
Qed.

Lemma tokenize_run s p : s <> [] -> ~ In 0 s -> 0 < maxvar -> zlen p = maxvar * varlen ->
  let fs := fields_of tokens s in
  if fits fs then
    exists p', tokenize s tokens varlen maxvar p = Ok (p', zlen fs) /\ zlen p' = zlen p /\
      forall r f, zget fs r = Some f -> string_at p' (r * varlen) f
  else exists e, tokenize s tokens varlen maxvar p = Err e.
Proof.
  intros Hs Hz Hm HL fs.
  assert (E : tokenize s tokens varlen maxvar p = do st <- ofold (tok_char tokens varlen maxvar) s (0, 0, p) ; finish st).
  { unfold tokenize. destruct s; [congruence|]. unfold finish. reflexivity. }
  rewrite E. pose proof (tok_run s [] [] p) as R. change (zlen []) with 0 in R. cbn [app] in R.
  rewrite glue_nil in R by apply pieces_ne. rewrite <- fields_keep in R. fold fs in R. cbv zeta in R.
  assert (M : mem_ok p [] []).
  { split; auto. split; [intros r f Hf; rewrite zget_nil in Hf; discriminate|].
    intros k Hk. change (zlen []) with 0 in Hk. lia. }
  specialize (R M Hm Hv eq_refl).
  destruct (fits fs) eqn:EF; auto. destruct R as (p' & R1 & (L & F & _)).
  exists p'. split; auto. split; [congruence|]. intros r f Hf. destruct (F r f Hf) as [S _]. split; [|split].
  - intros k Hk. rewrite S by (rewrite zlen_snoc; lia). apply zget_app_l. lia.
  - rewrite S by (rewrite zlen_snoc; pose proof (zlen_nonneg f); lia). rewrite zget_app_r by lia. now rewrite Z.sub_diag.
  - intros I. apply Hz. eapply fields_In; eauto. fold fs. eapply zget_In; eauto.
Qed.
End tok.

Lemma fits_spec varlen maxvar fs : fits varlen maxvar fs = true <-> (forall f, In f fs -> zlen f < varlen) /\ zlen fs <= maxvar.
Proof.
  unfold fits. rewrite andb_true_iff, forallb_forall.
  split; intros [A B]; (split; [intros f Hf; specialize (A f Hf); cbv beta in *; lia|lia]).
Qed.

(** Reading a C string back *)
Lemma cstr_app s l : ~ In 0 s -> cstr (s ++ 0 :: l) = Ok s.
Proof.
  induction s as [|c s IH]; intros H; [reflexivity|]. cbn [app cstr].
  destruct (Z.eqb_spec c 0) as [->|]; [exfalso; apply H; left; auto|].
  rewrite IH by (intros X; apply H; right; auto). reflexivity.
Qed.
Lemma nth_error_nil_ {A} k : nth_error (@nil A) k = None.
Proof. destruct k; reflexivity. Qed.
Lemma nth_error_skipn_ {A} n (l : list A) k : nth_error (skipn n l) k = nth_error l (n + k).
Proof. revert l. induction n as [|n IH]; intros [|x l]; cbn; auto. now rewrite nth_error_nil_. Qed.
Lemma seg_skipn (p : list Z) off (s : list Z) : 0 <= off -> (forall k, 0 <= k < zlen s -> zget p (off + k) = zget s k) ->
  exists l, skipn (Z.to_nat off) p = s ++ l /\ (forall k, 0 <= k -> zget l k = zget p (off + zlen s + k)).
Proof.
  revert p off. induction s as [|c s IH]; intros p off Ho H.
  - exists (skipn (Z.to_nat off) p). split; auto. intros k Hk. change (zlen []) with 0.
    unfold zget. destruct (Z.ltb_spec k 0); [lia|]. destruct (Z.ltb_spec (off + 0 + k) 0); [lia|].
    rewrite nth_error_skipn_. f_equal. lia.
  - assert (H0 : zget p off = Some c).
    { specialize (H 0). rewrite Z.add_0_r, zget_cons_0 in H. apply H. rewrite zlen_cons. pose proof (zlen_nonneg s). lia. }
    destruct (IH p (off + 1)) as (l & E & G); [lia| |].
    { intros k Hk. replace (off + 1 + k) with (off + (k + 1)) by lia. rewrite H by (rewrite zlen_cons; lia).
      rewrite zget_cons_pos by lia. f_equal. lia. }
    exists l. split.
    + unfold zget in H0. destruct (Z.ltb_spec off 0); [lia|].
      replace (Z.to_nat (off + 1)) with (S (Z.to_nat off)) in E by lia. cbn [app]. rewrite <- E. clear -H0.
      revert p H0. generalize (Z.to_nat off) as n. induction n as [|n IH]; intros [|x p] H0; cbn in *; try congruence.
      apply IH, H0.
    + intros k Hk. rewrite G by auto. rewrite zlen_cons. f_equal. lia.
Qed.
Lemma row_string varlen p r s : 0 <= r * varlen -> string_at p (r * varlen) s -> row varlen p r = Ok s.
Proof.
  intros Hr (A & B & C). unfold row. destruct (seg_skipn p (r * varlen) s Hr A) as (l & E & G). rewrite E.
  specialize (G 0). rewrite Z.add_0_r, B in G. destruct l as [|x l].
  - rewrite zget_nil in G. specialize (G ltac:(lia)). discriminate.
  - rewrite zget_cons_0 in G. specialize (G ltac:(lia)). injection G as ->. now apply cstr_app.
Qed.
