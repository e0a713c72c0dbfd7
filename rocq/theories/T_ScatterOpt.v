(** * Property C15: command-line options of mppncscatter *)
From Coq Require Import Permutation String.
Open Scope list_scope.
From Verif Require Import Base Loops Lst Str M_StrList M_ScatterOpt T_StrList.

(** The letter of an option ([OBad] counts as a request for help, as in the code). *)
Inductive letter := Li | Lj | Ln | Lp | Ls | Lx | Ly | Lv | LV | Lw | Lh | LX | LY.
Definition letter_of (c : copt) : letter :=
  match c with Oi _ => Li | Oj _ => Lj | On => Ln | Op _ => Lp | Os _ => Ls | Ox _ => Lx | Oy _ => Ly
             | Ov => Lv | OV => LV | Ow _ => Lw | OBad => Lh | Oh => Lh | OX _ => LX | OY _ => LY end.
Definition arg_of (c : copt) : str :=
  match c with Oi a | Oj a | Op a | Os a | Ox a | Oy a | Ow a | OX a | OY a => a | _ => [] end.
Definition letter_eqb (a b : letter) : bool :=
  match a, b with Li,Li | Lj,Lj | Ln,Ln | Lp,Lp | Ls,Ls | Lx,Lx | Ly,Ly | Lv,Lv | LV,LV | Lw,Lw | Lh,Lh | LX,LX | LY,LY => true | _, _ => false end.

(** The argument of the last occurrence of an option. *)
Definition last_arg (k : letter) (cs : list copt) : option str :=
  fold_left (fun acc c => if letter_eqb (letter_of c) k then Some (arg_of c) else acc) cs None.
Definition num_setting (k : letter) (dflt : Z) (cs : list copt) : Z :=
  match last_arg k cs with Some a => atoi a | None => dflt end.
Definition flag_setting (k : letter) (cs : list copt) : Z :=
  match last_arg k cs with Some _ => 1 | None => 0 end.

(** What a user expects: every setting is given by the last option with its own letter. *)
Record intended (cs : list copt) (o : mnsopts) : Prop := {
  in_nxio : nxio o = num_setting Li 0 cs;  in_nyio : nyio o = num_setting Lj 0 cs;
  in_nx : nx o = num_setting Lx 0 cs;      in_ny : ny o = num_setting Ly 0 cs;
  in_width : width o = num_setting Lw 4 cs;
  in_prefix : prefix o = last_arg Lp cs;
  in_dry : dryrun o = flag_setting Ln cs;  in_version : version o = flag_setting Lv cs;
  in_verbose : verbose o = flag_setting LV cs; in_help : help o = flag_setting Lh cs }.
Definition start_intended (cs : list copt) (o : mnsopts) : Prop := start o = num_setting Ls 0 cs.
(** The names given for a dimension list: those between the commas of the last option. *)
Definition dims_intended (k : letter) (cs : list copt) (l : slist) (len : Z) : Prop :=
  forall s, instringlist l (Some s) len = Ok true <-> exists a, last_arg k cs = Some a /\ In s (tokens a).

(** The last of the options -s and -p is not a -p. *)
Definition no_p_after_s (cs : list copt) : Prop :=
  forall pre a post, cs = pre ++ Op a :: post -> exists b, In (Os b) post.

Lemma last_arg_app k cs c : last_arg k (cs ++ [c]) = if letter_eqb (letter_of c) k then Some (arg_of c) else last_arg k cs.
Proof. unfold last_arg. now rewrite fold_left_app. Qed.

(** Options that set one field each. *)
Lemma run_intended cs : forall o, ofold opt_step cs initmnsopts = Ok o -> intended cs o /\
  start o = match fold_left (fun acc c => match c with Os a | Op a => Some a | _ => acc end) cs None with Some a => atoi a | None => 0 end.
Proof.
  induction cs as [|c cs IH] using rev_ind; intros o H.
  - cbn in H. injection H as <-. split; [constructor|]; reflexivity.
  - rewrite ofold_snoc in H. destruct (ofold opt_step cs initmnsopts) as [o1| |] eqn:E; cbn [bind] in H; try discriminate.
    destruct (IH o1 eq_refl) as [[] Hs]. rewrite fold_left_app.
    destruct c; cbn [opt_step] in H;
      try (destruct (getstringlist _ _) as [[l n]| |]; cbn [bind] in H; try discriminate);
      injection H as <-; (split; [constructor|]); unfold num_setting, flag_setting in *; rewrite ?last_arg_app; cbn; auto.
Qed.

Lemma last_sp cs : no_p_after_s cs ->
  fold_left (fun acc c => match c with Os a | Op a => Some a | _ => acc end) cs None = last_arg Ls cs.
Proof.
  induction cs as [|c cs IH] using rev_ind; intros H; auto.
  rewrite last_arg_app, fold_left_app. cbn [fold_left].
  assert (Hc : match c with Os _ => True | _ => no_p_after_s cs end /\ match c with Op _ => False | _ => True end).
  { split.
    - destruct c; auto; intros pre a0 post E; destruct (H pre a0 (post ++ [_]) ltac:(rewrite E, <- app_assoc; cbn; reflexivity)) as (b & Hb); apply in_app_or in Hb;
        destruct Hb as [Hb|[Hb|[]]]; try discriminate; eauto.
    - destruct c; auto. destruct (H cs a [] eq_refl) as (b & []). }
  destruct Hc as [H1 H2]. destruct c; cbn [letter_of letter_eqb arg_of]; auto. contradiction.
Qed.

(** ** The comma lists *)
(** Every token takes one comma or the end of the string. *)
Lemma tokens_aux_len s : forall cur, zlen (tokens_aux cur s) <= 1 + zlen (filter (Z.eqb 44) s).
Proof.
  induction s as [|c s IH]; intros cur; cbn [tokens_aux filter].
  - destruct cur; cbn; lia.
  - rewrite (Z.eqb_sym 44 c). destruct (Z.eqb_spec c 44) as [->|].
    + specialize (IH []). destruct cur; rewrite ?zlen_cons; lia.
    + specialize (IH (cur ++ [c])). lia.
Qed.
Lemma tokens_len s : zlen (tokens s) <= count_items s.
Proof.
  unfold tokens, count_items. destruct s as [|c s]; [cbn; lia|]. cbn [tokens_aux]. destruct (c =? 44); apply tokens_aux_len.
Qed.

Lemma put_tokens ts : forall pre post : slist, zlen ts <= zlen post ->
  ofold (fun '(l, i) t => do l <- oset l i (Some t) ; Ok (l, i + 1)) ts (pre ++ post, zlen pre)
  = Ok (pre ++ map Some ts ++ skipn (List.length ts) post, zlen pre + zlen ts).
Proof.
  induction ts as [|t ts IH]; intros pre post H; cbn [ofold map app List.length skipn].
  - rewrite zlen_nil. repeat f_equal. lia.
  - rewrite (zlen_cons t ts) in H; rewrite (zlen_cons t ts). pose proof (zlen_nonneg ts). destruct post as [|x post]; [exfalso; change (1 + zlen ts <= 0) in H; lia|]. rewrite (zlen_cons x post) in H.
    rewrite oset_middle. cbn [bind]. specialize (IH (pre ++ [Some t]) post). rewrite zlen_app, (zlen_cons (Some t) []) in IH.
    replace (zlen pre + (1 + zlen (@nil (option str)))) with (zlen pre + 1) in IH by (cbn; lia). rewrite <- !app_assoc in IH. cbn [app] in IH. rewrite IH by lia. f_equal. f_equal. lia.
Qed.
Lemma getstringlist_ok a l : zlen (tokens a) <= zlen l ->
  getstringlist a l = Ok (map Some (tokens a) ++ skipn (List.length (tokens a)) l, count_items a).
Proof.
  intros H. unfold getstringlist. pose proof (put_tokens (tokens a) [] l H) as K. cbn [app] in K. change (zlen (@nil (option str))) with 0 in K.
  match goal with |- context [ofold ?f ?x ?y] => replace (ofold f x y) with (Ok (map Some (tokens a) ++ skipn (List.length (tokens a)) l, 0 + zlen (tokens a))) by (symmetry; exact K) end.
  reflexivity.
Qed.

(** Membership in the first [len] slots. *)
Lemma in_prefix_slots l s len : 0 <= len <= zlen l ->
  (instringlist l (Some s) len = Ok true <-> In (Some s) (firstn (Z.to_nat len) l)).
Proof.
  intros H. assert (E : instringlist l (Some s) len = instringlist (firstn (Z.to_nat len) l) (Some s) len).
  { unfold instringlist. apply ofor_ext. intros b i Hi. destruct b; auto. unfold oget, zget.
    destruct (Z.ltb_spec i 0); auto. rewrite nth_error_firstn_lt by lia. reflexivity. }
  rewrite E. assert (Hl : zlen (firstn (Z.to_nat len) l) = len) by (unfold zlen in *; rewrite firstn_length; lia).
  destruct (instringlist_ok (firstn (Z.to_nat len) l) s) as (b & Eb & Hb). rewrite Hl in Eb. rewrite Eb. unfold stored in Hb. rewrite <- Hb. split; [congruence|intros ->; auto].
Qed.

Definition args (k : letter) (cs : list copt) : list str := map arg_of (filter (fun c => letter_eqb (letter_of c) k) cs).

Lemma args_app k cs c : args k (cs ++ [c]) = args k cs ++ (if letter_eqb (letter_of c) k then [arg_of c] else []).
Proof. unfold args. rewrite filter_app, map_app. f_equal. cbn. destruct (letter_eqb _ _); auto. Qed.
Lemma last_arg_args k cs : last_arg k cs = fold_left (fun _ a => Some a) (args k cs) None.
Proof.
  induction cs as [|c cs IH] using rev_ind; auto. rewrite last_arg_app, args_app, fold_left_app, IH. destruct (letter_eqb _ _); auto.
Qed.

Definition dims_fold (xs : list str) : outcome (slist * Z) := ofold (fun '(l, _) a => getstringlist a l) xs (newstringlist NC_MAX_DIMS, 0).

Lemma run_dims cs : forall o, ofold opt_step cs initmnsopts = Ok o ->
  dims_fold (args LX cs) = Ok (xdims o, xdims_len o) /\ dims_fold (args LY cs) = Ok (ydims o, ydims_len o).
Proof.
  unfold dims_fold. induction cs as [|c cs IH] using rev_ind; intros o H.
  - cbn in H. injection H as <-. split; reflexivity.
  - rewrite ofold_snoc in H. destruct (ofold opt_step cs initmnsopts) as [o1| |]; cbn [bind] in H; try discriminate.
    destruct (IH o1 eq_refl) as [HX HY]. rewrite !args_app.
    destruct c; cbn [letter_of letter_eqb arg_of]; rewrite ?app_nil_r, ?ofold_snoc, ?HX, ?HY; cbn [bind]; cbn [opt_step] in H;
      try (destruct (getstringlist _ _) as [[l n]| |] eqn:Eg; cbn [bind] in H; try discriminate);
      injection H as <-; cbn [xdims xdims_len ydims ydims_len set_nxio set_nyio set_dryrun set_prefix set_start set_nx set_ny set_version set_verbose set_width set_help set_xdims set_ydims]; rewrite ?Eg; auto.
Qed.

Lemma slots_put a l : zlen (map Some (tokens a) ++ skipn (List.length (tokens a)) l) = Z.max (zlen l) (zlen (tokens a)).
Proof. rewrite zlen_app, zlen_map. unfold zlen. rewrite skipn_length. lia. Qed.

Lemma put_tokens_fits ts : forall l i r, 0 <= i -> ofold (fun '(l, i) t => do l <- oset l i (Some t) ; Ok (l, i + 1)) ts (l : slist, i) = Ok r -> i <= zlen l -> i + zlen ts <= zlen l.
Proof.
  induction ts as [|t ts IH]; intros l i r Hi H Hl; cbn [ofold] in H.
  - cbn. lia.
  - destruct (oset l i (Some t)) as [l'| |] eqn:E; cbn [bind] in H; try discriminate. apply oset_Ok in E.
    pose proof (zset_range _ _ _ _ E). pose proof (zset_len _ _ _ _ E). apply IH in H; [|lia|lia]. rewrite zlen_cons. lia.
Qed.
Lemma getstringlist_fits a l r : getstringlist a l = Ok r -> zlen (tokens a) <= zlen l.
Proof.
  unfold getstringlist. match goal with |- bind ?e _ = _ -> _ => destruct e as [x| |] eqn:E end; cbn [bind]; try discriminate. intros _.
  apply put_tokens_fits in E; [lia|lia|apply zlen_nonneg].
Qed.

Lemma dims_fold_len xs : forall l n, dims_fold xs = Ok (l, n) -> zlen l = NC_MAX_DIMS.
Proof.
  unfold dims_fold. induction xs as [|a xs IH] using rev_ind; intros l n H.
  - cbn [ofold] in H. injection H as <- <-. unfold newstringlist. rewrite zlen_repeat. reflexivity.
  - rewrite ofold_snoc in H. match type of H with bind ?e _ = _ => destruct e as [[l1 n1]| |] eqn:E; cbn [bind] in H; try discriminate end.
    pose proof (getstringlist_fits _ _ _ H) as Hf. rewrite getstringlist_ok in H by auto. injection H as <- <-. rewrite slots_put, (IH _ _ eq_refl) in *. lia.
Qed.

Lemma last_fold {B} (l : list B) x o : fold_left (fun _ a => Some a) (l ++ [x]) o = Some x.
Proof. now rewrite fold_left_app. Qed.

Lemma dims_ok k cs l n : dims_fold (args k cs) = Ok (l, n) ->
  (zlen (args k cs) <= 1 \/ exists a, last_arg k cs = Some a /\ count_items a = zlen (tokens a)) ->
  (forall a, last_arg k cs = Some a -> count_items a <= NC_MAX_DIMS) ->
  dims_intended k cs l n.
Proof.
  intros E H1 H2. pose proof (dims_fold_len _ _ _ E) as Hl. unfold dims_intended. intros s. rewrite last_arg_args in *.
  destruct (args k cs) as [|a0 xs0] eqn:Ea.
  { unfold dims_fold in E. cbn [ofold] in E. injection E as <- <-. split; [intros X; cbn in X; discriminate|intros (a & X & _); discriminate]. }
  destruct (exists_last (l := a0 :: xs0) ltac:(discriminate)) as (xs & a & Ex). rewrite Ex in *. clear Ex Ea a0 xs0.
  rewrite last_fold in *. specialize (H2 a eq_refl).
  unfold dims_fold in E. rewrite ofold_snoc in E. match type of E with bind ?e _ = _ => destruct e as [[l1 n1]| |] eqn:E1; cbn [bind] in E; try discriminate end.
  pose proof (getstringlist_fits _ _ _ E) as Hf. rewrite getstringlist_ok in E by auto. injection E as <- <-.
  pose proof (tokens_len a) as Ht. pose proof (zlen_nonneg (tokens a)) as Hn.
  rewrite in_prefix_slots by lia. rewrite firstn_app, in_app_iff, map_length, firstn_all2 by (rewrite map_length; unfold zlen in *; lia).
  split.
  - intros [Hi|Hi].
    + apply in_map_iff in Hi. destruct Hi as (t & Et & Hi). injection Et as ->. eauto.
    + exfalso. destruct H1 as [H1|(b & Eb & H1)].
      * assert (xs = []) as ->.
        { destruct xs; auto. cbn [app] in H1. rewrite zlen_cons, zlen_app, zlen_cons in H1. pose proof (zlen_nonneg xs). pose proof (zlen_nonneg (@nil str)). lia. }
        cbn [ofold] in E1. injection E1 as <- <-. apply firstn_In in Hi. apply skipn_In in Hi. apply repeat_spec in Hi. discriminate.
      * injection Eb as <-. replace (Z.to_nat (count_items a) - List.length (tokens a))%nat with O in Hi by (unfold zlen in *; lia). destruct Hi.
  - intros (b & Eb & Hb). injection Eb as <-. left. apply in_map_iff. eauto.
Qed.

(** C15: every setting except the start number is given by the last option with its
    own letter; so is the start number unless a -p comes after the last -s; so are the
    dimension names given by -X and -Y if the option is given once or if the last one
    has no empty names. *)
Theorem C15_options_partial : forall cs o, ofold opt_step cs initmnsopts = Ok o ->
  intended cs o
  /\ (no_p_after_s cs -> start_intended cs o)
  /\ (zlen (args LX cs) <= 1 \/ (exists a, last_arg LX cs = Some a /\ count_items a = zlen (tokens a)) ->
      (forall a, last_arg LX cs = Some a -> count_items a <= NC_MAX_DIMS) -> dims_intended LX cs (xdims o) (xdims_len o))
  /\ (zlen (args LY cs) <= 1 \/ (exists a, last_arg LY cs = Some a /\ count_items a = zlen (tokens a)) ->
      (forall a, last_arg LY cs = Some a -> count_items a <= NC_MAX_DIMS) -> dims_intended LY cs (ydims o) (ydims_len o)).
Proof.
  intros cs o H. destruct (run_intended cs o H) as [Hi Hs]. destruct (run_dims cs o H) as [HX HY]. split; auto. split; [|split].
  - intros Hp. unfold start_intended, num_setting. now rewrite Hs, last_sp.
  - intros H1 H2. eapply dims_ok; eauto.
  - intros H1 H2. eapply dims_ok; eauto.
Qed.
Print Assumptions C15_options_partial.

(** C15: the options are accepted whenever no -X or -Y names more than NC_MAX_DIMS
    dimensions. *)
Theorem C15_accepted : forall cs operand,
  (forall a, In (OX a) cs \/ In (OY a) cs -> zlen (tokens a) <= NC_MAX_DIMS) ->
  exists o, getmnsopts cs operand = Ok (o, (flag_setting Lh cs =? 0) && (flag_setting Lv cs =? 0) && operand).
Proof.
  intros cs operand H.
  assert (K : exists o, ofold opt_step cs initmnsopts = Ok o).
  { induction cs as [|c cs IH] using rev_ind; [eexists; reflexivity|].
    destruct IH as (o & E). { intros a Ha. apply H. rewrite !in_app_iff. tauto. }
    rewrite ofold_snoc, E. cbn [bind]. destruct (run_dims cs o E) as [HX HY]. apply dims_fold_len in HX. apply dims_fold_len in HY.
    destruct c; cbn [opt_step]; eauto.
    - rewrite getstringlist_ok; [cbn [bind]; eauto|]. rewrite HX. apply H. left. apply in_app_iff. right. left. auto.
    - rewrite getstringlist_ok; [cbn [bind]; eauto|]. rewrite HY. apply H. right. apply in_app_iff. right. left. auto. }
  destruct K as (o & E). exists o. unfold getmnsopts. rewrite E. cbn [bind]. destruct (run_intended cs o E) as [[] _]. now rewrite in_help0, in_version0.
Qed.
Print Assumptions C15_accepted.

Lemma getstringlist_no_err a l e : getstringlist a l <> Err e.
Proof.
  unfold getstringlist.
  assert (K : forall ts l i e, ofold (fun '(l, i) t => do l <- oset l i (Some t) ; Ok (l, i + 1)) ts (l : slist, i) <> Err e).
  { induction ts as [|t ts IH]; intros l0 i e0; cbn [ofold]; [discriminate|]. unfold oset at 1. destruct (zset l0 i (Some t)); cbn [bind]; [apply IH|discriminate]. }
  match goal with |- bind ?x _ <> _ => destruct x as [[l1 i1]|e1|] eqn:E end; cbn [bind]; [discriminate| |discriminate]. exfalso. eapply K; eauto.
Qed.

Lemma opt_commute o c d : letter_of c <> letter_of d -> ~ (letter_of c = Lp /\ letter_of d = Ls) -> ~ (letter_of c = Ls /\ letter_of d = Lp) ->
  (do o' <- opt_step o c ; opt_step o' d) = (do o' <- opt_step o d ; opt_step o' c).
Proof.
  intros H1 H2 H3. destruct o as [o1 o2 o3 o4 o5 o6 o7 o8 o9 o10 o11 o12 o13 o14 o15].
  destruct c, d; cbn [letter_of] in H1, H2, H3; try congruence; try tauto; cbn [opt_step bind xdims ydims set_nxio set_nyio set_dryrun set_prefix set_start set_nx set_ny set_version set_verbose set_width set_help nxio nyio dryrun prefix start nx ny version verbose width help]; try reflexivity;
    repeat match goal with H : getstringlist ?a ?l = _ |- context [getstringlist ?a ?l] => rewrite H; cbn [bind opt_step set_xdims set_ydims xdims ydims] | |- context [getstringlist ?a ?l] => let E := fresh in pose proof (getstringlist_no_err a l) as E; destruct (getstringlist a l) as [[? ?]|?|] eqn:?; cbn [bind opt_step set_xdims set_ydims xdims ydims]; [|exfalso; eapply E; eauto|] end;
    reflexivity.
Qed.

Lemma fold_commute cs cs' : Permutation cs cs' -> NoDup (map letter_of cs) -> ~ (In Lp (map letter_of cs) /\ In Ls (map letter_of cs)) ->
  forall o, ofold opt_step cs o = ofold opt_step cs' o.
Proof.
  induction 1 as [|c l l' HP IH|c d l|l1 l2 l3 HP1 IH1 HP2 IH2]; intros HN Hps o.
  - reflexivity.
  - cbn [map] in *. inversion HN; subst. cbn [ofold]. apply bind_ext. intros o'. apply IH; auto. intros [X Y]. apply Hps. split; right; auto.
  - cbn [map] in *. inversion HN as [|? ? Hni HN']; subst. cbn [ofold].
    assert (E : forall e1 e2 (f : mnsopts -> outcome mnsopts), e1 = e2 -> bind e1 f = bind e2 f) by (intros ? ? ? ->; auto).
    pose proof (opt_commute o d c) as K. rewrite <- !bind_assoc. apply E. apply K.
    + intros X. apply Hni. left. congruence.
    + intros [X Y]. apply Hps. rewrite X, Y. cbn. auto.
    + intros [X Y]. apply Hps. rewrite X, Y. cbn. auto.
  - rewrite IH1 by auto. apply IH2.
    + eapply Permutation_NoDup; [apply Permutation_map; eauto|auto].
    + intros [X Y]. apply Hps. split; eapply Permutation_in; [apply Permutation_sym, Permutation_map; eauto|auto|apply Permutation_sym, Permutation_map; eauto|auto].
Qed.

(** C15: the order of options with distinct letters does not matter, unless both -p
    and -s are given. *)
Theorem C15_order_partial : forall cs cs' operand, Permutation cs cs' -> NoDup (map letter_of cs) ->
  ~ (In Lp (map letter_of cs) /\ In Ls (map letter_of cs)) -> getmnsopts cs operand = getmnsopts cs' operand.
Proof. intros cs cs' operand HP HN Hps. unfold getmnsopts. now rewrite (fold_commute cs cs' HP HN Hps). Qed.
Print Assumptions C15_order_partial.

(** C15 is false for the start number: -p PATH always changes it to the number PATH
    begins with (0 for most paths), so -s must come after -p. *)
Theorem C15_path_sets_start_refuted :
  (forall cs path o, ofold opt_step (cs ++ [Op path]) initmnsopts = Ok o -> start o = atoi path)
  /\ exists o, ofold opt_step [Os (chars "16"); Op (chars "out")] initmnsopts = Ok o /\ ~ start_intended [Os (chars "16"); Op (chars "out")] o.
Proof.
  split.
  - intros cs path o H. rewrite ofold_snoc in H. destruct (ofold opt_step cs initmnsopts); cbn in H; try discriminate. injection H as <-. reflexivity.
  - eexists. split; [reflexivity|]. unfold start_intended. vm_compute. discriminate.
Qed.
Print Assumptions C15_path_sets_start_refuted.

(** C15 is false for a repeated -X whose last occurrence has an empty name: a name of
    the earlier one stays in use. *)
Theorem C15_stale_names_refuted : exists o,
  let cs := [OX (chars "p,q,r"); OX (chars "a,,b")] in
  ofold opt_step cs initmnsopts = Ok o /\ ~ dims_intended LX cs (xdims o) (xdims_len o).
Proof.
  destruct (C15_accepted [OX (chars "p,q,r"); OX (chars "a,,b")] true) as (o & E).
  { intros a [[X|[X|[]]]|[X|[X|[]]]]; try discriminate; injection X as <-; vm_compute; discriminate. }
  unfold getmnsopts in E. destruct (ofold opt_step [OX (chars "p,q,r"); OX (chars "a,,b")] initmnsopts) as [o'| |] eqn:E'; cbn [bind] in E; try discriminate.
  exists o'. cbv zeta. split; auto. intros H. destruct (H (chars "r")) as [H1 _].
  assert (K : instringlist (xdims o') (Some (chars "r")) (xdims_len o') = Ok true).
  { destruct (run_dims _ _ E') as [HX _]. clear -HX. revert HX. generalize (xdims o') (xdims_len o'). intros l n HX. vm_compute in HX. injection HX as <- <-. reflexivity. }
  destruct (H1 K) as (a & Ea & Ha). vm_compute in Ea. injection Ea as <-. vm_compute in Ha. destruct Ha as [X|[X|[]]]; discriminate.
Qed.
Print Assumptions C15_stale_names_refuted.

(** A concrete command line: -x 2 -y 3 -X lon,x -p out -s 16 -n -x 4 *)
Example C15_example :
  let cs := [Ox (chars "2"); Oy (chars "3"); OX (chars "lon,x"); Op (chars "out"); Os (chars "16"); On; Ox (chars "4")] in
  exists o, ofold opt_step cs initmnsopts = Ok o /\ no_p_after_s cs /\ zlen (args LX cs) <= 1
   /\ nx o = 4 /\ ny o = 3 /\ start o = 16 /\ prefix o = Some (chars "out") /\ dryrun o = 1 /\ width o = 4 /\ instringlist (xdims o) (Some (chars "x")) (xdims_len o) = Ok true.
Proof.
  cbv zeta. eexists. split; [vm_compute; reflexivity|]. split.
  { intros pre a post E. exists (chars "16"). destruct pre as [|? [|? [|? [|? [|? [|? [|? [|? ?]]]]]]]]; try discriminate; cbn in E; try discriminate.
    injection E as <- <- <- <- <-. cbn. auto. }
  vm_compute. repeat split; congruence.
Qed.
