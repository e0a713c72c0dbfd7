(** * C52: ncexists *)
From Coq Require Import String.
From Verif Require Import Base Str M_NcExists.
Open Scope string_scope. Open Scope list_scope. Open Scope Z_scope.

(** The value of an option is that of its last occurrence; [get] picks the option's kind. *)
Definition get_file o := match o with OFile s => Some s | _ => None end.
Definition get_global o := match o with OGlobal s => Some s | _ => None end.
Definition get_var o := match o with OVar s => Some s | _ => None end.
Definition get_att o := match o with OAtt s => Some s | _ => None end.
Definition last_value (get : opt -> option str) (l : list opt) (s : str) : Prop :=
  exists pre o post, l = pre ++ o :: post /\ get o = Some s /\ forall o', In o' post -> get o' = None.
Definition absent (get : opt -> option str) (l : list opt) : Prop := forall o, In o l -> get o = None.
(** Only the four options that ask a question *)
Definition plain (l : list opt) : Prop := forall o, In o l -> o <> OHelp /\ o <> OVersion /\ o <> OBad.

Definition value_is (get : opt -> option str) (l : list opt) (d x : option str) : Prop :=
  (absent get l /\ x = d) \/ (exists s, last_value get l s /\ x = Some s).
Lemma value_cons_some get o l d s x : get o = Some s -> value_is get l (Some s) x -> value_is get (o :: l) d x.
Proof.
  intros Ho [[Ha ->]|(t & (pre & o' & post & -> & Hg & Hp) & ->)]; right; [exists s|exists t]; (split; [|reflexivity]).
  - exists [], o, l. auto.
  - exists (o :: pre), o', post. auto.
Qed.
Lemma value_cons_none get o l d x : get o = None -> value_is get l d x -> value_is get (o :: l) d x.
Proof.
  intros Ho [[Ha ->]|(t & (pre & o' & post & -> & Hg & Hp) & ->)]; [left|right; exists t]; (split; [|reflexivity]).
  - intros o' [<-|H]; auto.
  - exists (o :: pre), o', post. auto.
Qed.
Lemma parse_spec l : plain l -> forall f g v a, exists f' g' v' a', parse (f, g, v, a) l = inl (f', g', v', a') /\
  value_is get_file l f f' /\ value_is get_global l g g' /\ value_is get_var l v v' /\ value_is get_att l a a'.
Proof.
  induction l as [|o l IH]; intros Hp f g v a.
  - exists f, g, v, a. split; auto. repeat split; left; (split; [intros ? []|reflexivity]).
  - assert (Hl : plain l) by (intros x Hx; apply Hp; right; auto). specialize (IH Hl). destruct (Hp o (or_introl eq_refl)) as (H1 & H2 & H3).
    destruct o as [s|s|s|s| | |]; try congruence; cbn [parse].
    + destruct (IH (Some s) g v a) as (f' & g' & v' & a' & E & P1 & P2 & P3 & P4). exists f', g', v', a'. split; auto.
      split; [eapply value_cons_some; eauto; reflexivity|]. repeat split; apply value_cons_none; auto.
    + destruct (IH f (Some s) v a) as (f' & g' & v' & a' & E & P1 & P2 & P3 & P4). exists f', g', v', a'. split; auto.
      split; [apply value_cons_none; auto|]. split; [eapply value_cons_some; eauto; reflexivity|]. split; apply value_cons_none; auto.
    + destruct (IH f g (Some s) a) as (f' & g' & v' & a' & E & P1 & P2 & P3 & P4). exists f', g', v', a'. split; auto.
      split; [apply value_cons_none; auto|]. split; [apply value_cons_none; auto|]. split; [eapply value_cons_some; eauto; reflexivity|apply value_cons_none; auto].
    + destruct (IH f g v (Some s)) as (f' & g' & v' & a' & E & P1 & P2 & P3 & P4). exists f', g', v', a'. split; auto.
      split; [apply value_cons_none; auto|]. split; [apply value_cons_none; auto|]. split; [apply value_cons_none; auto|eapply value_cons_some; eauto; reflexivity].
Qed.
Lemma last_app get l s : last_value get l s -> absent get l -> False.
Proof. intros (pre & o & post & -> & Hg & _) Ha. rewrite (Ha o) in Hg; [discriminate|]. apply in_or_app. right. left. auto. Qed.
Lemma last_fun (get : opt -> option str) : forall pre o post pre' o' post' s s', pre ++ o :: post = pre' ++ o' :: post' ->
  get o = Some s -> get o' = Some s' -> (forall x, In x post -> get x = None) -> (forall x, In x post' -> get x = None) -> s = s'.
Proof.
  induction pre as [|p pre IH]; intros o post pre' o' post' s s' E Hs Hs' Hp Hp'; destruct pre' as [|p' pre']; cbn in E; inversion E; subst.
  - congruence.
  - rewrite (Hp o') in Hs'; [discriminate|]. apply in_or_app. right. left. auto.
  - rewrite (Hp' o) in Hs; [discriminate|]. apply in_or_app. right. left. auto.
  - eapply IH; eauto.
Qed.
Lemma value_last get l s x : last_value get l s -> value_is get l None x -> x = Some s.
Proof.
  intros Hs [[Ha _]|(t & Ht & ->)]; [elim (last_app _ _ _ Hs Ha)|]. destruct Hs as (a & o & b & E & H1 & H2), Ht as (a' & o' & b' & E' & H1' & H2').
  f_equal. symmetry. rewrite E in E'. eapply last_fun; eauto.
Qed.
Lemma value_absent get l x : absent get l -> value_is get l None x -> x = None.
Proof. intros Ha [[_ ->]|(t & Ht & _)]; auto. elim (last_app _ _ _ Ht Ha). Qed.
Lemma mem_In s l : mem s l = true <-> In s l.
Proof. unfold mem. rewrite existsb_exists. split; [intros (x & Hx & E); apply str_eqb_spec in E; now subst|intros H; exists s; split; auto; apply str_eqb_refl]. Qed.
Lemma atts_some v l a : NoDup (map fst l) -> var_atts v l = Some a <-> In (v, a) l.
Proof.
  induction l as [|[n b] l IH]; cbn; intros Hd; [split; [discriminate|intros []]|]. inversion Hd; subst. destruct (str_eqb n v) eqn:E.
  - apply str_eqb_spec in E. subst. split; [intros Q; injection Q as ->; auto|]. intros [Q|Q]; [congruence|]. elim H1. apply (in_map fst) in Q. exact Q.
  - rewrite (IH H2). split; auto. intros [Q|Q]; auto. injection Q as -> ->. rewrite str_eqb_refl in E. discriminate.
Qed.
Lemma atts_none v l : var_atts v l = None -> forall a, ~ In (v, a) l.
Proof.
  induction l as [|[n b] l IH]; cbn; intros E a; [intros []|]. destruct (str_eqb n v) eqn:En; [discriminate|]. intros [Q|Q]; [|eapply IH; eauto].
  injection Q as -> ->. rewrite str_eqb_refl in En. discriminate.
Qed.

(** C52: with a readable file, the answer is 1 exactly if the global attribute exists; or, when
    no global attribute is asked for, exactly if the variable exists, or the variable with
    the attribute. *)
Theorem C52_exact open l file c : plain l -> last_value get_file l file -> open file = Some c -> NoDup (map fst (g_vars c)) ->
  (forall g, last_value get_global l g -> exists b, ncexists open l = Printed b /\ (b = true <-> In g (g_atts c))) /\
  (forall v, absent get_global l -> last_value get_var l v -> absent get_att l ->
     exists b, ncexists open l = Printed b /\ (b = true <-> exists atts, In (v, atts) (g_vars c))) /\
  (forall v a, absent get_global l -> last_value get_var l v -> last_value get_att l a ->
     exists b, ncexists open l = Printed b /\ (b = true <-> exists atts, In (v, atts) (g_vars c) /\ In a atts)).
Proof.
  intros Hp Hf Ho Hd. destruct (parse_spec l Hp None None None None) as (f' & g' & v' & a' & E & P1 & P2 & P3 & P4).
  rewrite (value_last _ _ _ _ Hf P1) in E.
  assert (Hne : exists o0 l0, l = o0 :: l0) by (destruct l as [|o0 l0]; [destruct Hf as ([|] & ? & ? & Q & _); discriminate|eauto]).
  destruct Hne as (o0 & l0 & El). unfold ncexists. rewrite El. rewrite <- El, E.
  split; [|split].
  - intros g Hg. rewrite (value_last _ _ _ _ Hg P2). rewrite Ho. eexists. split; [reflexivity|]. apply mem_In.
  - intros v Hng Hv Hna. rewrite (value_absent _ _ _ Hng P2), (value_last _ _ _ _ Hv P3), (value_absent _ _ _ Hna P4), Ho.
    destruct (var_atts v (g_vars c)) as [atts|] eqn:Ev; eexists; (split; [reflexivity|]).
    + apply atts_some in Ev; auto. split; eauto.
    + split; [discriminate|]. intros (a & H). elim (atts_none _ _ Ev a H).
  - intros v a Hng Hv Ha. rewrite (value_absent _ _ _ Hng P2), (value_last _ _ _ _ Hv P3), (value_last _ _ _ _ Ha P4), Ho.
    destruct (var_atts v (g_vars c)) as [atts|] eqn:Ev; eexists; (split; [reflexivity|]).
    + apply atts_some in Ev; auto. rewrite mem_In. split; [eauto|]. intros (b & H1 & H2). apply (atts_some _ _ _ Hd) in H1. apply (atts_some _ _ _ Hd) in Ev. congruence.
    + split; [discriminate|]. intros (b & H & _). elim (atts_none _ _ Ev b H).
Qed.
(** Without a file name, a readable file, or something to look for, nothing is answered and the
    program fails. *)
Theorem C52_fails open l : plain l ->
  absent get_file l \/ (absent get_global l /\ absent get_var l) \/ (exists file, last_value get_file l file /\ open file = None) ->
  ncexists open l = Exits false.
Proof.
  intros Hp H. destruct (parse_spec l Hp None None None None) as (f' & g' & v' & a' & E & P1 & P2 & P3 & P4).
  destruct l as [|o0 l0]; [reflexivity|]. unfold ncexists. rewrite E. destruct H as [H|[[Hg Hv]|(file & Hf & Ho)]].
  - rewrite (value_absent _ _ _ H P1). reflexivity.
  - rewrite (value_absent _ _ _ Hg P2), (value_absent _ _ _ Hv P3). destruct f'; reflexivity.
  - rewrite (value_last _ _ _ _ Hf P1), Ho. destruct g', v'; reflexivity.
Qed.
(** Asking for help or for the version succeeds without an answer, an unknown option fails; the first of
    them decides. *)
Theorem C52_other open pre o post : plain pre ->
  (o = OHelp \/ o = OVersion -> ncexists open (pre ++ o :: post) = Exits true) /\
  (o = OBad -> ncexists open (pre ++ o :: post) = Exits false).
Proof.
  intros Hp. assert (P : forall st, parse st (pre ++ o :: post) = match o with OHelp | OVersion => inr true | OBad => inr false | _ => parse st (pre ++ o :: post) end).
  { induction pre as [|q pre IH]; intros [[[f g] v] a]; [destruct o; reflexivity|]. assert (Hl : plain pre) by (intros x Hx; apply Hp; right; auto).
    destruct (Hp q (or_introl eq_refl)) as (H1 & H2 & H3). destruct q; try congruence; cbn [app parse]; rewrite (IH Hl); destruct o; reflexivity. }
  assert (N : ncexists open (pre ++ o :: post) = match parse (None, None, None, None) (pre ++ o :: post) with inr b => Exits b | inl _ => ncexists open (pre ++ o :: post) end).
  { destruct (pre ++ o :: post) as [|q l] eqn:E; [destruct pre; discriminate|]. unfold ncexists. destruct (parse _ _) as [[[[f g] v] a]|b]; reflexivity. }
  rewrite N, P. split; [intros [-> | ->]|intros ->]; reflexivity.
Qed.
(** Finding: a variable given together with a global attribute is not looked at. *)
Theorem C52_both_refuted open file c g v : open file = Some c -> In g (g_atts c) ->
  ncexists open [OFile file; OGlobal g; OVar v] = Printed true.
Proof. intros Ho Hg. unfold ncexists. cbn. rewrite Ho. f_equal. now apply mem_In. Qed.

(** Hypotheses met: options in any order, the last one of a kind counts *)
Example C52_example : let c := {| g_atts := [chars "title"]; g_vars := [(chars "t", [chars "units"])] |} in
  let l := [OAtt (chars "units"); OVar (chars "x"); OFile (chars "f"); OVar (chars "t")] in
  plain l /\ last_value get_var l (chars "t") /\ absent get_global l /\ NoDup (map fst (g_vars c)) /\ ncexists (fun _ => Some c) l = Printed true.
Proof.
  cbv zeta. split; [intros o [<-|[<-|[<-|[<-|[]]]]]; repeat split; discriminate|]. split; [|split; [intros o [<-|[<-|[<-|[<-|[]]]]]; reflexivity|split; [repeat constructor; intros []|vm_compute; reflexivity]]].
  exists [OAtt (chars "units"); OVar (chars "x"); OFile (chars "f")], (OVar (chars "t")), []. repeat split. intros o [].
Qed.
Print Assumptions C52_exact.
Print Assumptions C52_fails.
Print Assumptions C52_other.
Print Assumptions C52_both_refuted.
