(** * The clipping passes as list functions, for every arithmetic *)
From Verif Require Import Base Loops Lst M_Clip.

Section Walk.
Variable A : arith.
Notation pt := (pt A).
Variables (inside : pt -> bool) (cross : pt -> pt -> pt).

Definition turn (a b : pt) : list pt := (if negb (Bool.eqb (inside b) (inside a)) then [cross a b] else []) ++ (if inside b then [b] else []).
Fixpoint walk (a : pt) (l : list pt) : list pt := match l with [] => [] | b :: l => turn a b ++ walk b l end.
Definition cut (P : list pt) : list pt := match P with [] => [] | p :: _ => walk (last P p) P end.

Lemma last_cons_indep (p d d' : pt) l : last (p :: l) d = last (p :: l) d'.
Proof. revert p. induction l as [|q l IH]; intros p; cbn; auto. cbn in IH. apply IH. Qed.

Lemma last_step (b a : pt) l : last (b :: l) a = last l b.
Proof. destruct l as [|q l]; auto. change (last (q :: l) a = last (q :: l) b). apply last_cons_indep. Qed.

Lemma push_ok cap l (v : pt) : zlen l + 1 <= cap -> push A cap l v = Ok (l ++ [v]).
Proof. intros H. unfold push. destruct (Z.ltb_spec (zlen l) cap); [auto|lia]. Qed.

Lemma steps_ok cap l : forall a out, zlen (out ++ walk a l) <= cap ->
  ofold (stage_step A inside cross cap) l (a, inside a, out) = Ok (last l a, inside (last l a), out ++ walk a l).
Proof.
  induction l as [|b l IH]; intros a out H; cbn [ofold walk]. { now rewrite app_nil_r. }
  assert (E : stage_step A inside cross cap (a, inside a, out) b = Ok (b, inside b, out ++ turn a b)).
  { cbn [walk] in H. rewrite !zlen_app in H. pose proof (zlen_nonneg (walk b l)). unfold stage_step, turn. unfold turn in H. rewrite !zlen_app in H.
    destruct (negb _); destruct (inside b); cbn [app]; rewrite ?push_ok; cbn [bind]; rewrite ?push_ok; cbn [bind]; rewrite <- ?app_assoc, ?app_nil_r; cbn [app]; auto;
    rewrite ?zlen_app; change (zlen [b]) with 1 in *; change (zlen [cross a b]) with 1 in *; change (zlen (@nil pt)) with 0 in *; lia. }
  rewrite E. cbn [bind]. rewrite IH. 2: { cbn [walk] in H. rewrite <- app_assoc. exact H. }
  rewrite <- app_assoc. rewrite last_step. reflexivity.
Qed.

Lemma zget_last (P : list pt) d : P <> [] -> zget P (zlen P - 1) = Some (last P d).
Proof.
  clear inside cross. intros H. destruct (exists_last H) as (l & x & ->). rewrite last_last. rewrite zlen_app. change (zlen [x]) with 1. rewrite zget_app_r by lia. now replace (zlen l + 1 - 1 - zlen l) with 0 by lia.
Qed.

Lemma stage_ok cap P : P <> [] -> zlen (cut P) <= cap -> stage A inside cross cap P = Ok (cut P).
Proof.
  intros H L. unfold stage. destruct P as [|p P]; [contradiction|]. rewrite (proj2 (oget_Ok _ _ _) (zget_last (p :: P) p H)). cbn [bind]. unfold cut in *. rewrite steps_ok; cbn [bind snd app]; auto.
Qed.

(** The number of vertices. *)
Definition nin (l : list pt) : Z := zlen (filter inside l).
Definition b2z (b : bool) : Z := if b then 1 else 0.
Lemma turn_len a b : zlen (turn a b) = b2z (negb (Bool.eqb (inside b) (inside a))) + b2z (inside b).
Proof. unfold turn. rewrite zlen_app. destruct (negb _); destruct (inside b); reflexivity. Qed.
Lemma nin_cons b l : nin (b :: l) = b2z (inside b) + nin l.
Proof. unfold nin. cbn [filter]. destruct (inside b); cbn [b2z]; rewrite ?zlen_cons; lia. Qed.

Lemma walk_len l : forall a, zlen (walk a l) <= 3 * nin l + b2z (inside a) - b2z (inside (last l a))
  /\ zlen (walk a l) <= 2 * zlen l - nin l - b2z (inside a) + b2z (inside (last l a)).
Proof.
  induction l as [|b l IH]; intros a; cbn [walk].
  - cbn [last]. change (nin []) with 0. change (zlen (@nil pt)) with 0. lia.
  - rewrite zlen_app, turn_len, nin_cons, zlen_cons. rewrite last_step. specialize (IH b). destruct (inside b), (inside a); cbn [negb Bool.eqb b2z] in *; lia.
Qed.

Lemma cut_len P : 2 * zlen (cut P) <= 3 * zlen P.
Proof.
  unfold cut. destruct P as [|p P]; [reflexivity|]. pose proof (walk_len (p :: P) (last (p :: P) p)) as H. rewrite (last_cons_indep p (last (p :: P) p) p) in H. lia.
Qed.

Lemma walk_in l : forall a v, In v (walk a l) -> (exists b, In b l /\ inside b = true /\ v = b) \/ exists p q, In p (a :: l) /\ In q l /\ inside p <> inside q /\ v = cross p q.
Proof.
  induction l as [|b l IH]; intros a v H; cbn [walk] in H; [contradiction|]. apply in_app_or in H. destruct H as [H|H].
  - unfold turn in H. apply in_app_or in H. destruct H as [H|H].
    + destruct (negb _) eqn:E; [|contradiction]. destruct H as [<-|[]]. right. exists a, b. split; [now left|]. split; [now left|]. split; auto. intros K. rewrite K in E. now rewrite Bool.eqb_reflx in E.
    + destruct (inside b) eqn:E; [|contradiction]. destruct H as [<-|[]]. left. exists b. split; [now left|]. auto.
  - apply IH in H. destruct H as [(c & H1 & H2)|(p & q & H1 & H2 & H3)]. + left. exists c. split; [now right|]. auto. + right. exists p, q. split; [now right|]. split; [now right|]. auto.
Qed.
Lemma last_In (P : list pt) d : P <> [] -> In (last P d) P.
Proof. intros H. destruct (exists_last H) as (l & x & ->). rewrite last_last. apply in_or_app. right. now left. Qed.
Lemma cut_in P v : In v (cut P) -> (In v P /\ inside v = true) \/ exists p q, In p P /\ In q P /\ inside p <> inside q /\ v = cross p q.
Proof.
  unfold cut. destruct P as [|p0 P]; [contradiction|]. intros H. apply walk_in in H. destruct H as [(b & H1 & H2 & ->)|(p & q & H1 & H2)]; [left; auto|]. right. exists p, q. split; auto. destruct H1 as [<-|]; auto. apply last_In. discriminate.
Qed.

Lemma walk_all l : forall a, inside a = true -> (forall b, In b l -> inside b = true) -> walk a l = l.
Proof.
  induction l as [|b l IH]; intros a Ha H; cbn [walk]; auto. unfold turn. rewrite (H b), Ha by now left. cbn [Bool.eqb negb app]. f_equal. apply IH; [apply H; now left|]. intros c Hc. apply H. now right.
Qed.
Lemma cut_all P : (forall b, In b P -> inside b = true) -> cut P = P.
Proof. intros H. unfold cut. destruct P as [|p P]; auto. apply walk_all; auto. apply H, last_In. discriminate. Qed.
Lemma walk_none l : forall a, inside a = false -> (forall b, In b l -> inside b = false) -> walk a l = [].
Proof.
  induction l as [|b l IH]; intros a Ha H; cbn [walk]; auto. unfold turn. rewrite (H b), Ha by now left. cbn [Bool.eqb negb app]. apply IH; [apply H; now left|]. intros c Hc. apply H. now right.
Qed.
Lemma cut_none P : (forall b, In b P -> inside b = false) -> cut P = [].
Proof. intros H. unfold cut. destruct P as [|p P]; auto. apply walk_none; auto. apply H, last_In. discriminate. Qed.
End Walk.

Section Clip.
Variable A : arith.
Notation pt := (pt A).
(** The four passes on lists. *)
Definition box_cut (P : list pt) x0 y0 x1 y1 : list pt :=
  cut A (in_top A y1) (cross_y A y1) (cut A (in_bottom A y0) (cross_y A y0) (cut A (in_right A x1) (cross_x A x1) (cut A (in_left A x0) (cross_x A x0) P))).

Lemma zlen_0 {T} (l : list T) : zlen l = 0 -> l = [].
Proof. destruct l; auto. rewrite zlen_cons. pose proof (zlen_nonneg l). lia. Qed.

(** Every polygon of at most [n] vertices fits when 19n/4 does. *)
Lemma clip_ok capt capo P x0 y0 x1 y1 : P <> [] ->
  let n1 := 3 * zlen P / 2 in let n2 := 3 * n1 / 2 in let n3 := 3 * n2 / 2 in let n4 := 3 * n3 / 2 in
  n1 <= capt -> n3 <= capt -> n2 <= capo -> n4 <= capo -> clip A capt capo P x0 y0 x1 y1 = Ok (box_cut P x0 y0 x1 y1).
Proof.
  intros HP n1 n2 n3 n4 H1 H3 H2 H4. unfold clip, box_cut.
  assert (D : forall a b, 2 * a <= 3 * b -> a <= 3 * b / 2) by (intros a b K; apply Z.div_le_lower_bound; lia).
  assert (M : forall a b, a <= b -> 3 * a / 2 <= 3 * b / 2) by (intros a b K; apply Z.div_le_mono; lia).
  set (p1 := cut A (in_left A x0) (cross_x A x0) P). assert (L1 : zlen p1 <= n1) by (apply D, cut_len).
  rewrite stage_ok; fold p1; auto; [|lia]. cbn [bind]. destruct (Z.eqb_spec (zlen p1) 0) as [E|E]. { apply zlen_0 in E. rewrite E. reflexivity. }
  set (p2 := cut A (in_right A x1) (cross_x A x1) p1). assert (L2 : zlen p2 <= n2) by (eapply Z.le_trans; [apply D, cut_len|apply M, L1]).
  rewrite stage_ok; fold p2; auto; [| |lia]. 2: { intros K. rewrite K in E. now apply E. } cbn [bind]. destruct (Z.eqb_spec (zlen p2) 0) as [E2|E2]. { apply zlen_0 in E2. rewrite E2. reflexivity. }
  set (p3 := cut A (in_bottom A y0) (cross_y A y0) p2). assert (L3 : zlen p3 <= n3) by (eapply Z.le_trans; [apply D, cut_len|apply M, L2]).
  rewrite stage_ok; fold p3; auto; [| |lia]. 2: { intros K. rewrite K in E2. now apply E2. } cbn [bind]. destruct (Z.eqb_spec (zlen p3) 0) as [E3|E3]. { apply zlen_0 in E3. rewrite E3. reflexivity. }
  set (p4 := cut A (in_top A y1) (cross_y A y1) p3). assert (L4 : zlen p4 <= n4) by (eapply Z.le_trans; [apply D, cut_len|apply M, L3]).
  rewrite stage_ok; fold p4; auto; [|lia]. intros K. rewrite K in E3. now apply E3.
Qed.

(** fix_lon. *)
Lemma delete_len (l : list pt) k : 0 <= k < zlen l -> zlen (delete_vtx A l k) = zlen l - 1.
Proof. intros H. unfold delete_vtx, zlen in *. rewrite app_length, firstn_length, skipn_length. lia. Qed.
Lemma insert_ok cap (l : list pt) k v : zlen l < cap -> 0 <= k -> exists l', insert_vtx A cap l k v = Ok l' /\ zlen l' = zlen l + 1.
Proof.
  intros H Hk. unfold insert_vtx. destruct (Z.ltb_spec (zlen l) cap); [|lia]. eexists. split; eauto. unfold zlen in *. rewrite app_length. cbn [length]. rewrite firstn_length, skipn_length. lia.
Qed.
Lemma get_ok (l : list pt) i : 0 <= i < zlen l -> exists p, oget l i = Ok p.
Proof. intros H. destruct (zget_in_range l i H) as (p & E). exists p. now apply oget_Ok. Qed.

Lemma pair_ok cap n : 2 * n <= cap -> forall fuel l i, 0 <= i -> i <= zlen l -> 2 * zlen l - i <= 2 * n -> zlen l - i < Z.of_nat fuel -> exists l', pair_poles A fuel cap l i = Ok l' /\ zlen l' <= 2 * n.
Proof.
  intros Hn. induction fuel as [|fuel IH]; intros l i Hi Hl Hm Hf.
  { lia. }
  cbn [pair_poles]. destruct (Z.ltb_spec i (zlen l)); cbn [negb]. 2: { exists l. split; auto. lia. }
  destruct (get_ok l i ltac:(lia)) as (p & E). rewrite E. cbn [bind].
  assert (N : exists l', pair_poles A fuel cap l (i + 1) = Ok l' /\ zlen l' <= 2 * n) by (apply IH; lia).
  destruct (at_pole A p); auto.
  pose proof (Z.mod_pos_bound (i + zlen l - 1) (zlen l) ltac:(lia)). pose proof (Z.mod_pos_bound (i + 1) (zlen l) ltac:(lia)).
  destruct (get_ok l ((i + zlen l - 1) mod zlen l) ltac:(lia)) as (a & Ea). destruct (get_ok l ((i + 1) mod zlen l) ltac:(lia)) as (b & Eb). rewrite Ea, Eb. cbn [bind].
  destruct (_ && _). { apply IH; rewrite ?delete_len; lia. }
  destruct (_ && _); auto. destruct (insert_ok cap l i p ltac:(lia) ltac:(lia)) as (l' & E' & L'). rewrite E'. cbn [bind]. apply IH; lia.
Qed.
Lemma oset_get (l : list pt) i v : 0 <= i < zlen l -> exists l', oset l i v = Ok l' /\ zlen l' = zlen l.
Proof. intros H. destruct (zset_Some l i v H) as (l' & E). exists l'. split; [now apply oset_Ok|]. eapply zset_len; eauto. Qed.

Lemma pole_lon_ok (l : list pt) i : 0 <= i < zlen l -> exists l', pole_lon A l i = Ok l' /\ zlen l' = zlen l.
Proof.
  intros H. unfold pole_lon. destruct (get_ok l i H) as (p & E). rewrite E. cbn [bind]. destruct (at_pole A p); [|eauto].
  pose proof (Z.mod_pos_bound (i + zlen l - 1) (zlen l) ltac:(lia)). pose proof (Z.mod_pos_bound (i + 1) (zlen l) ltac:(lia)).
  destruct (get_ok l ((i + zlen l - 1) mod zlen l) ltac:(lia)) as (a & Ea). destruct (get_ok l ((i + 1) mod zlen l) ltac:(lia)) as (b & Eb). rewrite Ea, Eb. cbn [bind].
  match goal with |- context [oset l i ?v] => destruct (oset_get l i v H) as (l1 & E1 & L1) end. rewrite E1. cbn [bind].
  match goal with |- context [oset l1 i ?v] => destruct (oset_get l1 i v ltac:(lia)) as (l2 & E2 & L2) end. exists l2. split; auto. lia.
Qed.
Lemma twin_ok cap (l : list pt) is : zlen l + 2 <= cap -> (forall i, In i is -> 0 <= i < zlen l) -> exists l', twin_poles A cap l is = Ok l' /\ zlen l <= zlen l' <= zlen l + 2.
Proof.
  intros Hc. induction is as [|i is IH]; intros Hi; cbn [twin_poles]. { exists l. split; auto. lia. }
  assert (H : 0 <= i < zlen l) by (apply Hi; now left). destruct (get_ok l i H) as (p & E). rewrite E. cbn [bind].
  pose proof (Z.mod_pos_bound (i + zlen l - 1) (zlen l) ltac:(lia)). destruct (get_ok l ((i + zlen l - 1) mod zlen l) ltac:(lia)) as (a & Ea). rewrite Ea. cbn [bind].
  destruct (_ || _). 2: { apply IH. intros k Hk. apply Hi. now right. }
  match goal with |- context [insert_vtx A cap l i ?v] => destruct (insert_ok cap l i v ltac:(lia) ltac:(lia)) as (l1 & E1 & L1) end. rewrite E1. cbn [bind].
  match goal with |- context [insert_vtx A cap l1 i ?v] => destruct (insert_ok cap l1 i v ltac:(lia) ltac:(lia)) as (l2 & E2 & L2) end. exists l2. split; auto. lia.
Qed.
Lemma unwrap_ok (l : list pt) t : exists l', unwrap A l t = Ok l' /\ zlen l' = zlen l.
Proof.
  destruct l as [|p0 l0]; [exists []; auto|]. unfold unwrap. cbv iota. set (l := p0 :: l0).
  assert (Hl : 1 <= zlen l). { unfold l. rewrite zlen_cons. pose proof (zlen_nonneg l0). lia. } clearbody l.
  match goal with |- context [ofor 1 (zlen l - 1) ?f ?s] => destruct (ofor_inv (fun _ '(l', _) => zlen l' = zlen l) f 1 (zlen l - 1) s) as ((l1 & xs) & E1 & L1) end.
  - lia.
  - reflexivity.
  - intros i (l1, xs) Hi L1. cbv beta iota in L1 |- *. change (@zlen pt l1 = @zlen pt l) in L1. destruct (get_ok l1 i ltac:(lia)) as (p & E). destruct (get_ok l1 (i - 1) ltac:(lia)) as (m & E'). rewrite E, E'. cbn [bind].
    match goal with |- context [oset l1 i ?v] => destruct (oset_get l1 i v ltac:(lia)) as (l2 & E2 & L2) end. rewrite E2. cbn [bind]. eexists. split; [reflexivity|]. exact (eq_trans L2 L1).
  - match goal with |- exists l', bind ?x _ = _ /\ _ => replace x with (Ok (l1, xs)) end. cbn [bind]. repeat match goal with |- context [if ?c then _ else _] => destruct c end; eexists; (split; [reflexivity|]); rewrite ?zlen_map; auto.
Qed.

Lemma fix_lon_ok cap n l t : zlen l <= n -> 2 * n + 2 <= cap -> exists l', fix_lon A cap l t = Ok l' /\ zlen l' <= 2 * n + 2.
Proof.
  intros Hl Hc. unfold fix_lon. pose proof (zlen_nonneg l).
  destruct (pair_ok cap n ltac:(lia) (2 * length l + 2)%nat l 0 ltac:(lia) ltac:(lia) ltac:(lia)) as (l1 & E1 & L1). { unfold zlen. lia. }
  rewrite E1. cbn [bind]. pose proof (zlen_nonneg l1).
  match goal with |- context [ofor 0 (zlen l1) ?f ?s] => destruct (ofor_inv (fun _ l' => zlen l' = zlen l1) f 0 (zlen l1) s) as (l2 & E2 & L2) end; auto; try lia.
  { intros i l' Hi Hl'. destruct (pole_lon_ok l' i ltac:(lia)) as (l'' & E'' & L''). exists l''. split; auto. lia. }
  rewrite E2. cbn [bind]. destruct (twin_ok cap l2 (zseq 0 (zlen l2)) ltac:(lia)) as (l3 & E3 & L3). { intros i Hi. apply In_zseq in Hi. lia. }
  rewrite E3. cbn [bind]. destruct (unwrap_ok l3 t) as (l4 & E4 & L4). exists l4. split; auto. lia.
Qed.
End Clip.

Section Inv.
Variable A : arith.
Notation pt := (pt A).
Lemma push_inv cap l (v : pt) l' : push A cap l v = Ok l' -> l' = l ++ [v].
Proof. unfold push. destruct (_ <? _); [|discriminate]. intros H. now inversion H. Qed.
Lemma steps_inv inside cross cap l : forall a out s, ofold (stage_step A inside cross cap) l (a, inside a, out) = Ok s -> snd s = out ++ walk A inside cross a l.
Proof.
  induction l as [|b l IH]; intros a out s H; cbn [ofold walk] in *. { inversion H. cbn [snd]. now rewrite app_nil_r. }
  assert (E : forall s, stage_step A inside cross cap (a, inside a, out) b = Ok s -> s = (b, inside b, out ++ turn A inside cross a b)).
  { intros s0 K. unfold stage_step, turn in *. destruct (negb _); destruct (inside b); cbn [bind app] in *.
    - apply bind_inv in K. destruct K as (o1 & K1 & K). apply push_inv in K1. subst. apply bind_inv in K. destruct K as (o2 & K2 & K). apply push_inv in K2. subst. inversion K. now rewrite <- app_assoc.
    - apply bind_inv in K. destruct K as (o1 & K1 & K). apply push_inv in K1. subst. now inversion K.
    - apply bind_inv in K. destruct K as (o1 & K1 & K). apply push_inv in K1. subst. now inversion K.
    - inversion K. now rewrite app_nil_r. }
  apply bind_inv in H. destruct H as (s1 & K & H). apply E in K. subst s1. apply IH in H. now rewrite app_assoc.
Qed.
Lemma stage_inv inside cross cap P out : stage A inside cross cap P = Ok out -> out = cut A inside cross P /\ P <> [].
Proof.
  unfold stage. intros H. destruct P as [|p P]. { discriminate. } split; [|discriminate]. rewrite (proj2 (oget_Ok _ _ _) (zget_last A (p :: P) p ltac:(discriminate))) in H. cbn [bind] in H. apply bind_inv in H. destruct H as (s & K & H). apply steps_inv in K. inversion H. exact K.
Qed.
Lemma clip_inv capt capo P x0 y0 x1 y1 out : clip A capt capo P x0 y0 x1 y1 = Ok out -> out = box_cut A P x0 y0 x1 y1.
Proof.
  unfold clip, box_cut. intros H. apply bind_inv in H. destruct H as (p1 & K & H). apply stage_inv in K. destruct K as [K _]. rewrite <- K. clear K.
  destruct (Z.eqb_spec (zlen p1) 0) as [E|E]. { apply zlen_0 in E. subst. inversion H. reflexivity. }
  apply bind_inv in H. destruct H as (p2 & K & H). apply stage_inv in K. destruct K as [K _]. rewrite <- K. clear K.
  destruct (Z.eqb_spec (zlen p2) 0) as [E2|E2]. { apply zlen_0 in E2. subst. inversion H. reflexivity. }
  apply bind_inv in H. destruct H as (p3 & K & H). apply stage_inv in K. destruct K as [K _]. rewrite <- K. clear K.
  destruct (Z.eqb_spec (zlen p3) 0) as [E3|E3]. { apply zlen_0 in E3. subst. inversion H. reflexivity. }
  apply stage_inv in H. apply H.
Qed.
End Inv.
