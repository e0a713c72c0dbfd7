(** * Geometry of the clipping passes in exact arithmetic *)
From Coq Require Import Reals Lra List Sorted.
From Verif Require Import Base Loops Lst M_Clip P_Clip Spec_Clip.
Local Open Scope R_scope.

Definition lerp (a b : point) (t : R) : point := (fst a + t * (fst b - fst a), snd a + t * (snd b - snd a)).

Lemma lstep (b a : point) l : last (b :: l) a = last l b.
Proof. exact (last_step RA b a l). Qed.
Lemma lci (p d d' : point) l : last (p :: l) d = last (p :: l) d'.
Proof. exact (last_cons_indep RA p d d' l). Qed.

(** One axis: [X] is a coordinate, [lo c] keeps X >= c, [hi c] keeps X <= c. *)
Section Axis.
Variable X : point -> R.
Hypothesis Xl : forall a b t, X (lerp a b t) = X a + t * (X b - X a).
Hypothesis Xline : forall p q, X p = X q -> forall r, X r = X p -> between p q r \/ between q r p \/ between r p q.
Variable cr : R -> point -> point -> point.
Hypothesis crl : forall c a b, X a <> X b -> cr c a b = lerp a b ((c - X a) / (X b - X a)).
Variables lo hi : R -> point -> bool.
Hypothesis lo_spec : forall c p, lo c p = true <-> c <= X p.
Hypothesis hi_spec : forall c p, hi c p = true <-> X p <= c.

Notation LO c := (cut RA (lo c) (cr c)).
Notation HI c := (cut RA (hi c) (cr c)).

Lemma lo_f c p : lo c p = false <-> X p < c.
Proof. pose proof (lo_spec c p) as H. split; intros K. - destruct (Rlt_dec (X p) c); auto. rewrite (proj2 H) in K by lra. discriminate. - destruct (lo c p); auto. assert (c <= X p) by (apply H; auto). lra. Qed.
Lemma hi_f c p : hi c p = false <-> c < X p.
Proof. pose proof (hi_spec c p) as H. split; intros K. - destruct (Rlt_dec c (X p)); auto. rewrite (proj2 H) in K by lra. discriminate. - destruct (hi c p); auto. assert (X p <= c) by (apply H; auto). lra. Qed.

(** Straddling a value. *)
Definition straddle c a b := (X a <= c <= X b \/ X b <= c <= X a) /\ X a <> X b.
Lemma lo_straddle c a b : lo c a <> lo c b -> straddle c a b.
Proof. pose proof (lo_spec c a). pose proof (lo_spec c b). pose proof (lo_f c a). pose proof (lo_f c b). destruct (lo c a) eqn:E1, (lo c b) eqn:E2; intros K; try congruence; unfold straddle; [assert (c <= X a) by tauto; assert (X b < c) by tauto|assert (c <= X b) by tauto; assert (X a < c) by tauto]; split; lra. Qed.
Lemma hi_straddle c a b : hi c a <> hi c b -> straddle c a b.
Proof. pose proof (hi_spec c a). pose proof (hi_spec c b). pose proof (hi_f c a). pose proof (hi_f c b). destruct (hi c a) eqn:E1, (hi c b) eqn:E2; intros K; try congruence; unfold straddle; [assert (X a <= c) by tauto; assert (c < X b) by tauto|assert (X b <= c) by tauto; assert (c < X a) by tauto]; split; lra. Qed.

Lemma frac c a b : straddle c a b -> 0 <= (c - X a) / (X b - X a) <= 1.
Proof.
  intros [[H|H] N].
  - assert (0 < X b - X a) by lra. split; [apply Rmult_le_pos; [lra|left; now apply Rinv_0_lt_compat]|]. apply (Rmult_le_reg_r (X b - X a)); auto. unfold Rdiv. rewrite Rmult_assoc, Rinv_l by lra. lra.
  - assert (0 < X a - X b) by lra. replace ((c - X a) / (X b - X a)) with ((X a - c) / (X a - X b)) by (field; lra). split; [apply Rmult_le_pos; [lra|left; now apply Rinv_0_lt_compat]|]. apply (Rmult_le_reg_r (X a - X b)); auto. unfold Rdiv. rewrite Rmult_assoc, Rinv_l by lra. lra.
Qed.
Lemma cr_between c a b : straddle c a b -> between a b (cr c a b).
Proof. intros H. exists ((c - X a) / (X b - X a)). split; [now apply frac|]. rewrite crl by apply H. reflexivity. Qed.
Lemma cr_on c a b : straddle c a b -> X (cr c a b) = c.
Proof. intros [_ N]. rewrite crl, Xl by auto. field. lra. Qed.

(** Convexity. *)
Lemma cut_convex (side : point -> bool) c P (K : point -> Prop) :
  (forall a b, side a <> side b -> straddle c a b) -> (forall a b v, K a -> K b -> between a b v -> K v) -> (forall p, In p P -> K p) -> forall v, In v (cut RA side (cr c) P) -> K v.
Proof.
  intros HS HK HP v H. apply cut_in in H. destruct H as [[H _]|(p & q & Hp & Hq & N & ->)]; [auto|]. eapply HK; [exact (HP p Hp)|exact (HP q Hq)|]. apply cr_between, HS. exact N.
Qed.
Lemma LO_side c P v : In v (LO c P) -> c <= X v.
Proof. intros H. apply cut_in in H. destruct H as [[_ H]|(p & q & _ & _ & N & ->)]; [now apply lo_spec|]. rewrite cr_on; [lra|now apply lo_straddle]. Qed.
Lemma HI_side c P v : In v (HI c P) -> X v <= c.
Proof. intros H. apply cut_in in H. destruct H as [[_ H]|(p & q & _ & _ & N & ->)]; [now apply hi_spec|]. rewrite cr_on; [lra|now apply hi_straddle]. Qed.

(** Cutting twice. *)
Lemma cr_twice1 c c' a b : X a < c -> c < c' -> c' <= X b -> cr c' (cr c a b) b = cr c' a b.
Proof.
  intros Ha Hc Hb. assert (E : X (cr c a b) = c) by (apply cr_on; split; lra). rewrite (crl c' (cr c a b) b) by (rewrite E; lra). rewrite E. rewrite (crl c a b), (crl c' a b) by lra. unfold lerp. cbn [fst snd]. f_equal; field; lra.
Qed.
Lemma cr_twice2 c c' a b : X b < c -> c < c' -> c' <= X a -> cr c' a (cr c a b) = cr c' a b.
Proof.
  intros Ha Hc Hb. assert (E : X (cr c a b) = c) by (apply cr_on; split; lra). rewrite (crl c' a (cr c a b)) by (rewrite E; lra). rewrite E. rewrite (crl c a b), (crl c' a b) by lra. unfold lerp. cbn [fst snd]. f_equal; field; lra.
Qed.

Lemma walk_app s k l l' : forall a, walk RA s k a (l ++ l') = walk RA s k a l ++ walk RA s k (last l a) l'.
Proof. induction l as [|b l IH]; intros a; auto. cbn [app walk]. rewrite IH, <- app_assoc. f_equal. f_equal. f_equal. symmetry. apply last_step. Qed.

Lemma lo_mono c c' p : c < c' -> lo c p = false -> lo c' p = false.
Proof. intros H E. apply lo_f in E. apply lo_f. lra. Qed.

Lemma walk_twice c c' : c < c' -> forall l a a', (lo c a = true -> a' = a) -> (lo c a = false -> lo c' a' = false) ->
  walk RA (lo c') (cr c') a' (walk RA (lo c) (cr c) a l) = walk RA (lo c') (cr c') a l.
Proof.
  intros Hc. induction l as [|b l IH]; intros a a' R1 R2; auto. cbn [walk]. rewrite walk_app.
  assert (T : walk RA (lo c') (cr c') a' (turn RA (lo c) (cr c) a b) = turn RA (lo c') (cr c') a b /\ (lo c b = true -> last (turn RA (lo c) (cr c) a b) a' = b) /\ (lo c b = false -> lo c' (last (turn RA (lo c) (cr c) a b) a') = false)).
  { unfold turn at 1 3 4. destruct (lo c a) eqn:Ea, (lo c b) eqn:Eb; cbn [Bool.eqb negb app last walk].
    - rewrite R1 by auto. rewrite app_nil_r. repeat split; auto. discriminate.
    - rewrite (R1 eq_refl). assert (S : straddle c a b) by (apply lo_straddle; congruence). assert (Eq : lo c' (cr c a b) = false) by (apply lo_f; rewrite cr_on; auto).
      split; [|split; [discriminate|auto]]. rewrite app_nil_r. unfold turn. rewrite Eq, (lo_mono c c' b Hc Eb). destruct (lo c' a) eqn:E'; cbn [Bool.eqb negb app]; auto. f_equal. apply lo_f in Eb. apply lo_spec in E'. apply cr_twice2; lra.
    - assert (S : straddle c a b) by (apply lo_straddle; congruence). assert (Eq : lo c' (cr c a b) = false) by (apply lo_f; rewrite cr_on; auto).
      split; [|split; [auto|discriminate]]. unfold turn. rewrite Eq, R2, (lo_mono c c' a Hc Ea) by auto. cbn [Bool.eqb negb app]. rewrite app_nil_r. destruct (lo c' b) eqn:E'; cbn [Bool.eqb negb app]; auto. f_equal. apply lo_f in Ea. apply lo_spec in E'. apply cr_twice1; lra.
    - split; [|split; [discriminate|auto]]. unfold turn. now rewrite (lo_mono c c' a Hc Ea), (lo_mono c c' b Hc Eb). }
  destruct T as (T1 & T2 & T3). rewrite T1. f_equal. apply IH; auto.
Qed.

(** What the last stored vertex is. *)
Lemma walk_nil s k l : forall a, walk RA s k a l = [] -> s (last l a) = s a.
Proof.
  induction l as [|b l IH]; intros a H; auto. cbn [walk] in H. apply app_eq_nil in H. destruct H as [H1 H2]. rewrite last_step. apply IH in H2. rewrite H2. unfold turn in H1. apply app_eq_nil in H1. destruct H1 as [H1 H3]. destruct (s a), (s b); auto; discriminate.
Qed.
Lemma last_app_ne {T} (l l' : list T) d : l' <> [] -> last (l ++ l') d = last l' d.
Proof. intros H. destruct (exists_last H) as (m & x & ->). rewrite app_assoc, !last_last. reflexivity. Qed.
Lemma walk_last_out s k l : forall a d, walk RA s k a l <> [] -> s (last l a) = false -> exists p q, s p <> s q /\ last (walk RA s k a l) d = k p q.
Proof.
  induction l as [|b l IH]; intros a d H E; [contradiction|]. cbn [walk] in *. rewrite last_step in E.
  destruct (walk RA s k b l) eqn:W.
  - rewrite app_nil_r in *. apply walk_nil in W. rewrite W in E. unfold turn in *. rewrite E in *. destruct (s a) eqn:Ea; cbn [Bool.eqb negb app] in *; [|contradiction]. exists a, b. split; [congruence|reflexivity].
  - rewrite last_app_ne by discriminate. rewrite <- W. apply IH; auto. rewrite W. discriminate.
Qed.
Lemma walk_last_in s k l : forall a d, l <> [] -> s (last l a) = true -> last (walk RA s k a l) d = last l a.
Proof.
  induction l as [|b l IH]; intros a d H E; [contradiction|]. cbn [walk]. rewrite last_step in *. destruct l as [|b' l].
  - cbn [last walk] in *. rewrite app_nil_r. unfold turn. rewrite E. rewrite last_app_ne by discriminate. reflexivity.
  - assert (W : walk RA s k b (b' :: l) <> []).
    { intros W. pose proof (walk_nil _ _ _ _ W) as W'. rewrite E in W'. cbn [walk] in W. apply app_eq_nil in W. destruct W as [W _]. unfold turn in W. rewrite <- W' in W. destruct (s b'); discriminate. }
    rewrite last_app_ne by auto. apply IH; auto. discriminate.
Qed.

Lemma cut_twice c c' P : c < c' -> LO c' (LO c P) = LO c' P.
Proof.
  intros Hc. unfold cut. destruct P as [|p P]; auto. set (a := last (p :: P) p). destruct (walk RA (lo c) (cr c) a (p :: P)) as [|q Q] eqn:W.
  - pose proof W as W0. apply walk_nil in W. symmetry.
    destruct (lo c a) eqn:Ea.
    { exfalso. cbn [walk] in W0. apply app_eq_nil in W0. destruct W0 as [W0 _]. unfold turn in W0. rewrite Ea in W0. destruct (lo c p); discriminate. }
    rewrite <- (walk_twice c c' Hc (p :: P) a a); [now rewrite W0|auto|]. intros _. now apply (lo_mono c).
  - rewrite <- W. apply walk_twice; auto.
    + intros Ea. rewrite W. rewrite (last_cons_indep RA q q p), <- W. unfold a. rewrite (walk_last_in _ _ (p :: P) (last (p :: P) p) p); [apply (last_cons_indep RA)|discriminate|]. rewrite (last_cons_indep RA p (last (p :: P) p) p). exact Ea.
    + intros Ea. rewrite W. destruct (walk_last_out (lo c) (cr c) (p :: P) a q) as (x & y & N & E). { rewrite W. discriminate. } { unfold a. rewrite (last_cons_indep RA p _ p). exact Ea. }
      rewrite <- W, E. apply lo_f. rewrite cr_on; auto. now apply lo_straddle.
Qed.

(** Area. *)
Variable phi : point -> point -> R.
Hypothesis phi_ok : edge_integral phi.

Lemma phi_refl a : phi a a = 0.
Proof. destruct phi_ok as [H _]. specialize (H a a). lra. Qed.
Lemma phi_line p q r : X q = X p -> X r = X p -> phi p r = phi p q + phi q r.
Proof.
  intros Hq Hr. destruct phi_ok as [An Ad]. destruct (Xline p q (eq_sym Hq) r Hr) as [H|[H|H]]; apply Ad in H; pose proof (An p q); pose proof (An q r); pose proof (An p r); lra.
Qed.

Section Half.
Variable c : R.
Variable side : point -> bool.
Hypothesis side_straddle : forall a b, side a <> side b -> straddle c a b.
Variable o : point.
Hypothesis Ho : X o = c.
Definition edge (a b : point) : R :=
  match side a, side b with
  | true, true => phi a b
  | true, false => phi a (cr c a b) - phi o (cr c a b)
  | false, true => phi o (cr c a b) + phi (cr c a b) b
  | false, false => 0
  end.
Definition pot (a a' : point) : R := if side a then 0 else phi o a'.

Lemma along_app (l l' : list point) : forall a : point, along phi a (l ++ l') = along phi a l + along phi (last l a) l'.
Proof. induction l as [|b l IH]; intros a; cbn [app along]. - cbn [last]. lra. - rewrite IH. rewrite lstep. lra. Qed.

Lemma last_app_d {T} (l l' : list T) d : last (l ++ l') d = last l' (last l d).
Proof. revert d. induction l as [|x l IH]; intros d; auto. destruct l' as [|y l']. - rewrite app_nil_r. reflexivity. - rewrite !last_app_ne by discriminate. destruct (exists_last (l := y :: l') ltac:(discriminate)) as (m & z & ->). now rewrite !last_last. Qed.

Lemma walk_sum (l : list point) : forall a a' : point, (side a = true -> a' = a) -> (side a = false -> X a' = c) ->
  along phi a' (walk RA side (cr c) a l) = along edge a l + pot (last l a) (last (walk RA side (cr c) a l) a') - pot a a'.
Proof.
  induction l as [|b l IH]; intros a a' R1 R2. { cbn [walk along last]. lra. }
  cbn [walk along]. rewrite along_app. rewrite lstep. rewrite last_app_d. change (pt RA) with point in *.
  set (T := turn RA side (cr c) a b : list point). set (b' := @last point T a').
  assert (H : along phi a' T = edge a b + pot b b' - pot a a' /\ (side b = true -> b' = b) /\ (side b = false -> X b' = c)).
  { unfold b', T, turn, edge, pot. destruct (side a) eqn:Ea, (side b) eqn:Eb; cbn [Bool.eqb negb app along last].
    - rewrite (R1 eq_refl). repeat split; auto; [lra|discriminate].
    - rewrite (R1 eq_refl). assert (S : straddle c a b) by (apply side_straddle; congruence). split; [lra|]. split; [discriminate|]. intros _. now apply cr_on.
    - assert (S : straddle c a b) by (apply side_straddle; congruence). split; [|split; [auto|discriminate]]. pose proof (cr_on c a b S) as Q. pose proof (R2 eq_refl) as Q'. pose proof (phi_line o a' (cr c a b) ltac:(lra) ltac:(lra)). lra.
    - split; [lra|]. split; [discriminate|]. auto. }
  destruct H as (H1 & H2 & H3). rewrite H1, (IH b b' H2 H3). lra.
Qed.

Lemma cut_area (P : list point) : around phi (cut RA side (cr c) P) = match P with [] => 0 | p :: _ => along edge (last P p) P end.
Proof.
  unfold around, cut. destruct P as [|p P]; auto. change (pt RA) with point in *. set (a := @last point (p :: P) p).
  assert (LA : last (p :: P) a = a) by apply lci. 
  destruct (walk RA side (cr c) a (p :: P)) as [|q Q] eqn:W.
  - destruct (side a) eqn:Ea.
    + pose proof (walk_sum (p :: P) a a ltac:(auto) ltac:(congruence)) as H. rewrite W in H. cbn [along] in H. rewrite LA in H. cbn [last] in H. unfold pot in H. rewrite Ea in H. change (along edge a (p :: P)) with (edge a p + along edge p P). lra.
    + pose proof (walk_sum (p :: P) a o ltac:(congruence) ltac:(auto)) as H. rewrite W in H. rewrite LA in H. cbn [last] in H. change (along phi o []) with 0 in H. lra.
  - change (pt RA) with point in *. set (a' := @last point (q :: Q) q).
    assert (Ea' : last (q :: Q) a' = a') by apply lci.
    pose proof (walk_sum (p :: P) a a') as H. rewrite LA, W in H. change (pt RA) with point in H. rewrite Ea' in H. rewrite H; [lra| |].
    + intros Ea. unfold a'. rewrite <- W. rewrite walk_last_in; [exact LA|discriminate|]. exact (eq_trans (f_equal side LA) Ea).
    + intros Ea. unfold a'. rewrite <- W. destruct (walk_last_out side (cr c) (p :: P) a q) as (x & y & N & E). { rewrite W. discriminate. } { exact (eq_trans (f_equal side LA) Ea). }
      refine (eq_trans (f_equal X E) _). now apply cr_on, side_straddle.
Qed.
End Half.

Lemma cr_start c a b : X a = c -> X a <> X b -> cr c a b = a.
Proof. intros H N. rewrite crl by auto. unfold lerp. rewrite <- H. destruct a as [u v]. cbn [fst snd]. f_equal; field; lra. Qed.
Lemma cr_end c a b : X b = c -> X a <> X b -> cr c a b = b.
Proof. intros H N. rewrite crl by auto. unfold lerp. rewrite <- H. destruct b as [u v]. cbn [fst snd]. f_equal; field; lra. Qed.

Definition tp c o (v : point) : R := if Req_EM_T (X v) c then - phi o v else 0.
Ltac side_t := repeat match goal with
  | H : ?x = true |- context [?x] => rewrite H | H : ?x = false |- context [?x] => rewrite H end.

Lemma edge_split c o a b : X o = c -> edge c (hi c) o a b + edge c (lo c) o a b + tp c o b - tp c o a = phi a b.
Proof.
  intros Ho. unfold edge, tp.
  destruct (Rtotal_order (X a) c) as [Ha|[Ha|Ha]]; destruct (Rtotal_order (X b) c) as [Hb|[Hb|Hb]].
  all: try (rewrite (proj2 (hi_spec c a)) by lra); try (rewrite (proj2 (hi_f c a)) by lra); try (rewrite (proj2 (hi_spec c b)) by lra); try (rewrite (proj2 (hi_f c b)) by lra).
  all: try (rewrite (proj2 (lo_spec c a)) by lra); try (rewrite (proj2 (lo_f c a)) by lra); try (rewrite (proj2 (lo_spec c b)) by lra); try (rewrite (proj2 (lo_f c b)) by lra).
  all: destruct (Req_EM_T (X a) c) as [Ea|Ea]; try lra; destruct (Req_EM_T (X b) c) as [Eb|Eb]; try lra.
  all: try (rewrite (cr_start c a b) by (auto; lra)); try (rewrite (cr_end c a b) by (auto; lra)); rewrite ?phi_refl; try lra.
  - assert (S : straddle c a b) by (split; lra). destruct phi_ok as [_ Ad]. rewrite (Ad a b (cr c a b)) by now apply cr_between. lra.
  - pose proof (phi_line o a b ltac:(lra) ltac:(lra)). lra.
  - assert (S : straddle c a b) by (split; lra). destruct phi_ok as [_ Ad]. rewrite (Ad a b (cr c a b)) by now apply cr_between. lra.
Qed.

Lemma along_split c o (l : list point) : X o = c -> forall a, along (edge c (hi c) o) a l + along (edge c (lo c) o) a l + tp c o (last l a) - tp c o a = along phi a l.
Proof.
  intros Ho. induction l as [|b l IH]; intros a. - cbn [along last]. lra. - cbn [along]. rewrite lstep. rewrite <- IH, <- (edge_split c o a b Ho). lra.
Qed.

Lemma split_area c o (P : list point) : X o = c -> around phi (HI c P) + around phi (LO c P) = around phi P.
Proof.
  intros Ho. rewrite (cut_area c (hi c) (hi_straddle c) o Ho), (cut_area c (lo c) (lo_straddle c) o Ho). destruct P as [|p P]; [cbn; lra|]. unfold around. pose proof (along_split c o (p :: P) Ho (last (p :: P) p)) as S. rewrite (lci p (last (p :: P) p) p) in S. lra.
Qed.

Lemma over_step f a b t : over_cells f (a :: b :: t) = f a b + over_cells f (b :: t).
Proof. reflexivity. Qed.

Hypothesis Xsurj : forall c, exists o, X o = c.

Lemma strips_area P : forall t a, t <> [] -> StronglySorted Rlt (a :: t) -> (forall p, In p P -> X p <= last t 0) ->
  over_cells (fun a b => around phi (HI b (LO a P))) (a :: t) = around phi (LO a P).
Proof.
  induction t as [|b t IH]; intros a Ht HS HP; [contradiction|]. rewrite over_step. destruct t as [|b' t].
  - cbn [over_cells last] in *. rewrite Rplus_0_r. f_equal. apply cut_all. intros v Hv. apply hi_spec. eapply (cut_convex (lo a) a P (fun v => X v <= b) (lo_straddle a)); eauto. cbv beta.
    intros u w x Hu Hw (s & Hs & ->). change (X (lerp u w s) <= b). rewrite Xl. destruct (Rle_dec (X u) (X w)); nra.
  - inversion HS as [|? ? HS' HF]; subst. rewrite (IH b); [|discriminate|auto|exact HP].
    destruct (Xsurj b) as (o & Ho). rewrite <- (split_area b o (LO a P) Ho). rewrite cut_twice. { reflexivity. } inversion HF; auto.
Qed.
Lemma strips P xs : edges_cover xs (map X P) -> over_cells (fun a b => around phi (HI b (LO a P))) xs = around phi P.
Proof.
  intros (HL & HS & HC). destruct xs as [|a [|b t]]; cbn [length] in HL; try lia. rewrite strips_area; auto.
  - f_equal. apply cut_all. intros p Hp. apply lo_spec. apply (HC (X p)). now apply in_map.
  - discriminate.
  - intros p Hp. destruct (HC (X p)) as [_ K]; [now apply in_map|]. exact K.
Qed.
End Axis.
