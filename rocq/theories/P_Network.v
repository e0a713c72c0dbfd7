(** * River networks: flow paths end in a unique outlet *)
From Coq Require Import Relations.
From Verif Require Import Base Loops M_River Spec_River Tiles P_Halo.
Open Scope Z_scope.

Lemma step_frame nt nx ny c d : own nt nx ny c -> 0 <= d <= 7 -> in_frame nt nx ny (step c d).
Proof.
  destruct c as [[n j] i]. intros (Hn & Hj & Hi) Hd. assert (V : d = 0 \/ d = 1 \/ d = 2 \/ d = 3 \/ d = 4 \/ d = 5 \/ d = 6 \/ d = 7) by lia.
  destruct V as [->|[->|[->|[->|[->|[->|[->| ->]]]]]]]; cbn; lia.
Qed.
Lemma own_dec nt nx ny c : {own nt nx ny c} + {~ own nt nx ny c}.
Proof.
  destruct c as [[n j] i]. unfold own.
  destruct (Z_le_dec 0 n); [|right; lia]. destruct (Z_lt_dec n nt); [|right; lia]. destruct (Z_le_dec 1 j); [|right; lia].
  destruct (Z_le_dec j ny); [|right; lia]. destruct (Z_le_dec 1 i); [|right; lia]. destruct (Z_le_dec i nx); [left|right]; lia.
Qed.
Lemma wrap_cases op nt nx ny h : op_ok op nt nx ny -> in_frame nt nx ny h -> own nt nx ny (wrap op nx ny h) \/ wrap op nx ny h = h.
Proof.
  destruct h as [[n j] i]. intros (Hx & Hy & Ht & Hc & Hxc & Hyc) (Hn & Hj & Hi). unfold wrap. destruct (cubic op).
  - destruct Hc as (-> & <- & _); auto. assert (M : forall k, 0 <= k mod 6 < 6) by (intros k; apply Z.mod_pos_bound; lia).
    destruct (Z.leb_spec 1 j); destruct (Z.leb_spec j nx); cbn [andb];
    destruct (Z.leb_spec 1 i); destruct (Z.leb_spec i nx); cbn [andb]; auto;
    destruct (Z.eqb_spec i 0); destruct (Z.eqb_spec i (nx + 1)); destruct (Z.eqb_spec j 0); destruct (Z.eqb_spec j (nx + 1)); auto;
    destruct (n mod 2 =? 0); left; unfold own; pose proof (M (n + 1)); pose proof (M (n + 2)); pose proof (M (n + 4)); pose proof (M (n + 5)); lia.
  - pose proof (around_range nx i Hx). pose proof (around_range ny j Hy). destruct (x_cyclic op), (y_cyclic op); auto.
    + left. unfold own. lia.
    + destruct (Z.leb_spec 1 j); destruct (Z.leb_spec j ny); cbn [andb]; auto. left. unfold own. lia.
    + destruct (Z.leb_spec 1 i); destruct (Z.leb_spec i nx); cbn [andb]; auto. left. unfold own. lia.
Qed.
Lemma wrap_wrap op nt nx ny h : op_ok op nt nx ny -> in_frame nt nx ny h -> wrap op nx ny (wrap op nx ny h) = wrap op nx ny h.
Proof.
  intros Ho Hf. destruct (wrap_cases op nt nx ny h Ho Hf) as [H|H]; [|congruence]. apply (wrap_own op nt nx ny _ H).
Qed.

(** Counting cells *)
Lemma cells_bound nt nx ny l : 0 <= nt -> 0 <= nx -> 0 <= ny -> NoDup l -> (forall c, In c l -> own nt nx ny c) -> zlen l <= nt * ny * nx.
Proof.
  intros Ht Hx Hy Hd Hl. assert (Hm : NoDup (map (pos nx ny) l)).
  { clear - Hd Hl. induction Hd as [|c l Hc Hd IH]; cbn; constructor.
    - intros Hi. apply in_map_iff in Hi. destruct Hi as (c' & E & Hc'). apply Hc. rewrite <- (pos_inj nt nx ny c' c); auto.
      + apply Hl. right. auto.
      + apply Hl. left. auto.
    - apply IH. intros c' Hc'. apply Hl. right. auto. }
  assert (Hi : incl (map (pos nx ny) l) (zseq 0 (nt * ny * nx))).
  { intros p Hp. apply in_map_iff in Hp. destruct Hp as (c & <- & Hc). apply In_zseq. apply (pos_range nt nx ny c). auto. }
  pose proof (NoDup_incl_length Hm Hi) as L. rewrite map_length in L. unfold zlen.
  assert (E : zlen (zseq 0 (nt * ny * nx)) = nt * ny * nx) by (apply zlen_zseq; nia). unfold zlen in E. lia.
Qed.

Section Net.
  Context (op : opcode) (nt nx ny tcm : Z) (T D : cell -> Z) (Hop : op_ok op nt nx ny) (Hnet : net_ok op nt nx ny tcm T D).
  Notation next := (next op nx ny D). Notation outlet := (outlet op nt nx ny tcm T D). Notation drains := (drains op nt nx ny tcm T D).

  Lemma outlet_fun c k k' : outlet c k -> outlet c k' -> k = k'.
  Proof. intros (_ & [[? ->]|(? & ? & ->)]) (_ & [[? ->]|(? & ? & ->)]); lia. Qed.
  Lemma outlet_k c k : outlet c k -> k = 0 \/ k = 1.
  Proof. intros (_ & [[? ->]|(? & ? & ->)]); auto. Qed.
  Lemma outlet_dec c : own nt nx ny c -> {k | outlet c k} + {forall k, ~ outlet c k}.
  Proof.
    intros Ho. destruct (Z.eq_dec (T c) 0) as [E|N]. { left. exists 0. split; auto. }
    destruct (Z_lt_dec 0 (T c)) as [L|L].
    - destruct (Z.eq_dec (T (next c)) tcm) as [E|N']; [left; exists 1; split; auto|]. right. intros k (_ & [[? _]|(_ & ? & _)]); auto.
    - right. intros k (_ & [[? _]|(? & _)]); auto.
  Qed.
  Lemma drains_own c o k : drains c o k -> own nt nx ny c /\ 0 <= k /\ 0 <= T c /\ exists k0, outlet o k0.
  Proof.
    induction 1 as [c k H|c o k Ho Ht Hn H IH].
    - split; [apply H|]. split; [destruct (outlet_k _ _ H); lia|]. split; [destruct H as (_ & [[? _]|(? & _)]); lia|eauto].
    - destruct IH as (_ & Hk & _ & He). split; auto. split; [lia|]. split; [lia|auto].
  Qed.
  Lemma drains_fun c o k : drains c o k -> forall o' k', drains c o' k' -> o = o' /\ k = k'.
  Proof.
    induction 1 as [c k H|c o k Ho Ht Hn H IH]; intros o' k' H'; inversion H' as [c1 k1 H1|c1 o1 k1 Ho1 Ht1 Hn1 H1]; subst.
    - split; auto. eapply outlet_fun; eauto.
    - exfalso. destruct H as (_ & [[? _]|(_ & ? & _)]); [lia|auto].
    - exfalso. destruct H1 as (_ & [[? _]|(_ & ? & _)]); [lia|auto].
    - destruct (IH _ _ H1) as [-> ->]. auto.
  Qed.
  Lemma drains_outlet c o k k0 : drains c o k -> outlet c k0 -> o = c /\ k = k0.
  Proof. intros H Ho. eapply drains_fun; eauto. constructor. auto. Qed.
  (** The counts on a path are all different, so they are bounded by the number of cells. *)
  Lemma drains_chain c o k : drains c o k -> exists l, NoDup l /\ (forall q, In q l -> exists k', drains q o k' /\ k' <= k) /\ k <= zlen l.
  Proof.
    induction 1 as [c k H|c o k Ho Ht Hn H IH].
    - exists [c]. split; [repeat constructor; intros []|]. split.
      + intros q [<-|[]]. exists k. split; [constructor; auto|lia].
      + pose proof (outlet_k _ _ H). change (zlen [c]) with 1. lia.
    - destruct IH as (l & Hd & Hl & Hk). exists (c :: l). assert (Dc : drains c o (k + 1)) by (constructor; auto). split; [|split].
      + constructor; auto. intros Hi. destruct (Hl c Hi) as (k' & Hk' & Hle). destruct (drains_fun _ _ _ Dc _ _ Hk') as [_ E]. lia.
      + intros q [<-|Hq]; [exists (k + 1); split; [auto|lia]|]. destruct (Hl q Hq) as (k' & Hk' & Hle). exists k'. split; [auto|lia].
      + rewrite zlen_cons. lia.
  Qed.
  Lemma drains_bound c o k : drains c o k -> k <= nt * ny * nx.
  Proof.
    intros H. destruct (drains_chain c o k H) as (l & Hd & Hl & Hk). destruct Hop as (Hx & Hy & Ht & _).
    pose proof (cells_bound nt nx ny l ltac:(lia) ltac:(lia) ltac:(lia) Hd) as L. assert (zlen l <= nt * ny * nx); [|lia]. apply L.
    intros q Hq. destruct (Hl q Hq) as (k' & Hk' & _). apply (drains_own _ _ _ Hk').
  Qed.
  (** Without cycles every land cell drains. *)
  Lemma land_drains : acyclic op nt nx ny D -> forall c, own nt nx ny c -> 0 <= T c -> exists o k, drains c o k.
  Proof.
    intros Hac. destruct Hop as (Hx & Hy & Ht & _). destruct Hnet as (Hm & Hc & _).
    assert (W : forall fuel c l, own nt nx ny c -> 0 <= T c -> NoDup l -> (forall q, In q l -> own nt nx ny q /\ clos_trans cell (flows op nt nx ny D) q c) ->
      nt * ny * nx < zlen l + Z.of_nat fuel -> exists o k, drains c o k).
    { induction fuel as [|f IH]; intros c l Ho HT Hd Hl HN.
      - pose proof (cells_bound nt nx ny l ltac:(lia) ltac:(lia) ltac:(lia) Hd (fun q Hq => proj1 (Hl q Hq))). lia.
      - destruct (outlet_dec c Ho) as [[k Hk]|Hno]; [exists c, k; constructor; auto|].
        destruct (Hc c Ho) as [[E _]|[[E _]|(HT' & HD & Hnx)]]; [lia|now elim (Hno 0 (conj Ho (or_introl (conj E eq_refl))))|].
        assert (Hne : T (next c) <> tcm) by (intros E; now elim (Hno 1 (conj Ho (or_intror (conj HT' (conj E eq_refl)))))).
        destruct Hnx as [Hnx|]; [|easy].
        assert (Fl : flows op nt nx ny D c (next c)) by (split; [auto|split; [lia|reflexivity]]).
        destruct (IH (next c) (c :: l)) as (o & k & Hk); auto.
        + destruct (Hc (next c) Hnx) as [[E _]|[[E _]|(? & _)]]; [easy|lia|lia].
        + constructor; auto. intros Hi. destruct (Hl c Hi) as [_ Cy]. now elim (Hac c).
        + intros q [<-|Hq]; [split; auto; constructor; auto|]. destruct (Hl q Hq). split; auto. eapply t_trans; eauto. constructor. auto.
        + rewrite zlen_cons. lia.
        + exists o, (k + 1). constructor; auto. }
    intros c Ho HT. apply (W (S (Z.to_nat (nt * ny * nx))) c []); auto; [constructor|intros q []|]. change (zlen []) with 0. lia.
  Qed.
End Net.
