(** * Reading and writing fields on several tiles; loops over all cells *)
From Verif Require Import Base Loops M_River Spec_River.
Open Scope Z_scope.

Lemma cell_dec (a b : cell) : {a = b} + {a <> b}.
Proof. repeat decide equality. Defined.
Definition put {A} (F : cell -> A) (c : cell) (v : A) (c' : cell) : A := if cell_dec c' c then v else F c'.
Lemma put_eq {A} (F : cell -> A) c v : put F c v c = v.
Proof. unfold put. destruct (cell_dec c c); congruence. Qed.
Lemma put_ne {A} (F : cell -> A) c v c' : c' <> c -> put F c v c' = F c'.
Proof. unfold put. destruct (cell_dec c' c); congruence. Qed.

Section Fields.
  Context {A : Type} (nt nx ny : Z).
  Lemma haloed_get (d : list (list A)) F n j i : haloed nt nx ny d F -> in_frame nt nx ny (n, j, i) -> mget d n (j * (nx + 2) + i) = Ok (F (n, j, i)).
  Proof.
    intros [L H] (Hn & Hj & Hi). destruct (H n Hn) as (t & E & _ & G). unfold mget. rewrite (proj2 (@oget_Ok (list A) _ _ _) E). cbn [bind].
    apply oget_Ok. auto.
  Qed.
  Lemma haloed_put (d : list (list A)) F n j i v : haloed nt nx ny d F -> in_frame nt nx ny (n, j, i) ->
    exists d', mset d n (j * (nx + 2) + i) v = Ok d' /\ haloed nt nx ny d' (put F (n, j, i) v).
  Proof.
    intros [L H] (Hn & Hj & Hi). destruct (H n Hn) as (t & E & Lt & G). unfold mset. rewrite (proj2 (@oget_Ok (list A) _ _ _) E). cbn [bind].
    pose proof (rowmajor_range (ny + 2) (nx + 2) j i Hj Hi) as R. destruct (zset_Some t (j * (nx + 2) + i) v) as (t' & S); [lia|].
    rewrite (proj2 (oset_Ok _ _ _ _) S). cbn [bind]. destruct (zset_Some d n t') as (d' & S'); [lia|]. rewrite (proj2 (@oset_Ok (list A) _ _ _ _) S').
    exists d'. split; auto. split; [rewrite (zset_len _ _ _ _ S'); auto|]. intros m Hm. destruct (Z.eq_dec m n) as [->|Hne].
    - exists t'. split; [apply (zget_zset_eq _ _ _ _ S')|]. split; [rewrite (zset_len _ _ _ _ S); auto|]. intros y x Hy Hx.
      destruct (Z.eq_dec (y * (nx + 2) + x) (j * (nx + 2) + i)) as [Ek|Nk].
      + destruct (rowmajor_inj (nx + 2) y x j i) as [-> ->]; auto. rewrite (zget_zset_eq _ _ _ _ S), put_eq. auto.
      + rewrite (zget_zset_ne _ _ _ _ _ S), put_ne by (auto; congruence). auto.
    - destruct (H m Hm) as (u & Eu & Lu & Gu). exists u. split; [rewrite (zget_zset_ne _ _ _ _ _ S'); auto|]. split; auto.
      intros y x Hy Hx. rewrite put_ne by congruence. auto.
  Qed.
  Lemma haloed_ext (d : list (list A)) F F' : (forall c, in_frame nt nx ny c -> F c = F' c) -> haloed nt nx ny d F -> haloed nt nx ny d F'.
  Proof.
    intros E [L H]. split; auto. intros n Hn. destruct (H n Hn) as (t & Et & Lt & G). exists t. split; auto. split; auto. intros j i Hj Hi.
    rewrite <- E by (repeat split; lia). auto.
  Qed.
  Lemma haloed_same (d : list (list A)) F F' c : haloed nt nx ny d F -> haloed nt nx ny d F' -> in_frame nt nx ny c -> F c = F' c.
  Proof.
    destruct c as [[n j] i]. intros H1 H2 Hc. pose proof (haloed_get _ _ _ _ _ H1 Hc) as E1. rewrite (haloed_get _ _ _ _ _ H2 Hc) in E1. congruence.
  Qed.
  Lemma haloed_repeat (v : A) : 0 <= nt -> 0 <= nx -> 0 <= ny ->
    haloed nt nx ny (repeat (repeat v (Z.to_nat ((nx + 2) * (ny + 2)))) (Z.to_nat nt)) (fun _ => v).
  Proof.
    intros Ht Hx Hy. split; [rewrite zlen_repeat; lia|]. intros n Hn. eexists. split; [apply zget_repeat; lia|].
    split; [rewrite zlen_repeat; nia|]. intros j i Hj Hi. apply zget_repeat. pose proof (rowmajor_range (ny + 2) (nx + 2) j i Hj Hi). nia.
  Qed.
  Lemma plain_get (d : list (list A)) F n j i : plain_field nt nx ny d F -> own nt nx ny (n, j, i) -> mget d n ((j - 1) * nx + (i - 1)) = Ok (F (n, j, i)).
  Proof.
    intros [L H] (Hn & Hj & Hi). destruct (H n Hn) as (t & E & _ & G). unfold mget. rewrite (proj2 (@oget_Ok (list A) _ _ _) E). cbn [bind].
    apply oget_Ok. auto.
  Qed.
  Lemma plain_put (d : list (list A)) F n j i v : plain_field nt nx ny d F -> own nt nx ny (n, j, i) ->
    exists d', mset d n ((j - 1) * nx + (i - 1)) v = Ok d' /\ plain_field nt nx ny d' (put F (n, j, i) v).
  Proof.
    intros [L H] (Hn & Hj & Hi). destruct (H n Hn) as (t & E & Lt & G). unfold mset. rewrite (proj2 (@oget_Ok (list A) _ _ _) E). cbn [bind].
    pose proof (rowmajor_range ny nx (j - 1) (i - 1) ltac:(lia) ltac:(lia)) as R. destruct (zset_Some t ((j - 1) * nx + (i - 1)) v) as (t' & S); [lia|].
    rewrite (proj2 (oset_Ok _ _ _ _) S). cbn [bind]. destruct (zset_Some d n t') as (d' & S'); [lia|]. rewrite (proj2 (@oset_Ok (list A) _ _ _ _) S').
    exists d'. split; auto. split; [rewrite (zset_len _ _ _ _ S'); auto|]. intros m Hm. destruct (Z.eq_dec m n) as [->|Hne].
    - exists t'. split; [apply (zget_zset_eq _ _ _ _ S')|]. split; [rewrite (zset_len _ _ _ _ S); auto|]. intros y x Hy Hx.
      destruct (Z.eq_dec ((y - 1) * nx + (x - 1)) ((j - 1) * nx + (i - 1))) as [Ek|Nk].
      + destruct (rowmajor_inj nx (y - 1) (x - 1) (j - 1) (i - 1)) as [E1 E2]; try lia. replace y with j by lia. replace x with i by lia.
        rewrite (zget_zset_eq _ _ _ _ S), put_eq. auto.
      + rewrite (zget_zset_ne _ _ _ _ _ S), put_ne by (auto; congruence). auto.
    - destruct (H m Hm) as (u & Eu & Lu & Gu). exists u. split; [rewrite (zget_zset_ne _ _ _ _ _ S'); auto|]. split; auto.
      intros y x Hy Hx. rewrite put_ne by congruence. auto.
  Qed.
End Fields.
Lemma own_frame nt nx ny c : own nt nx ny c -> in_frame nt nx ny c.
Proof. destruct c as [[n j] i]. unfold own, in_frame. lia. Qed.

(** ** Loops over all cells *)
(** Place of a cell in the scan *)
Definition pos (nx ny : Z) (c : cell) : Z := let '(n, j, i) := c in (n * ny + (j - 1)) * nx + (i - 1).
Lemma pos_range nt nx ny c : own nt nx ny c -> 0 <= pos nx ny c < nt * ny * nx.
Proof.
  destruct c as [[n j] i]. intros (Hn & Hj & Hi). unfold pos.
  pose proof (rowmajor_range nt ny n (j - 1) Hn ltac:(lia)). pose proof (rowmajor_range (nt * ny) nx (n * ny + (j - 1)) (i - 1) H ltac:(lia)). lia.
Qed.
Lemma pos_inj nt nx ny c c' : own nt nx ny c -> own nt nx ny c' -> pos nx ny c = pos nx ny c' -> c = c'.
Proof.
  destruct c as [[n j] i], c' as [[n' j'] i']. intros (Hn & Hj & Hi) (Hn' & Hj' & Hi') E. unfold pos in E.
  apply rowmajor_inj in E; [|lia|lia]. destruct E as [E E2]. apply rowmajor_inj in E; [|lia|lia]. destruct E as [E E1].
  assert (n = n') by lia. assert (j = j') by lia. assert (i = i') by lia. congruence.
Qed.
Lemma pos_unpos nt nx ny p : 0 <= p < nt * ny * nx -> 0 <= nx -> 0 <= ny -> exists c, own nt nx ny c /\ pos nx ny c = p.
Proof.
  intros Hp Hx Hy. assert (nx <> 0) by (intros ->; rewrite Z.mul_0_r in Hp; lia). assert (ny <> 0) by (intros ->; rewrite Z.mul_0_r in Hp; lia).
  assert (0 < nx) by lia. assert (0 < ny) by lia.
  exists (p / nx / ny, (p / nx) mod ny + 1, p mod nx + 1). unfold own, pos.
  pose proof (Z.div_mod p nx). pose proof (Z.div_mod (p / nx) ny). pose proof (Z.mod_pos_bound p nx). pose proof (Z.mod_pos_bound (p / nx) ny).
  assert (0 <= p / nx < nt * ny) by (split; [apply Z.div_pos; lia|apply Z.div_lt_upper_bound; nia]).
  assert (0 <= p / nx / ny < nt) by (split; [apply Z.div_pos; lia|apply Z.div_lt_upper_bound; nia]). nia.
Qed.
(** Induction over the scan *)
Lemma for_cells_inv {S} nt nx ny (P : Z -> S -> Prop) (f : S -> Z -> Z -> Z -> outcome S) s :
  0 <= nt -> 0 <= nx -> 0 <= ny -> P 0 s ->
  (forall n j i s, own nt nx ny (n, j, i) -> P (pos nx ny (n, j, i)) s -> exists s', f s n j i = Ok s' /\ P (pos nx ny (n, j, i) + 1) s') ->
  exists s', for_cells nt nx ny f s = Ok s' /\ P (nt * ny * nx) s'.
Proof.
  intros Ht Hx Hy H0 Hs. unfold for_cells.
  destruct (ofor_inv (fun n s => P (n * ny * nx) s) (fun s n => ofor 1 ny (fun s j => ofor 1 nx (fun s i => f s n j i) s) s) 0 nt s) as (s' & E & HP); auto.
  - intros n s1 Hn H1.
    destruct (ofor_inv (fun j s => P ((n * ny + (j - 1)) * nx) s) (fun s j => ofor 1 nx (fun s i => f s n j i) s) 1 ny s1) as (s' & E & HP); auto.
    + now replace ((n * ny + (1 - 1)) * nx) with (n * ny * nx) by ring.
    + intros j s2 Hj H2.
      destruct (ofor_inv (fun i s => P ((n * ny + (j - 1)) * nx + (i - 1)) s) (fun s i => f s n j i) 1 nx s2) as (s' & E & HP); auto.
      * now replace ((n * ny + (j - 1)) * nx + (1 - 1)) with ((n * ny + (j - 1)) * nx) by ring.
      * intros i s3 Hi H3. destruct (Hs n j i s3) as (s' & E & HP); [repeat split; lia|exact H3|]. exists s'. split; auto.
        replace ((n * ny + (j - 1)) * nx + (i + 1 - 1)) with (pos nx ny (n, j, i) + 1) by (unfold pos; ring). auto.
      * exists s'. split; auto. replace ((n * ny + (j + 1 - 1)) * nx) with ((n * ny + (j - 1)) * nx + (1 + nx - 1)) by ring. auto.
    + exists s'. split; auto. replace ((n + 1) * ny * nx) with ((n * ny + (1 + ny - 1)) * nx) by ring. auto.
  - exists s'. split; auto.
Qed.
(** What is done after a step of the scan *)
Lemma pos_step nt nx ny c c' : own nt nx ny c -> own nt nx ny c' -> pos nx ny c' < pos nx ny c + 1 <-> (c' = c \/ pos nx ny c' < pos nx ny c).
Proof.
  intros H H'. split.
  - intros Hl. destruct (Z.eq_dec (pos nx ny c') (pos nx ny c)) as [E|]; [left; eapply pos_inj; eauto|right; lia].
  - intros [->|]; lia.
Qed.
