(** * Base: outcomes, bounds-checked arrays and counted loops

    Shared vocabulary of all model files.  Nothing in this file models a
    particular function of the code base:
    - [outcome] distinguishes a normal result, a stop through
      [mpp_error]/[exit]/[abort] (lib/libfrencutils/mpp.c, [mpp_error]) and
      undefined behaviour (out-of-bounds access, use of an uninitialised value);
    - [zget]/[zset] are C array accesses, [None]/[UB] when out of bounds;
    - [ofor lo n] is the C loop [for (i = lo; i < lo + n; i++)]. *)

From Coq Require Export List ZArith Lia Bool Permutation.
From Coq Require Export ZifyBool ZifyNat.
Export ListNotations.
Open Scope Z_scope.

(** ** Outcomes *)
Inductive outcome (A : Type) : Type :=
| Ok  (a : A)        (* normal termination *)
| Err (code : Z)     (* error exit reported to the user *)
| UB.                (* undefined behaviour *)
Arguments Ok {A} a.
Arguments Err {A} code.
Arguments UB {A}.

Definition bind {A B} (x : outcome A) (f : A -> outcome B) : outcome B :=
  match x with Ok a => f a | Err c => Err c | UB => UB end.

Declare Scope outcome_scope.
Delimit Scope outcome_scope with outcome.
Notation "'do' x <- e ; f" := (bind e (fun x => f))
  (at level 200, x name, e at level 100, f at level 200, right associativity) : outcome_scope.
Notation "'do' ' p <- e ; f" := (bind e (fun y => match y with p => f end))
  (at level 200, p strict pattern, e at level 100, f at level 200, right associativity) : outcome_scope.
Open Scope outcome_scope.

(** ** Arrays *)
Definition zlen {A} (l : list A) : Z := Z.of_nat (length l).

Definition zget {A} (l : list A) (i : Z) : option A :=
  if i <? 0 then None else nth_error l (Z.to_nat i).

Fixpoint upd {A} (l : list A) (n : nat) (v : A) : list A :=
  match l, n with
  | [], _ => []
  | _ :: t, O => v :: t
  | x :: t, S n' => x :: upd t n' v
  end.

Definition zset {A} (l : list A) (i : Z) (v : A) : option (list A) :=
  if (0 <=? i) && (i <? zlen l) then Some (upd l (Z.to_nat i) v) else None.

(** A read/write that is undefined behaviour when out of bounds. *)
Definition oget {A} (l : list A) (i : Z) : outcome A :=
  match zget l i with Some a => Ok a | None => UB end.
Definition oset {A} (l : list A) (i : Z) (v : A) : outcome (list A) :=
  match zset l i v with Some l' => Ok l' | None => UB end.

(** ** Ranges and loops *)
Fixpoint zseq_nat (lo : Z) (n : nat) : list Z :=
  match n with O => [] | S n' => lo :: zseq_nat (lo + 1) n' end.
(** the integers lo, lo+1, ..., lo+n-1 (empty when n <= 0) *)
Definition zseq (lo n : Z) : list Z := zseq_nat lo (Z.to_nat n).

Fixpoint ofold {A S} (f : S -> A -> outcome S) (l : list A) (s : S) : outcome S :=
  match l with
  | [] => Ok s
  | x :: t => do s' <- f s x ; ofold f t s'
  end.
Definition ofor {S} (lo n : Z) (f : S -> Z -> outcome S) (s : S) : outcome S :=
  ofold f (zseq lo n) s.

(** ceil(a/b) for b > 0 *)
Definition cdiv (a b : Z) : Z := - ((- a) / b).

(** ** Lemmas *)
Section Arrays.
  Context {A : Type}.
  Implicit Types (l : list A) (v : A).

  Lemma upd_length l n v : length (upd l n v) = length l.
  Proof. revert n; induction l as [|x l IH]; intros [|n]; simpl; auto. Qed.

  Lemma upd_nth_eq l n v : (n < length l)%nat -> nth_error (upd l n v) n = Some v.
  Proof. revert n; induction l as [|x l IH]; intros [|n]; simpl; intros H; try lia; auto. apply IH; lia. Qed.

  Lemma upd_nth_ne l n m v : n <> m -> nth_error (upd l n v) m = nth_error l m.
  Proof.
    revert n m; induction l as [|x l IH]; intros [|n] [|m] H; simpl; auto; try congruence.
  Qed.

  Lemma zlen_nonneg l : 0 <= zlen l.
  Proof. unfold zlen; lia. Qed.

  Lemma zget_Some_range l i v : zget l i = Some v -> 0 <= i < zlen l.
  Proof.
    unfold zget, zlen. destruct (Z.ltb_spec i 0); [discriminate|]. intros H1.
    assert (nth_error l (Z.to_nat i) <> None) as H2 by congruence.
    apply nth_error_Some in H2. lia.
  Qed.

  Lemma zget_in_range l i : 0 <= i < zlen l -> exists v, zget l i = Some v.
  Proof.
    unfold zget, zlen. intros H. destruct (Z.ltb_spec i 0); [lia|].
    destruct (nth_error l (Z.to_nat i)) eqn:E; eauto.
    apply nth_error_None in E. lia.
  Qed.

  Lemma zget_None_range l i : zget l i = None -> i < 0 \/ zlen l <= i.
  Proof.
    intros H. destruct (Z.lt_ge_cases i 0); [auto|].
    destruct (Z.lt_ge_cases i (zlen l)); [|auto].
    destruct (zget_in_range l i) as [v Hv]; [lia|congruence].
  Qed.

  Lemma zset_Some l i v : 0 <= i < zlen l -> exists l', zset l i v = Some l'.
  Proof.
    unfold zset. intros H.
    destruct (Z.leb_spec 0 i); [|lia]. destruct (Z.ltb_spec i (zlen l)); [|lia]. simpl; eauto.
  Qed.

  Lemma zset_range l l' i v : zset l i v = Some l' -> 0 <= i < zlen l.
  Proof.
    unfold zset. destruct (Z.leb_spec 0 i); [|discriminate].
    destruct (Z.ltb_spec i (zlen l)); [|discriminate]. lia.
  Qed.

  Lemma zset_len l l' i v : zset l i v = Some l' -> zlen l' = zlen l.
  Proof.
    unfold zset, zlen. destruct ((0 <=? i) && (i <? Z.of_nat (length l))); [|discriminate].
    intros H; inversion H; subst. now rewrite upd_length.
  Qed.

  Lemma zget_zset_eq l l' i v : zset l i v = Some l' -> zget l' i = Some v.
  Proof.
    intros H. pose proof (zset_range _ _ _ _ H) as Hr. revert H.
    unfold zset. destruct ((0 <=? i) && (i <? zlen l)); [|discriminate].
    intros H; inversion H; subst. unfold zget.
    destruct (Z.ltb_spec i 0); [lia|]. apply upd_nth_eq. unfold zlen in Hr. lia.
  Qed.

  Lemma zget_zset_ne l l' i j v : zset l i v = Some l' -> i <> j -> zget l' j = zget l j.
  Proof.
    intros H Hn. pose proof (zset_range _ _ _ _ H) as Hr. revert H.
    unfold zset. destruct ((0 <=? i) && (i <? zlen l)); [|discriminate].
    intros H; inversion H; subst. unfold zget.
    destruct (Z.ltb_spec j 0); [reflexivity|]. apply upd_nth_ne. lia.
  Qed.

  Lemma zset_None l i v : zset l i v = None -> i < 0 \/ zlen l <= i.
  Proof.
    unfold zset. destruct (Z.leb_spec 0 i); [|lia].
    destruct (Z.ltb_spec i (zlen l)); [discriminate|lia].
  Qed.

  Lemma zlen_app l1 l2 : zlen (l1 ++ l2) = zlen l1 + zlen l2.
  Proof. unfold zlen. rewrite app_length. lia. Qed.
  Lemma zlen_nil : zlen (@nil A) = 0. Proof. reflexivity. Qed.
  Lemma zlen_cons x l : zlen (x :: l) = 1 + zlen l.
  Proof. unfold zlen; simpl length; lia. Qed.

  Lemma zget_app_l l1 l2 i : i < zlen l1 -> zget (l1 ++ l2) i = zget l1 i.
  Proof.
    unfold zget, zlen. intros H. destruct (Z.ltb_spec i 0); auto.
    apply nth_error_app1. lia.
  Qed.
  Lemma zget_app_r l1 l2 i : zlen l1 <= i -> zget (l1 ++ l2) i = zget l2 (i - zlen l1).
  Proof.
    unfold zget, zlen. intros H. destruct (Z.ltb_spec i 0); [lia|].
    destruct (Z.ltb_spec (i - Z.of_nat (length l1)) 0); [lia|].
    rewrite nth_error_app2 by lia. f_equal. lia.
  Qed.
  Lemma zget_cons_0 x l : zget (x :: l) 0 = Some x.
  Proof. reflexivity. Qed.
  Lemma zget_cons_pos x l i : 0 < i -> zget (x :: l) i = zget l (i - 1).
  Proof.
    unfold zget. intros H. destruct (Z.ltb_spec i 0); [lia|].
    destruct (Z.ltb_spec (i - 1) 0); [lia|].
    replace (Z.to_nat i) with (S (Z.to_nat (i - 1))) by lia. reflexivity.
  Qed.
  Lemma zget_nil i : zget (@nil A) i = None.
  Proof. unfold zget. destruct (i <? 0); auto. destruct (Z.to_nat i); auto. Qed.

  Lemma zget_ext l1 l2 :
    zlen l1 = zlen l2 -> (forall i, 0 <= i < zlen l1 -> zget l1 i = zget l2 i) -> l1 = l2.
  Proof.
    revert l2; induction l1 as [|x l1 IH]; intros [|y l2] Hl Hg; auto.
    - rewrite zlen_cons, zlen_nil in Hl. pose proof (zlen_nonneg l2). lia.
    - rewrite zlen_cons, zlen_nil in Hl. pose proof (zlen_nonneg l1). lia.
    - rewrite !zlen_cons in *. pose proof (zlen_nonneg l1). pose proof (zlen_nonneg l2).
      assert (x = y) as ->.
      { specialize (Hg 0 ltac:(lia)). rewrite !zget_cons_0 in Hg. congruence. }
      f_equal. apply IH; [lia|]. intros i Hi. specialize (Hg (i + 1) ltac:(lia)).
      rewrite !zget_cons_pos in Hg by lia. replace (i + 1 - 1) with i in Hg by lia. exact Hg.
  Qed.

  Lemma zget_In l i v : zget l i = Some v -> In v l.
  Proof. unfold zget. destruct (i <? 0); [discriminate|]. apply nth_error_In. Qed.
  Lemma In_zget l v : In v l -> exists i, 0 <= i < zlen l /\ zget l i = Some v.
  Proof.
    intros H. apply In_nth_error in H. destruct H as [n Hn].
    exists (Z.of_nat n). assert (zget l (Z.of_nat n) = Some v) as E.
    { unfold zget. destruct (Z.ltb_spec (Z.of_nat n) 0); [lia|]. now rewrite Nat2Z.id. }
    split; [eapply zget_Some_range; eauto|exact E].
  Qed.

  Lemma zget_repeat v n i : 0 <= i < Z.of_nat n -> zget (repeat v n) i = Some v.
  Proof.
    intros H. unfold zget. destruct (Z.ltb_spec i 0); [lia|].
    assert (Z.to_nat i < n)%nat as Hn by lia. clear H H0. revert Hn.
    generalize (Z.to_nat i). induction n as [|n IH]; intros [|m] Hm; simpl; try lia; auto.
    apply IH; lia.
  Qed.
  Lemma zlen_repeat v n : zlen (repeat v n) = Z.of_nat n.
  Proof. unfold zlen. now rewrite repeat_length. Qed.

  Lemma oget_Ok l i v : oget l i = Ok v <-> zget l i = Some v.
  Proof. unfold oget. destruct (zget l i); split; intros H; inversion H; auto. Qed.
  Lemma oset_Ok l i v l' : oset l i v = Ok l' <-> zset l i v = Some l'.
  Proof. unfold oset. destruct (zset l i v); split; intros H; inversion H; auto. Qed.
End Arrays.

Lemma zget_map {A B} (f : A -> B) l i : zget (map f l) i = option_map f (zget l i).
Proof.
  unfold zget. destruct (i <? 0); auto. revert l.
  induction (Z.to_nat i) as [|n IH]; intros [|x l]; simpl; auto.
Qed.
Lemma zlen_map {A B} (f : A -> B) l : zlen (map f l) = zlen l.
Proof. unfold zlen. now rewrite map_length. Qed.

(** ** zseq *)
Lemma zseq_nat_length lo n : length (zseq_nat lo n) = n.
Proof. revert lo; induction n; intros; simpl; auto. Qed.
Lemma zlen_zseq lo n : 0 <= n -> zlen (zseq lo n) = n.
Proof. unfold zlen, zseq. rewrite zseq_nat_length. lia. Qed.
Lemma zseq_nonpos lo n : n <= 0 -> zseq lo n = [].
Proof. unfold zseq. intros H. replace (Z.to_nat n) with O by lia. reflexivity. Qed.
Lemma zseq_S lo n : 0 < n -> zseq lo n = lo :: zseq (lo + 1) (n - 1).
Proof. unfold zseq. intros H. replace (Z.to_nat n) with (S (Z.to_nat (n - 1))) by lia. reflexivity. Qed.
Lemma zseq_nat_app lo n m : zseq_nat lo (n + m) = zseq_nat lo n ++ zseq_nat (lo + Z.of_nat n) m.
Proof.
  revert lo; induction n as [|n IH]; intros lo; simpl.
  - now rewrite Z.add_0_r.
  - f_equal. rewrite IH. f_equal. f_equal. lia.
Qed.
Lemma zseq_app lo n m : 0 <= n -> 0 <= m -> zseq lo (n + m) = zseq lo n ++ zseq (lo + n) m.
Proof.
  intros Hn Hm. unfold zseq. rewrite Z2Nat.inj_add by lia. rewrite zseq_nat_app.
  rewrite Z2Nat.id by lia. reflexivity.
Qed.
Lemma zseq_snoc lo n : 0 <= n -> zseq lo (n + 1) = zseq lo n ++ [lo + n].
Proof. intros H. rewrite zseq_app by lia. reflexivity. Qed.
Lemma In_zseq_nat x lo n : In x (zseq_nat lo n) <-> lo <= x < lo + Z.of_nat n.
Proof.
  revert lo; induction n as [|n IH]; intros lo; simpl.
  - lia.
  - rewrite IH. lia.
Qed.
Lemma In_zseq x lo n : In x (zseq lo n) <-> lo <= x < lo + n.
Proof. unfold zseq. rewrite In_zseq_nat. lia. Qed.
Lemma NoDup_zseq lo n : NoDup (zseq lo n).
Proof.
  unfold zseq. generalize (Z.to_nat n) as k. intros k. revert lo.
  induction k as [|k IH]; intros lo; simpl; constructor; auto.
  rewrite In_zseq_nat. lia.
Qed.
Lemma zget_zseq lo n i : 0 <= i < n -> zget (zseq lo n) i = Some (lo + i).
Proof.
  unfold zget, zseq. intros H. destruct (Z.ltb_spec i 0); [lia|].
  assert (Z.to_nat i < Z.to_nat n)%nat as Hn by lia.
  replace (lo + i) with (lo + Z.of_nat (Z.to_nat i)) by lia.
  clear H H0. revert lo Hn. generalize (Z.to_nat i) as k. generalize (Z.to_nat n) as m.
  induction m as [|m IH]; intros [|k] lo Hk; simpl; try lia.
  - f_equal; lia.
  - rewrite IH by lia. f_equal. lia.
Qed.

(** ** Loop rules *)
Lemma ofold_app {A S} (f : S -> A -> outcome S) l1 l2 s :
  ofold f (l1 ++ l2) s = (do s' <- ofold f l1 s ; ofold f l2 s').
Proof.
  revert s; induction l1 as [|x l1 IH]; intros s; simpl; auto.
  destruct (f s x); simpl; auto.
Qed.

(** Hoare rule: an invariant preserved by every iteration holds at the end and
    the loop ends normally. *)
Lemma ofor_inv {S} (P : Z -> S -> Prop) (f : S -> Z -> outcome S) lo n s :
  0 <= n -> P lo s ->
  (forall i s, lo <= i < lo + n -> P i s -> exists s', f s i = Ok s' /\ P (i + 1) s') ->
  exists s', ofor lo n f s = Ok s' /\ P (lo + n) s'.
Proof.
  intros Hn HP Hstep. unfold ofor.
  remember (Z.to_nat n) as k eqn:Hk. revert lo n s Hn HP Hstep Hk.
  induction k as [|k IH]; intros lo n s Hn HP Hstep Hk.
  - rewrite zseq_nonpos by lia. exists s. split; [reflexivity|]. now replace (lo + n) with lo by lia.
  - rewrite zseq_S by lia. simpl.
    destruct (Hstep lo s ltac:(lia) HP) as (s1 & Hf & HP1). rewrite Hf. simpl.
    destruct (IH (lo + 1) (n - 1) s1 ltac:(lia) HP1) as (s' & Hs' & HP'); [|lia|].
    + intros i s0 Hi. apply Hstep. lia.
    + exists s'. split; auto. now replace (lo + n) with (lo + 1 + (n - 1)) by lia.
Qed.

Lemma ofold_inv {A S} (P : list A -> S -> Prop) (f : S -> A -> outcome S) l s :
  P [] s ->
  (forall l1 x l2 s, l = l1 ++ x :: l2 -> P l1 s -> exists s', f s x = Ok s' /\ P (l1 ++ [x]) s') ->
  exists s', ofold f l s = Ok s' /\ P l s'.
Proof.
  intros H0 Hstep.
  assert (forall l2 l1 s, l = l1 ++ l2 -> P l1 s -> exists s', ofold f l2 s = Ok s' /\ P l s') as H.
  { induction l2 as [|x l2 IH]; intros l1 s1 Hl HP.
    - exists s1. rewrite app_nil_r in Hl. subst. simpl; auto.
    - destruct (Hstep l1 x l2 s1 Hl HP) as (s2 & Hf & HP2). simpl. rewrite Hf. simpl.
      apply (IH (l1 ++ [x])); auto. rewrite Hl, <- app_assoc. reflexivity. }
  apply (H l []); auto.
Qed.

(** ** cdiv *)
Lemma cdiv_spec a b : 0 < b -> b * (cdiv a b - 1) < a <= b * cdiv a b.
Proof.
  intros Hb. unfold cdiv.
  pose proof (Z.div_mod (- a) b ltac:(lia)). pose proof (Z.mod_pos_bound (- a) b Hb). nia.
Qed.
Lemma cdiv_unique a b c : 0 < b -> b * (c - 1) < a <= b * c -> cdiv a b = c.
Proof. intros Hb H. pose proof (cdiv_spec a b Hb). nia. Qed.
