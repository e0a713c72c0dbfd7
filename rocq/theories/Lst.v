(** * More generic facts about lists and loops over lists *)
From Verif Require Import Base Loops.

Lemma upd_middle {B} (pre : list B) x l v : upd (pre ++ x :: l) (length pre) v = pre ++ v :: l.
Proof. induction pre; cbn; [auto|now rewrite IHpre]. Qed.
Lemma oset_middle {B} (pre : list B) x l v : oset (pre ++ x :: l) (zlen pre) v = Ok (pre ++ v :: l).
Proof.
  apply oset_Ok. unfold zset. rewrite zlen_app, zlen_cons. pose proof (zlen_nonneg pre). pose proof (zlen_nonneg l).
  destruct (Z.leb_spec 0 (zlen pre)); [|lia]. destruct (Z.ltb_spec (zlen pre) (zlen pre + (1 + zlen l))); [|lia]. cbn [andb].
  unfold zlen. rewrite Nat2Z.id, upd_middle. reflexivity.
Qed.

(** A loop over the positions of a list that reads each element. *)
Lemma ofor_over {B S} (l : list B) (g : S -> B -> outcome S) s :
  ofor 0 (zlen l) (fun s i => do x <- oget l i ; g s x) s = ofold g l s.
Proof.
  assert (K : forall pre l s, ofor (zlen pre) (zlen l) (fun s i => do x <- oget (pre ++ l) i ; g s x) s = ofold g l s).
  { intros pre l0. revert pre. induction l0 as [|x l0 IH]; intros pre s0.
    - rewrite zlen_nil, ofor_0 by lia. reflexivity.
    - rewrite zlen_cons. pose proof (zlen_nonneg l0). rewrite ofor_S by lia. cbn [ofold].
      assert (Eg : zget (pre ++ x :: l0) (zlen pre) = Some x). { rewrite zget_app_r by lia. rewrite Z.sub_diag. apply zget_cons_0. }
      rewrite (proj2 (oget_Ok _ _ _) Eg). cbn [bind]. replace (1 + zlen l0 - 1) with (zlen l0) by lia. destruct (g s0 x); cbn [bind]; auto.
      specialize (IH (pre ++ [x]) a). rewrite zlen_app, zlen_cons, zlen_nil in IH. replace (zlen pre + (1 + 0)) with (zlen pre + 1) in IH by lia.
      rewrite <- IH. apply ofor_ext. intros i s1 Hi. now rewrite <- app_assoc. }
  apply (K [] l s).
Qed.


Lemma bind_assoc {A B C} (e : outcome A) (f : A -> outcome B) (g : B -> outcome C) :
  bind (bind e f) g = bind e (fun a => bind (f a) g).
Proof. destruct e; reflexivity. Qed.
Lemma ofold_snoc {S B} (f : S -> B -> outcome S) l x s : ofold f (l ++ [x]) s = do t <- ofold f l s ; f t x.
Proof. rewrite ofold_app. apply bind_ext. intros t. cbn. destruct (f t x); reflexivity. Qed.
Lemma bind_inv {S T} (e : outcome S) (f : S -> outcome T) t : bind e f = Ok t -> exists s, e = Ok s /\ f s = Ok t.
Proof. destruct e; cbn; try discriminate. eauto. Qed.
Lemma firstn_In {B} (l : list B) n x : In x (firstn n l) -> In x l.
Proof. rewrite <- (firstn_skipn n l) at 2. rewrite in_app_iff. auto. Qed.
Lemma skipn_In {B} (l : list B) n x : In x (skipn n l) -> In x l.
Proof. rewrite <- (firstn_skipn n l) at 2. rewrite in_app_iff. auto. Qed.
Lemma nth_error_firstn_lt {B} (l : list B) n i : (i < n)%nat -> nth_error (firstn n l) i = nth_error l i.
Proof. revert l i. induction n; intros l i H; [lia|]. destruct l, i; cbn; auto. apply IHn. lia. Qed.
