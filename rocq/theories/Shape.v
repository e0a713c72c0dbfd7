(** * Shape: row-major positions and index vectors (facts about [Spec_Hyperslab]) *)
From Verif Require Import Base Spec_Hyperslab.

Lemma rowmajor_acc dims : forall idx acc, length idx = length dims ->
  rowmajor dims idx acc = acc * size dims + rowmajor dims idx 0.
Proof.
  induction dims as [|d dims IH]; intros [|i idx] acc H; try discriminate.
  - cbn. lia.
  - cbn [rowmajor size fold_right]. injection H as H. rewrite (IH idx (acc * d + i)), (IH idx (0 * d + i)) by auto.
    fold (size dims). ring.
Qed.

Lemma size_cons d dims : size (d :: dims) = d * size dims.
Proof. reflexivity. Qed.

Lemma pos_cons d dims i idx : length idx = length dims ->
  pos (d :: dims) (i :: idx) = i * size dims + pos dims idx.
Proof. intros H. unfold pos. cbn [rowmajor]. rewrite rowmajor_acc by auto. ring. Qed.

Lemma valid_length dims idx : valid dims idx -> length idx = length dims.
Proof. unfold valid. induction 1; simpl; auto. Qed.

Lemma size_nonneg dims : Forall (fun d => 0 <= d) dims -> 0 <= size dims.
Proof. induction 1; cbn; [lia|]. fold (size l). nia. Qed.

Lemma valid_nonneg dims idx : valid dims idx -> Forall (fun d => 0 <= d) dims.
Proof. induction 1; constructor; auto; lia. Qed.

Lemma pos_range dims idx : valid dims idx -> 0 <= pos dims idx < size dims.
Proof.
  induction 1 as [|d i dims idx Hi H IH]; [cbn; lia|].
  rewrite pos_cons by (now apply valid_length). rewrite size_cons. nia.
Qed.

(** The index vector of a position. *)
Fixpoint unpos (dims : list Z) (p : Z) : list Z :=
  match dims with
  | [] => []
  | d :: ds => p / size ds :: unpos ds (p mod size ds)
  end.

Lemma unpos_length dims p : length (unpos dims p) = length dims.
Proof. revert p; induction dims; intros; simpl; auto. Qed.

Lemma unpos_pos dims idx : valid dims idx -> unpos dims (pos dims idx) = idx.
Proof.
  induction 1 as [|d i dims idx Hi H IH]; [reflexivity|].
  rewrite pos_cons by (now apply valid_length). cbn [unpos].
  pose proof (pos_range _ _ H).
  rewrite Z.div_add_l by lia. rewrite Z.div_small by lia.
  rewrite (Z.add_comm (i * size dims)), Z.mod_add by lia. rewrite Z.mod_small by lia. rewrite IH. f_equal. lia.
Qed.

Lemma unpos_spec dims p : Forall (fun d => 0 <= d) dims -> 0 <= p < size dims ->
  valid dims (unpos dims p) /\ pos dims (unpos dims p) = p.
Proof.
  intros HF. revert p. induction HF as [|d dims Hd HF IH]; intros p Hp.
  - cbn in Hp. split; [constructor|]. cbn. lia.
  - rewrite size_cons in Hp. pose proof (size_nonneg dims HF).
    assert (0 < size dims) by nia.
    pose proof (Z.mod_pos_bound p (size dims) ltac:(lia)). pose proof (Z.div_mod p (size dims) ltac:(lia)).
    destruct (IH (p mod size dims)) as [V P]; [lia|]. cbn [unpos]. split.
    + constructor; [|exact V]. nia.
    + rewrite pos_cons by apply unpos_length. rewrite P. lia.
Qed.

Lemma pos_inj dims i j : valid dims i -> valid dims j -> pos dims i = pos dims j -> i = j.
Proof. intros Hi Hj E. rewrite <- (unpos_pos dims i), <- (unpos_pos dims j) by auto. now rewrite E. Qed.

Lemma unpos_one dims p : Forall (fun d => 0 <= d) dims -> 0 <= p < size dims ->
  unpos (1 :: dims) p = 0 :: unpos dims p.
Proof. intros HF Hp. cbn [unpos]. now rewrite Z.div_small, Z.mod_small by lia. Qed.

Lemma vadd_length a b : length a = length b -> length (vadd a b) = length a.
Proof. revert b; induction a; intros [|]; simpl; intros; auto; discriminate. Qed.

Lemma block_valid dims start count idx : block_in dims start count -> valid count idx -> valid dims (vadd start idx).
Proof.
  intros HB. revert idx. induction HB; intros idx Hv; inversion Hv; subst; [constructor|].
  cbn [vadd]. constructor; [lia|]. apply IHHB. assumption.
Qed.

Lemma block_in_length dims start count : block_in dims start count ->
  length start = length dims /\ length count = length dims.
Proof. induction 1; simpl; intuition. Qed.

Lemma block_count_nonneg dims start count : block_in dims start count -> Forall (fun d => 0 <= d) count.
Proof. induction 1; constructor; auto. Qed.
Lemma block_dims_nonneg dims start count : block_in dims start count -> Forall (fun d => 0 <= d) dims.
Proof. induction 1; constructor; auto; lia. Qed.

Lemma vadd_inj s a b : length a = length s -> length b = length s -> vadd s a = vadd s b -> a = b.
Proof.
  revert a b; induction s as [|x s IH]; intros [|y a] [|z b]; simpl; intros Ha Hb E; auto; try discriminate.
  injection E as E1 E2. f_equal; [lia|]. apply IH; auto.
Qed.

(** Inversion and evaluation helpers. *)
Lemma block_cons d dims start count : block_in (d :: dims) start count ->
  exists s c start' count', start = s :: start' /\ count = c :: count' /\ 0 <= s /\ 0 <= c /\ s + c <= d
    /\ block_in dims start' count'.
Proof. intros H; inversion H; subst. do 4 eexists. repeat (split; [eauto; fail|]). auto. Qed.
Lemma block_nil start count : block_in [] start count -> start = [] /\ count = [].
Proof. intros H; inversion H; auto. Qed.
Lemma valid_cons d dims idx : valid (d :: dims) idx -> exists i idx', idx = i :: idx' /\ 0 <= i < d /\ valid dims idx'.
Proof. intros H; inversion H; subst; eauto. Qed.
Lemma valid_nil idx : valid [] idx -> idx = [].
Proof. intros H; inversion H; auto. Qed.

Ltac ogets := repeat match goal with |- context [oget (?x :: ?l) ?n] =>
  let r := eval compute in (oget (x :: l) n) in change (oget (x :: l) n) with r; cbn [bind] end.

