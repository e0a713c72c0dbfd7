(** * Character strings

    A C string is modelled by the list of its character codes (without the final
    NUL).  [chars] is only a way to write literals. *)
From Coq Require Import String Ascii.
From Verif Require Import Base.

Definition str := list Z.

Fixpoint chars (s : string) : str :=
  match s with EmptyString => [] | String c s => Z.of_nat (nat_of_ascii c) :: chars s end.

Fixpoint str_eqb (a b : str) : bool :=
  match a, b with
  | [], [] => true
  | x :: a, y :: b => (x =? y) && str_eqb a b
  | _, _ => false
  end.
Lemma str_eqb_spec a : forall b, str_eqb a b = true <-> a = b.
Proof.
  induction a as [|x a IH]; intros [|y b]; cbn; split; try congruence; auto.
  - intros H. apply andb_true_iff in H. destruct H as [H1 H2]. apply IH in H2. f_equal; auto. lia.
  - intros H. injection H as -> ->. rewrite Z.eqb_refl. cbn. now apply IH.
Qed.
Lemma str_eqb_refl a : str_eqb a a = true.
Proof. now apply str_eqb_spec. Qed.
Lemma str_eqb_false a b : str_eqb a b = false <-> a <> b.
Proof. destruct (str_eqb a b) eqn:E; split; intros H; try congruence. - apply str_eqb_spec in E. congruence. - intros ->. rewrite str_eqb_refl in E. congruence. Qed.

(** Character classes of the C locale. *)
Definition is_digit (c : Z) : bool := (48 <=? c) && (c <=? 57).
Definition is_space (c : Z) : bool := (c =? 32) || ((9 <=? c) && (c <=? 13)).

(** ** Decimal numbers *)

(** The value of a run of digits, most significant first. *)
Definition digits_val (l : str) : Z := fold_left (fun a c => 10 * a + (c - 48)) l 0.

(** Digits of a non-negative number (at most [fuel] of them). *)
Fixpoint digs (fuel : nat) (n : Z) : str :=
  match fuel with
  | O => []
  | S f => if n <? 10 then [48 + n] else digs f (n / 10) ++ [48 + n mod 10]
  end.
Definition digits (n : Z) : str := digs (S (Z.to_nat (Z.log2 n))) n.

Lemma digits_val_app l c : digits_val (l ++ [c]) = 10 * digits_val l + (c - 48).
Proof. unfold digits_val. now rewrite fold_left_app. Qed.

Lemma digs_val fuel : forall n, 0 <= n < 2 ^ Z.of_nat fuel -> digits_val (digs fuel n) = n.
Proof.
  induction fuel as [|f IH]; intros n Hn.
  - change (2 ^ Z.of_nat 0) with 1 in Hn. unfold digits_val. cbn. lia.
  - cbn [digs]. rewrite Nat2Z.inj_succ, Z.pow_succ_r in Hn by lia. destruct (Z.ltb_spec n 10).
    + unfold digits_val. cbn [fold_left]. lia.
    + rewrite digits_val_app, IH.
      * pose proof (Z.div_mod n 10). lia.
      * split; [apply Z.div_pos; lia|]. pose proof (Z.pow_pos_nonneg 2 (Z.of_nat f)). apply Z.div_lt_upper_bound; lia.
Qed.
Lemma digits_value n : 0 <= n -> digits_val (digits n) = n.
Proof.
  intros Hn. unfold digits. apply digs_val. split; auto. destruct (Z.eq_dec n 0) as [->|]; [cbn; lia|].
  rewrite Nat2Z.inj_succ, Z2Nat.id by apply Z.log2_nonneg. apply Z.log2_spec. lia.
Qed.
Lemma digs_digit fuel : forall n, 0 <= n -> Forall (fun c => is_digit c = true) (digs fuel n).
Proof.
  induction fuel as [|f IH]; intros n Hn; cbn [digs]; [constructor|]. destruct (Z.ltb_spec n 10).
  - constructor; [|constructor]. unfold is_digit. lia.
  - apply Forall_app. split; [apply IH; apply Z.div_pos; lia|]. constructor; [|constructor].
    unfold is_digit. pose proof (Z.mod_pos_bound n 10). lia.
Qed.
Lemma digits_digit n : 0 <= n -> Forall (fun c => is_digit c = true) (digits n).
Proof. apply digs_digit. Qed.
Lemma digits_nonnil n : digits n <> [].
Proof. unfold digits. cbn [digs]. destruct (n <? 10); [congruence|]. destruct (digs _ _); cbn; congruence. Qed.

(** printf of an int with a field width, padded with zeros ("%0wd"): the sign counts. *)
Definition print_int (w n : Z) : str :=
  let sign := if n <? 0 then [45] else [] in
  let ds := digits (Z.abs n) in
  sign ++ repeat 48 (Z.to_nat (w - zlen sign - zlen ds)) ++ ds.

Lemma zeros_val k l : digits_val (repeat 48 k ++ l) = digits_val l.
Proof.
  unfold digits_val. rewrite fold_left_app. f_equal. induction k as [|k IH]; cbn; auto.
Qed.
Lemma print_int_nonneg w n : 0 <= n -> Forall (fun c => is_digit c = true) (print_int w n).
Proof.
  intros H. unfold print_int. destruct (Z.ltb_spec n 0); [lia|]. cbn [app]. apply Forall_app. split.
  - apply Forall_forall. intros c Hc. apply repeat_spec in Hc. subst. reflexivity.
  - apply digits_digit. lia.
Qed.
Lemma print_int_inj w n m : print_int w n = print_int w m -> n = m.
Proof.
  assert (K : forall w n m, n < 0 -> 0 <= m -> print_int w n <> print_int w m).
  { intros w0 a b Ha Hb E. pose proof (print_int_nonneg w0 b Hb) as F. rewrite <- E in F. unfold print_int in F.
    destruct (Z.ltb_spec a 0); [|lia]. cbn [app] in F. inversion F as [|? ? H1 _]; subst. discriminate H1. }
  intros E. destruct (Z.lt_ge_cases n 0) as [Hn|Hn], (Z.lt_ge_cases m 0) as [Hm|Hm].
  2: { exfalso. exact (K w n m Hn Hm E). }
  2: { exfalso. exact (K w m n Hm Hn (eq_sym E)). }
  - unfold print_int in E. destruct (Z.ltb_spec n 0), (Z.ltb_spec m 0); try lia. cbn [app] in E. injection E as E.
    apply (f_equal digits_val) in E. rewrite !zeros_val, !digits_value in E by lia. lia.
  - unfold print_int in E. destruct (Z.ltb_spec n 0), (Z.ltb_spec m 0); try lia. cbn [app] in E.
    apply (f_equal digits_val) in E. rewrite !zeros_val, !digits_value in E by lia. lia.
Qed.

(** atoi: white space, an optional sign, digits; 0 if there are none. *)
Fixpoint drop_space (s : str) : str := match s with c :: s' => if is_space c then drop_space s' else s | [] => [] end.
Fixpoint take_digits (s : str) : str := match s with c :: s' => if is_digit c then c :: take_digits s' else [] | [] => [] end.
Definition atoi (s : str) : Z :=
  match drop_space s with
  | [] => 0
  | c :: s' => if c =? 45 then - digits_val (take_digits s')
               else if c =? 43 then digits_val (take_digits s')
               else digits_val (take_digits (c :: s'))
  end.

Lemma take_digits_all s : Forall (fun c => is_digit c = true) s -> take_digits s = s.
Proof. induction 1 as [|c s Hc _ IH]; cbn; auto. rewrite Hc, IH. auto. Qed.

(** sscanf/atoi of what printf wrote. *)
Lemma atoi_print w n : atoi (print_int w n) = n.
Proof.
  unfold print_int. destruct (Z.ltb_spec n 0).
  - cbn [app]. set (l := repeat 48 _ ++ _). assert (Hl : Forall (fun c => is_digit c = true) l).
    { apply Forall_app. split; [apply Forall_forall; intros c Hc; apply repeat_spec in Hc; subst; reflexivity|apply digits_digit; lia]. }
    unfold atoi. cbn [drop_space]. change (is_space 45) with false. cbv iota. change (45 =? 45) with true. cbv iota. rewrite take_digits_all by auto. unfold l. rewrite zeros_val, digits_value; lia.
  - cbn [app]. set (l := repeat 48 _ ++ _). assert (Hl : Forall (fun c => is_digit c = true) l).
    { apply Forall_app. split; [apply Forall_forall; intros c Hc; apply repeat_spec in Hc; subst; reflexivity|apply digits_digit; lia]. }
    assert (Hv : digits_val l = n) by (unfold l; rewrite zeros_val, digits_value; lia).
    assert (l <> []) by (unfold l; intros X; apply app_eq_nil in X; exact (digits_nonnil _ (proj2 X))).
    clearbody l. destruct l as [|c l]; [congruence|]. inversion Hl as [|? ? Hc Hl']; subst.
    unfold atoi. cbn [drop_space]. assert (is_space c = false) as -> by (unfold is_digit, is_space in *; lia).
    destruct (Z.eqb_spec c 45); [subst; discriminate|]. destruct (Z.eqb_spec c 43); [subst; discriminate|].
    rewrite take_digits_all; auto.
Qed.
