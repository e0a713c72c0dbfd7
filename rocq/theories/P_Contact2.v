(** * Proofs: joined fields, round trip of the contact strings, index conversion *)
From Coq Require Import String.
Open Scope list_scope.
From Verif Require Import Base Str M_ScatterName M_Contact Spec_Contact P_Contact Lst.

Definition plain_ (seps s : list Z) : Prop := forall c, In c s -> is_one_of seps c = false /\ blank c = false /\ c <> 0.
Lemma clean_app a b : clean (a ++ b) = clean a ++ clean b.
Proof. apply filter_app. Qed.
Lemma clean_plain seps f : plain_ seps f -> clean f = f.
Proof.
  induction f as [|c f IH]; intros H; auto. unfold clean in *. cbn [filter].
  destruct (H c) as (_ & B & _); [left; auto|]. rewrite B. cbn [negb]. f_equal. apply IH. intros d Hd. apply H. right; auto.
Qed.
Lemma pieces_plain_sep seps f c s : plain_ seps f -> is_one_of seps c = true ->
  pieces (is_one_of seps) (f ++ c :: s) = f :: pieces (is_one_of seps) s.
Proof.
  induction f as [|d f IH]; intros H Hc; cbn [app pieces].
  - now rewrite Hc.
  - destruct (H d) as (B & _); [left; auto|]. rewrite B, IH; auto. intros e He. apply H. right; auto.
Qed.
Lemma pieces_plain seps f : plain_ seps f -> pieces (is_one_of seps) f = [f].
Proof.
  induction f as [|d f IH]; intros H; cbn [pieces]; auto.
  destruct (H d) as (B & _); [left; auto|]. rewrite B, IH; auto. intros e He. apply H. right; auto.
Qed.
Lemma fields_last seps f : plain_ seps f -> fields_of seps f = [f].
Proof. intros H. rewrite fields_keep, (clean_plain seps), pieces_plain by auto. reflexivity. Qed.
Lemma fields_next seps f c s : plain_ seps f -> f <> [] -> is_one_of seps c = true -> blank c = false ->
  fields_of seps (f ++ c :: s) = f :: fields_of seps s.
Proof.
  intros H Hf Hc Hb. rewrite !fields_keep, clean_app, (clean_plain seps) by auto. unfold clean. cbn [filter]. rewrite Hb. cbn [negb].
  rewrite pieces_plain_sep by auto. pose proof (keep_glue_sep f (pieces (is_one_of seps) (clean s)) (pieces_ne _ _)) as K.
  unfold glue in K. rewrite app_nil_r in K. unfold clean in K. rewrite K. destruct f; [congruence|reflexivity].
Qed.
Lemma fields_sep seps c s : is_one_of seps c = true -> blank c = false -> fields_of seps (c :: s) = fields_of seps s.
Proof.
  intros Hc Hb. rewrite !fields_keep. unfold clean. cbn [filter]. rewrite Hb. cbn [negb pieces]. rewrite Hc.
  pose proof (keep_glue_sep [] (pieces (is_one_of seps) (clean s)) (pieces_ne _ _)) as K.
  unfold glue in K. cbn [app] in K. unfold clean in K. rewrite K. reflexivity.
Qed.

(** digits have few characters *)
Lemma digs_len k : forall fuel n, 0 <= n < 10 ^ Z.of_nat (S k) -> zlen (digs fuel n) <= Z.of_nat (S k).
Proof.
  induction k as [|k IH]; intros fuel n Hn; (destruct fuel as [|fuel]; [cbn; lia|]); cbn [digs].
  - change (10 ^ Z.of_nat 1) with 10 in Hn. destruct (Z.ltb_spec n 10); [cbn; lia|lia].
  - destruct (Z.ltb_spec n 10); [change (zlen [48 + n]) with 1; lia|]. rewrite zlen_app. change (zlen [48 + n mod 10]) with 1.
    specialize (IH fuel (n / 10)). rewrite Nat2Z.inj_succ with (n := S k) in Hn. rewrite Z.pow_succ_r in Hn by lia.
    assert (0 <= n / 10 < 10 ^ Z.of_nat (S k)); [|lia]. split; [apply Z.div_pos; lia|]. apply Z.div_lt_upper_bound; lia.
Qed.
Lemma print_len n : 0 <= n < 2147483648 -> zlen (print_int 0 n) <= 10.
Proof.
  intros H. unfold print_int. destruct (Z.ltb_spec n 0); [lia|]. cbn [app]. change (zlen []) with 0.
  pose proof (zlen_nonneg (digits (Z.abs n))). replace (Z.to_nat _) with O by lia. cbn [repeat app].
  rewrite Z.abs_eq by lia. unfold digits. apply (digs_len 9). split; [lia|]. change (10 ^ Z.of_nat 10) with 10000000000. lia.
Qed.
Lemma print_ne n : print_int 0 n <> [].
Proof. unfold print_int. intros H. apply app_eq_nil in H. destruct H as [_ H]. apply app_eq_nil in H. exact (digits_nonnil _ (proj2 H)). Qed.
Lemma print_plain seps n : 0 <= n -> forallb (fun c => negb (is_digit c)) seps = true -> plain_ seps (print_int 0 n).
Proof.
  intros Hn Hs c Hc. pose proof (print_int_nonneg 0 n Hn) as D. rewrite Forall_forall in D. specialize (D c Hc).
  assert (Hd : is_digit c = true) by exact D. split; [|split].
  - unfold is_one_of. destruct (existsb _ _) eqn:E; auto. apply existsb_exists in E. destruct E as (x & Hx & Q).
    apply Z.eqb_eq in Q. subst x. rewrite forallb_forall in Hs. specialize (Hs c Hx). rewrite Hd in Hs. discriminate.
  - unfold blank. unfold is_digit in Hd. lia.
  - unfold is_digit in Hd. lia.
Qed.
Lemma print_digits n : 0 <= n -> forallb is_digit (print_int 0 n) = true.
Proof. intros H. apply forallb_forall. intros c Hc. pose proof (print_int_nonneg 0 n H) as D. rewrite Forall_forall in D. exact (D c Hc). Qed.

(** What the formats print *)
Lemma spr_contact m a b : spr PLit (chars "%s:%s::%s:%s") [AStr m; AStr a; AStr m; AStr b]
  = Ok (m ++ 58 :: a ++ 58 :: 58 :: m ++ 58 :: b).
Proof.
  let x := eval vm_compute in (chars "%s:%s::%s:%s") in change (chars "%s:%s::%s:%s") with x.
  lazy [spr Z.eqb Pos.eqb conv_s bind]. cbn [app]. now rewrite app_nil_r.
Qed.
Lemma spr_index a0 a1 a2 a3 a4 a5 a6 a7 :
  spr PLit (chars "%d:%d,%d:%d::%d:%d,%d:%d") [AInt a0; AInt a1; AInt a2; AInt a3; AInt a4; AInt a5; AInt a6; AInt a7]
  = Ok (print_int 0 a0 ++ 58 :: print_int 0 a1 ++ 44 :: print_int 0 a2 ++ 58 :: print_int 0 a3 ++ 58 :: 58 ::
        print_int 0 a4 ++ 58 :: print_int 0 a5 ++ 44 :: print_int 0 a6 ++ 58 :: print_int 0 a7).
Proof.
  let x := eval vm_compute in (chars "%d:%d,%d:%d::%d:%d,%d:%d") in change (chars "%d:%d,%d:%d::%d:%d,%d:%d") with x.
  lazy [spr Z.eqb Pos.eqb conv_d bind orb]. cbn [app]. now rewrite app_nil_r.
Qed.

Lemma number_ok p r n : 0 <= r -> 0 <= n -> string_at p (r * STRING) (print_int 0 n) -> number STRING p r = Ok n.
Proof.
  intros Hr Hn H. unfold number. rewrite (row_string STRING p r (print_int 0 n)); auto; [|unfold STRING; lia]. cbn [bind].
  rewrite print_digits by auto. now rewrite atoi_print.
Qed.
Lemma find_tile_ok tiles : forall t name m, NoDup tiles -> zget tiles t = Some name -> find_tile name tiles m = Ok (m + t + 1).
Proof.
  induction tiles as [|x tiles IH]; intros t name m ND H; [rewrite zget_nil in H; discriminate|].
  inversion ND as [|? ? Nx ND']; subst. cbn [find_tile]. pose proof (zget_Some_range _ _ _ H) as R.
  destruct (Z.eq_dec t 0) as [->|].
  - rewrite zget_cons_0 in H. injection H as ->. rewrite str_eqb_refl. f_equal. lia.
  - rewrite zget_cons_pos in H by lia. assert (str_eqb x name = false) as ->.
    { apply str_eqb_false. intros ->. apply Nx. eapply zget_In; eauto. }
    rewrite (IH (t - 1) name (m + 1) ND' H). f_equal. lia.
Qed.

(** ** Index conversion *)
Lemma transfer_eq a n : 1 <= a <= 2 * n ->
  exists m, transfer_to_model_index a a 2 = Ok (0, m, m) /\ in_cell m a /\ 0 <= m < n.
Proof.
  intros H. unfold transfer_to_model_index. rewrite Z.eqb_refl.
  exists (Z.quot (a + 1) 2 - 1). rewrite Z.quot_div_nonneg by lia. split; auto.
  pose proof (Z.div_mod (a + 1) 2). pose proof (Z.mod_pos_bound (a + 1) 2). unfold in_cell. lia.
Qed.
Lemma even_rem a : 0 <= a -> negb (Z.rem a 2 =? 0) = Z.odd a.
Proof. intros H. rewrite Z.rem_mod_nonneg by lia. rewrite Zmod_odd. destruct (Z.odd a); reflexivity. Qed.
Lemma transfer_ne a b n : 1 <= a <= 2 * n -> 1 <= b <= 2 * n -> a <> b ->
  (whole_cells a b -> exists a' b', transfer_to_model_index a b 2 = Ok (1, a', b') /\
     in_cell a' a /\ in_cell b' b /\ 0 <= a' < n /\ 0 <= b' < n /\
     same_direction a b a' b' /\ 2 * range_len a' b' = range_len a b) /\
  (~ whole_cells a b -> transfer_to_model_index a b 2 = Err 10).
Proof.
  intros Ha Hb Hne. unfold transfer_to_model_index. destruct (Z.eqb_spec a b); [contradiction|].
  destruct (b >? a) eqn:G.
  - rewrite !even_rem by lia. unfold whole_cells. rewrite Z.min_l, Z.max_r by lia.
    rewrite Z.odd_sub, Z.odd_sub. change (Z.odd 1) with true. change (Z.odd 2) with false.
    rewrite <- Z.negb_odd, !xorb_true_r, xorb_false_r. split.
    + intros [O E]. rewrite O. destruct (Z.odd b) eqn:Ob; [discriminate|]. cbn [negb orb].
      exists (Z.quot (a - 1) 2), (Z.quot (b - 2) 2). split; auto. rewrite !Z.quot_div_nonneg by lia.
      apply Z.odd_spec in O. destruct O as [u ->]. assert (Z.even b = true) as Eb by (rewrite <- Z.negb_odd, Ob; auto).
      apply Z.even_spec in Eb. destruct Eb as [v ->].
      replace (2 * u + 1 - 1) with (u * 2) by lia. replace (2 * v - 2) with ((v - 1) * 2) by lia.
      rewrite !Z.div_mul by lia. unfold in_cell, same_direction, range_len. lia.
    + intros H. destruct (Z.odd a), (Z.odd b); cbn in *; auto. exfalso. auto.
  - rewrite !even_rem by lia. unfold whole_cells. rewrite Z.min_r, Z.max_l by lia.
    rewrite Z.odd_sub, Z.odd_sub. change (Z.odd 1) with true. change (Z.odd 2) with false.
    rewrite <- Z.negb_odd, !xorb_true_r, xorb_false_r. split.
    + intros [O E]. rewrite O. destruct (Z.odd a) eqn:Ob; [discriminate|]. cbn [negb orb].
      exists (Z.quot (a - 2) 2), (Z.quot (b - 1) 2). split; auto. rewrite !Z.quot_div_nonneg by lia.
      apply Z.odd_spec in O. destruct O as [u ->]. assert (Z.even a = true) as Eb by (rewrite <- Z.negb_odd, Ob; auto).
      apply Z.even_spec in Eb. destruct Eb as [v ->].
      replace (2 * u + 1 - 1) with (u * 2) by lia. replace (2 * v - 2) with ((v - 1) * 2) by lia.
      rewrite !Z.div_mul by lia. unfold in_cell, same_direction, range_len. lia.
    + intros H. destruct (Z.odd a), (Z.odd b); cbn in *; auto. exfalso. auto.
Qed.
