From Coq Require Import String.
Open Scope list_scope.
From Verif Require Import Base Str M_ScatterName Loops Grid2 M_Supergrid Spec_Supergrid Lst P_Contact2.

Lemma get_block_run {V} d0 d1 (f : list V) s0 s1 n0 n1 :
  0 <= s0 -> 0 <= s1 -> 0 <= n0 -> 0 <= n1 -> s0 + n0 <= d0 -> s1 + n1 <= d1 -> zlen f = d0 * d1 ->
  exists b, get_block d0 d1 f s0 s1 n0 n1 = Ok b /\ zlen b = n0 * n1 /\
    forall j i, 0 <= j < n0 -> 0 <= i < n1 -> zget b (j * n1 + i) = zget f ((s0 + j) * d1 + (s1 + i)).
Proof.
  intros H1 H2 H3 H4 H5 H6 HL. unfold get_block.
  destruct (_ || _) eqn:E. { repeat rewrite orb_true_iff in E. lia. } clear E.
  rewrite (ofor_nest n0 n1 (fun b j i => do v <- oget f ((s0 + j) * d1 + (s1 + i)) ; Ok (b ++ [v]))) by auto.
  set (P := fun (m : Z) (b : list V) => zlen b = m /\ forall k, 0 <= k < m -> zget b k = zget f ((s0 + k / n1) * d1 + (s1 + k mod n1))).
  match goal with |- context [ofor 0 ?N ?g ?x] => destruct (ofor_inv P g 0 N x) as (b & E & L & H) end.
  - nia.
  - split; auto. intros; lia.
  - intros m b Hm [L H]. destruct (divmod_range n0 n1 m H4 Hm) as (Q0 & Q1 & Q2 & _).
    destruct (zget_in_range f ((s0 + m / n1) * d1 + (s1 + m mod n1))) as [v Ev].
    { rewrite HL. apply rowmajor_range; lia. }
    rewrite (proj2 (oget_Ok _ _ _) Ev). cbn [bind]. eexists. split; [reflexivity|]. split.
    + rewrite zlen_app, L. reflexivity.
    + intros k Hk. destruct (Z.eq_dec k m) as [->|].
      * rewrite zget_app_r by lia. rewrite L, Z.sub_diag, zget_cons_0. auto.
      * rewrite zget_app_l by lia. apply H. lia.
  - exists b. split; auto. split; [lia|]. intros j i Hj Hi. rewrite H by nia.
    rewrite rowmajor_div, rowmajor_mod by lia. auto.
Qed.

Lemma is_prefix_spec p : forall s, is_prefix p s = true <-> exists b, s = p ++ b.
Proof.
  induction p as [|a p IH]; intros s; cbn [is_prefix app].
  - split; eauto.
  - destruct s as [|c s]; [split; [discriminate|intros (b & E); discriminate]|].
    rewrite andb_true_iff, Z.eqb_eq, IH. split.
    + intros (-> & b & ->). eauto.
    + intros (b & E). injection E as -> ->. eauto.
Qed.
Lemma strstr_spec p s : strstr s p = true <-> occurs p s.
Proof.
  unfold occurs. induction s as [|c s IH]; cbn [strstr]; rewrite orb_true_iff, is_prefix_spec.
  - split.
    + intros [(b & E)|]; [|discriminate]. exists [], b. auto.
    + intros (a & b & E). destruct a; [|discriminate]. left. eauto.
  - rewrite IH. split.
    + intros [(b & E)|(a & b & E)]; [exists [], b; auto|]. exists (c :: a), b. cbn. congruence.
    + intros (a & b & E). destruct a as [|x a]; [left; exists b; auto|]. injection E as -> E. right. eauto.
Qed.

(** the pattern of tile [n] *)
Definition pat (n : Z) : list Z := chars ".tile" ++ print_int 0 n ++ chars ".nc".
Lemma spr_pat n : spr PLit (chars ".tile%d.nc") [AInt n] = Ok (pat n).
Proof.
  unfold pat. let x := eval vm_compute in (chars ".tile%d.nc") in change (chars ".tile%d.nc") with x.
  lazy [spr Z.eqb Pos.eqb conv_d bind orb]. cbn [app]. reflexivity.
Qed.
Lemma digit_dot n : 0 <= n -> ~ In 46 (print_int 0 n).
Proof. intros H I. destruct (print_plain (chars ".") n H eq_refl 46 I) as (X & _). discriminate X. Qed.

(** The only occurrence of a tile pattern in base.tileN.nc is the last one. *)
Lemma app_split {A} (a b c d : list A) : a ++ b = c ++ d ->
  (exists t, c = a ++ t /\ b = t ++ d) \/ (exists t, a = c ++ t /\ d = t ++ b).
Proof.
  revert c. induction a as [|x a IH]; intros c E.
  - left. exists c. auto.
  - destruct c as [|y c]; cbn in E.
    + right. exists (x :: a). cbn. auto.
    + injection E as -> E. destruct (IH c E) as [(t & -> & ->)|(t & -> & ->)]; [left|right]; exists t; auto.
Qed.
Lemma nodot_split u v x y : ~ In 46 u -> ~ In 46 v -> u ++ 46 :: x = v ++ 46 :: y -> u = v /\ x = y.
Proof.
  revert v. induction u as [|a u IH]; intros [|b v] Hu Hv E; cbn in E.
  - injection E as ->. auto.
  - injection E as E1 E2. exfalso. apply Hv. left. congruence.
  - injection E as E1 E2. exfalso. apply Hu. left. congruence.
  - injection E as -> E. destruct (IH v) as [-> ->]; auto; intros I; [apply Hu|apply Hv]; right; auto.
Qed.
Lemma cons_inv_ {A} (x y : A) l l' : x :: l = y :: l' -> x = y /\ l = l'.
Proof. intros E. injection E. auto. Qed.
Lemma pat_occurs base n N : 0 <= n -> 0 <= N -> ~ occurs (chars ".tile") base ->
  occurs (pat n) (base ++ pat N) -> n = N.
Proof.
  intros Hn HN Hb (a & b & E). unfold pat in E.
  change (chars ".tile") with (46 :: chars "tile") in E. cbn [app] in E.
  assert (Hd : forall m, 0 <= m -> ~ In 46 (chars "tile" ++ print_int 0 m)).
  { intros m Hm I. apply in_app_iff in I. destruct I as [I|I]; [cbn in I; intuition discriminate|]. exact (digit_dot m Hm I). }
  destruct (app_split _ _ _ _ E) as [(t & -> & E1)|(t & -> & E1)].
  - destruct t as [|c t].
    + cbn [app] in E1. apply cons_inv_ in E1. destruct E1 as [_ E1].
      assert (E2 : (chars "tile" ++ print_int 0 N) ++ 46 :: chars "nc" = (chars "tile" ++ print_int 0 n) ++ 46 :: chars "nc" ++ b).
      { rewrite <- !app_assoc. rewrite <- ?app_assoc in E1. exact E1. }
      apply nodot_split in E2; auto. destruct E2 as [E2 _]. apply app_inv_head in E2. apply print_int_inj in E2. auto.
    + cbn [app] in E1. apply cons_inv_ in E1. destruct E1 as [_ E1]. exfalso.
      (* the pattern starts after the first dot of the suffix *)
      assert (E2 : (chars "tile" ++ print_int 0 N) ++ 46 :: chars "nc" = t ++ 46 :: chars "tile" ++ (print_int 0 n ++ chars ".nc") ++ b).
      { rewrite <- !app_assoc. rewrite <- ?app_assoc in E1. exact E1. }
      destruct (in_dec Z.eq_dec 46 t) as [I|I].
      * apply in_split in I. destruct I as (t1 & t2 & ->).
        apply (f_equal (fun l => count_occ Z.eq_dec l 46)) in E2. rename E2 into C.
        repeat first [rewrite count_occ_app in C | progress cbn [count_occ] in C].
        destruct (Z.eq_dec 46 46); [|congruence].
        assert (K0 : count_occ Z.eq_dec (print_int 0 N) 46 = 0%nat) by (apply count_occ_not_In, digit_dot; auto).
        rewrite K0 in C. change (count_occ Z.eq_dec (chars "tile") 46) with 0%nat in C. change (count_occ Z.eq_dec (chars "nc") 46) with 0%nat in C. lia.
      * apply nodot_split in E2; auto. destruct E2 as [_ E2]. discriminate E2.
  - (* the pattern starts inside base *)
    destruct t as [|c t].
    { cbn [app] in E1. (* same as above, t = [] *)
      cbn [app] in E1. apply cons_inv_ in E1. destruct E1 as [_ E1].
      assert (E2 : (chars "tile" ++ print_int 0 N) ++ 46 :: chars "nc" = (chars "tile" ++ print_int 0 n) ++ 46 :: chars "nc" ++ b).
      { rewrite <- !app_assoc. rewrite <- ?app_assoc in E1. symmetry. exact E1. }
      apply nodot_split in E2; auto. destruct E2 as [E2 _]. apply app_inv_head in E2. apply print_int_inj in E2. auto. }
    exfalso. cbn [app] in E1. apply cons_inv_ in E1. destruct E1 as [<- E1].
    assert (E2 : chars "tile" ++ (print_int 0 n ++ chars ".nc") ++ b = t ++ 46 :: chars "tile" ++ print_int 0 N ++ chars ".nc").
    { rewrite <- !app_assoc. rewrite <- ?app_assoc in E1. exact E1. }
    destruct (app_split _ _ _ _ E2) as [(u & -> & _)|(u & E3 & E4)].
    + apply Hb. exists a, u. reflexivity.
    + destruct u as [|d u].
      * apply Hb. exists a, []. rewrite app_nil_r in E3. subst t. reflexivity.
      * apply cons_inv_ in E4. destruct E4 as [<- _]. assert (I : In 46 (chars "tile")) by (rewrite E3; apply in_app_iff; right; left; auto).
        cbn in I. intuition discriminate.
Qed.
